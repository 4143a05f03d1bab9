(** The one-byte tag of the optimised enum envelope: src/optimised/tag.rs.  Model part. *)

From Verif Require Import Base Prog.
From Coq Require Import List NArith Bool.
Import ListNotations.
Open Scope N_scope.

(** tag.rs:33-41 [SizeClass]. *)
Inductive sclass := CInline | CFixed | CVarlen.

(** tag.rs:20-27: the masks. *)
Definition VARIANT_ID_MASK : N := 31.
Definition SIZE_CLASS_MASK : N := 96.
Definition SIZE_CLASS_SHIFT : N := 5.
Definition EXTENDED_BIT : N := 128.

(** tag.rs:45-51. *)
Definition to_bits (s : sclass) : N := match s with CInline => 0 | CFixed => 1 | CVarlen => 2 end.
(** tag.rs:54-61. *)
Definition from_bits (b : N) : option sclass :=
  if b =? 0 then Some CInline else if b =? 1 then Some CFixed else if b =? 2 then Some CVarlen
  else None.

(** tag.rs:75-78 [Tag::new], without its [debug_assert!] (see [tag_new_checked]). *)
Definition tag_new (id : N) (s : sclass) : N :=
  N.lor (N.land id VARIANT_ID_MASK) (N.shiftl (to_bits s) SIZE_CLASS_SHIFT mod 256).
(** The same with the assertion of line 76, [dbg] = debug assertions compiled in. *)
Definition tag_new_checked (dbg : bool) (id : N) (s : sclass) : res N :=
  if dbg && negb (id <? 32) then Panic PAssert else Ok (tag_new id s).
(** tag.rs:82-84. *)
Definition variant_id (t : N) : N := N.land t VARIANT_ID_MASK.
(** tag.rs:88-93. *)
Definition size_class (t : N) : res sclass :=
  match from_bits (N.shiftr (N.land t SIZE_CLASS_MASK) SIZE_CLASS_SHIFT) with
  | Some s => Ok s
  | None => Err (EInvalidTag t)
  end.
(** tag.rs:97-99. *)
Definition is_extended (t : N) : bool := negb (N.land t EXTENDED_BIT =? 0).

(** tag.rs:104-108, 112-114. *)
Definition read_tag : prog N := read_byte.
Definition write_tag (t : N) : ser := sall [t].

(** envelope.rs:58-62 [read_optimised_tag]. *)
Definition read_optimised_tag : prog (N * sclass) :=
  t <- read_tag ;; s <- of_res (size_class t) ;; Ret (t, s).
(** envelope.rs:68-72 [read_varlen_len]. *)
Definition read_varlen_len : prog N := x <- read_n 4 ;; Ret (le_val x).
(** envelope.rs:15-17. *)
Definition encode_inline (id : N) : ser := write_tag (tag_new id CInline).
(** envelope.rs:25-31. *)
Definition encode_fixed (id : N) (body : ser) : ser := write_tag (tag_new id CFixed) +++ body.
(** envelope.rs:40-53. *)
Definition encode_varlen (id : N) (body : ser) : ser :=
  write_tag (tag_new id CVarlen) +++
  rbind (ser_bytes body) (fun scratch =>
    if len scratch <? 2 ^ 32 then Ok [WAll (le_bytes 4 (len scratch)); WAll scratch]
    else Err (ESerialize MTooLong)).
