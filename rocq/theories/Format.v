(** The wire format as a grammar: which byte strings stand for which values.  Specification part: no readers,
    no writers.  The decoders are proved to accept exactly this (C49). *)

From Verif Require Import Base Prog Prim PrimL Utf8 Ty De Spec.
From Coq Require Import List NArith ZArith Bool.
Import ListNotations.
Open Scope N_scope.

(** The integer a two's complement code of [w] bits stands for. *)
Definition twos (w n : N) : Z := if n <? 2 ^ (w - 1) then Z.of_N n else (Z.of_N n - 2 ^ Z.of_N w)%Z.
(** A little-endian integer of a given number of bytes. *)
Definition le_form (signed : bool) (w : N) (z : Z) (x : bytes) : Prop :=
  len x = w /\ z = if signed then twos (8 * w) (le_val x) else Z.of_N (le_val x).

(** One after the other. *)
Definition both (F G : bytes -> Prop) (x : bytes) : Prop := exists y z, x = y ++ z /\ F y /\ G z.
Definition items {A} (F : A -> bytes -> Prop) (l : list A) (x : bytes) : Prop := exists xs, Forall2 F l xs /\ x = concat xs.
(** With bytes after it that mean nothing. *)
Definition padded (F : bytes -> Prop) (x : bytes) : Prop := exists y z, x = y ++ z /\ F y.
Definition any (n : N) (x : bytes) : Prop := len x = n.

(** UTF-8. *)
Definition utf8_text (b : bytes) : Prop := exists cs, Forall scalar cs /\ b = flat_map utf8_encode cs.

(** The fields of a struct or variant at revision [cur], read by a program at revision [tgt]: the data of the
    fields of [cur] in declaration order.  [l]: the fields of the program, those that are not in the data from
    their [default_fn]; [old]: those the program no longer has; [mode_form]: the forms of one field. *)
Inductive fields_form (mode_form : fmode -> ty -> val -> bytes -> Prop) (opt : bool) (cur tgt : N) : list field -> list val -> list (field * val) -> bytes -> Prop :=
| ff_nil : fields_form mode_form opt cur tgt [] [] [] []
| ff_kept : forall f fs v l old x y, falive cur f = true -> falive tgt f = true -> mode_form (mode_of opt f) (f_ty f) v x ->
    fields_form mode_form opt cur tgt fs l old y -> fields_form mode_form opt cur tgt (f :: fs) (v :: l) old (x ++ y)
| ff_old : forall f fs v l old x y, falive cur f = true -> falive tgt f = false -> mode_form (mode_removed opt f) (f_ty f) v x ->
    fields_form mode_form opt cur tgt fs l old y -> fields_form mode_form opt cur tgt (f :: fs) l ((f, v) :: old) (x ++ y)
| ff_added : forall f fs v l old x, falive cur f = false -> falive tgt f = true -> f_default f cur = Ok v ->
    fields_form mode_form opt cur tgt fs l old x -> fields_form mode_form opt cur tgt (f :: fs) (v :: l) old x
| ff_neither : forall f fs l old x, falive cur f = false -> falive tgt f = false ->
    fields_form mode_form opt cur tgt fs l old x -> fields_form mode_form opt cur tgt (f :: fs) l old x.

Section Format.
Variable E : env.

(** Integers.  With the feature fixed-width-encoding the code has the width of the type (usize: 8 bytes), without
    it the variable-length form.  [u8] and [i8] are one byte.  Numbers too large for [usize] wrap around. *)
Definition code_form (i : ity) (n : N) (x : bytes) : Prop :=
  if e_fw E then len x = ity_bits 64 i / 8 /\ n = le_val x else denotes (wire_bits i) x n.
Definition int_form (i : ity) (z : Z) (x : bytes) : Prop :=
  match i with
  | U8 => le_form false 1 z x
  | I8 => le_form true 1 z x
  | Usize => exists n, code_form i n x /\ z = Z.of_N (n mod 2 ^ e_ub E)
  | Isize => exists n, code_form i n x /\ z = twos (e_ub E) (Z.to_N (number i n mod 2 ^ Z.of_N (e_ub E)))
  | _ => exists n, code_form i n x /\ z = number i n /\ in_ity (e_ub E) i z
  end.
Definition len_form (n : N) (x : bytes) : Prop := int_form Usize (Z.of_N n) x.
(** The lengths of indexed containers: serialize.rs:891-915. *)
Definition idx_len_form (n : N) (x : bytes) : Prop := denotes 64 x n /\ n < 2 ^ e_ub E.
(** A length, then so many items. *)
Definition counted {A} (F : A -> bytes -> Prop) (l : list A) : bytes -> Prop := both (len_form (len l)) (items F l).
Definition blob (b : bytes) : bytes -> Prop := both (len_form (len b)) (fun x => x = b).

(** Vectors in bulk form. *)
Definition packed (l : list val) (x : bytes) : Prop :=
  len x = (len l + 7) / 8 /\ forall i, i < len l -> nth_error l (N.to_nat i) = Some (VBool (N.testbit (nth (N.to_nat (i / 8)) x 0) (i mod 8))).
Definition bulk_form (k : bk) (l : list val) : bytes -> Prop :=
  both (len_form (len l))
    (fun x => match k with
              | BBool => packed l x
              | BFix s w => len l * N.of_nat w < 2 ^ e_ub E /\ items (fun v y => exists z, v = VInt z /\ le_form s (N.of_nat w) z y) l x
              | BRaw false => len l * 16 < 2 ^ e_ub E /\ items (fun v y => len y = 16 /\ v = VBytes y) l x
              | BRaw true => items (fun v y => len y = 16 /\ v = VBytes (e_dec E y)) l x
              end).

(** Seconds and nanoseconds: the nanoseconds may exceed a second. *)
Definition time_form (max : Z) (v : val) (x : bytes) : Prop :=
  exists s n, both (int_form U64 s) (int_form U32 n) x /\ (s + n / 1000000000 < 2 ^ 64)%Z /\ (s + n / 1000000000 <= max)%Z
    /\ v = VPair (VInt (s + n / 1000000000)) (VInt (n mod 1000000000)).

Section Rec.
(** The forms of the derived types. *)
Variable rec : N -> val -> bytes -> Prop.
Definition entry_form (F G : val -> bytes -> Prop) (v : val) (x : bytes) : Prop := exists p q, v = VPair p q /\ both (F p) (G q) x.
Fixpoint form_ty (t : ty) (v : val) (x : bytes) {struct t} : Prop :=
  match t with
  | TBool => (v = VBool false /\ x = [0]) \/ (v = VBool true /\ x = [1])
  | TInt i => exists z, v = VInt z /\ int_form i z x
  | TF32 => exists z, v = VInt z /\ le_form false 4 z x
  | TF64 => exists z, v = VInt z /\ le_form false 8 z x
  | TChar => exists c, v = VInt (Z.of_N c) /\ scalar c /\ x = utf8_encode c
  | TStr | TPath => exists b, v = VBytes b /\ utf8_text b /\ blob b x
  | TBytes => exists b, v = VBytes b /\ blob b x
  | TUuid => len x = 16 /\ v = VBytes x
  | TDecimal => len x = 16 /\ v = VBytes (e_dec E x)
  | TUnit => v = VUnit /\ x = []
  | TPair a b => entry_form (form_ty a) (form_ty b) v x
  | TVec t' => exists l, v = VSeq l /\ match (if e_spec E then bulk_of t' else None) with
                                      | Some k => bulk_form k l x
                                      | None => counted (form_ty t') l x
                                      end
  | TImVec t' => exists l, v = VSeq l /\ counted (form_ty t') l x
  | TArray n t' => exists l, v = VSeq l /\ length l = n /\ items (form_ty t') l x
  | TOption t' => (v = VVar 0 [] /\ x = [0]) \/ exists y, v = VVar 1 [y] /\ both (eq [1]) (form_ty t' y) x
  | TResult a b => exists y, (v = VVar 0 [y] /\ both (int_form U32 0) (form_ty a y) x) \/ (v = VVar 1 [y] /\ both (int_form U32 1) (form_ty b y) x)
  | TBound t' => (v = VVar 0 [] /\ int_form U32 0 x)
      \/ exists y, (v = VVar 1 [y] /\ both (int_form U32 1) (form_ty t' y) x) \/ (v = VVar 2 [y] /\ both (int_form U32 2) (form_ty t' y) x)
  | TMap k a b => exists l, v = VSeq (build_map E k a l) /\ counted (entry_form (form_ty a) (form_ty b)) l x
  | TSet k t' => exists l, v = VSeq (build_set E k t' l) /\ counted (form_ty t') l x
  | THeap t' => exists l, v = VSeq (ssort vcmp l) /\ counted (form_ty t') l x
  | TWrap t' => form_ty t' v x
  | TDuration => time_form (2 ^ 64) v x
  | TSystemTime => time_form (e_time E) v x
  | TExt c _ t' => exists y, form_ty t' y x /\ e_ext E c y = Some v
  | TRef n => rec n v x
  end.

(** Containers of [indexed_*] fields: a byte whose lowest bit says whether there is a table, the length, the table
    (which is not looked at), then the entries; with a table, first all keys and then all values. *)
Definition table_len (n : N) : option N :=
  if n * 8 + 8 <? 2 ^ e_ub E then Some (n * 8 + 8) else if e_dbg E then None else Some (n * 8 + 8 - 2 ^ e_ub E).
Definition flagged (b : bool) (x : bytes) : Prop := exists f, x = [f] /\ N.odd f = b.
Definition idx_map_form (a b : ty) (l : list val) (x : bytes) : Prop :=
  both (flagged false) (both (idx_len_form (len l)) (items (entry_form (form_ty a) (form_ty b)) l)) x
  \/ exists ks vs m, l = map (fun p => VPair (fst p) (snd p)) (combine ks vs) /\ length ks = length vs /\ len l * 8 < 2 ^ e_ub E /\ table_len (len l) = Some m
     /\ both (flagged true) (both (idx_len_form (len l)) (both (any m) (both (items (form_ty a) ks) (items (form_ty b) vs)))) x.
Definition idx_seq_form (t : ty) (l : list val) (x : bytes) : Prop :=
  both (flagged false) (both (idx_len_form (len l)) (items (form_ty t) l)) x
  \/ (len l * 4 < 2 ^ e_ub E /\ both (flagged true) (both (idx_len_form (len l)) (both (any (len l * 4)) (items (form_ty t) l))) x).
Definition mode_form (m : fmode) (t : ty) (v : val) (x : bytes) : Prop :=
  match m, t with
  | MPlain, _ => form_ty t v x
  | MFixed, _ => match fixed_of t with Some (s, w) => exists z, v = VInt z /\ le_form s (N.of_nat w) z x | None => False end
  | MBulk, TVec t' => match bulk_of t' with Some k => exists l, v = VSeq l /\ bulk_form k l x | None => False end
  | MIdxMap, TMap k a b => exists l, v = VSeq (build_idx_map E a l) /\ idx_map_form a b l x
  | MIdxSeq, TVec t' | MIdxSeq, TImVec t' => exists l, v = VSeq l /\ idx_seq_form t' l x
  | MIdxSet, TSet k t' => exists l, v = VSeq (build_set E k t' l) /\ idx_seq_form t' l x
  | _, _ => False
  end.

(** Then the [convert_fn]s of the fields that are gone, in declaration order. *)
Inductive converted (cur : N) : list val -> list (field * val) -> list val -> Prop :=
| cv_nil : forall l, converted cur l [] l
| cv_cons : forall l f v old l1 l2, f_convert f l cur v = Ok l1 -> converted cur l1 old l2 -> converted cur l ((f, v) :: old) l2.
Definition content_form (opt : bool) (cur tgt : N) (fs : list field) (l : list val) (x : bytes) : Prop :=
  exists l0 old, fields_form mode_form opt cur tgt fs l0 old x /\ converted cur l0 old l.
(** A four byte length and that many bytes, of which the beginning is [F]. *)
Definition sized (F : bytes -> Prop) (x : bytes) : Prop :=
  exists y z, x = y ++ z /\ len y = 4 /\ le_val y = len z /\ padded F z.
Definition struct_form (h : hent) (cur tgt : N) (fs : list field) (v : val) (x : bytes) : Prop :=
  exists l, v = VSeq l /\
  if h_opt h then
    sized (both (any (if h_idx h then 4 * len (filter (falive cur) fs) else 0)) (content_form true cur tgt fs l)) x
  else content_form false cur tgt fs l x.
(** A variant that is gone is handed to its [convert_fn]. *)
Definition variant_value (cur tgt : N) (vr : variant) (l : list val) (v : val) : Prop :=
  if valive tgt vr then v = VVar (v_name vr) l else v_convert vr l cur = Ok v.
Definition opt_fields_form (cur : N) (fs : list field) (l : list val) (x : bytes) : Prop :=
  items (fun p y => form_ty (f_ty (fst p)) (snd p) y) (combine (filter (falive cur) fs) l) x /\ length l = length (filter (falive cur) fs).
(** Optimised enums: one byte with the variant in its five low bits and the size class in the next two, then the
    payload.  Field defaults and converts play no role. *)
Definition payload_form (s : vsize) (F : bytes -> Prop) (x : bytes) : Prop :=
  match s with
  | SInline => x = [] /\ F []
  | SFixed n => len x = n /\ padded F x
  | SVarlen => sized F x
  end.
Definition class_code (s : vsize) : N := match s with SInline => 0 | SFixed _ => 1 | SVarlen => 2 end.
Definition enum_form (h : hent) (cur tgt : N) (vs : list variant) (v : val) (x : bytes) : Prop :=
  exists ds vr l, calc_disc cur vs = Some ds /\ variant_value cur tgt vr l v /\
  if h_opt h then
    exists tag s, v_size vr = Some s /\ In (vr, tag mod 32) ds /\ tag / 32 mod 4 = class_code s
      /\ both (eq [tag]) (payload_form s (opt_fields_form cur (v_fields vr) l)) x
  else exists k, In (vr, k) ds /\ both (int_form U32 (Z.of_N k)) (content_form false cur tgt (v_fields vr) l) x.
(** The revision, then the data. *)
Definition derived_form (s : schema) (v : val) (x : bytes) : Prop :=
  exists r h, sent s r = Some h /\
  both (int_form U16 (Z.of_N r))
    (fun y => match s_body s with SStruct fs => struct_form h r (scur s) fs v y | SEnum vs => enum_form h r (scur s) vs v y end) x.
End Rec.
(** Derived types nested at most [d] deep. *)
Fixpoint form_ref (d : nat) (n : N) (v : val) (x : bytes) : Prop :=
  match d with
  | O => False
  | S d' => exists s, e_sch E n = Some s /\ derived_form (form_ref d') s v x
  end.
Definition form (d : nat) (t : ty) (v : val) (x : bytes) : Prop := form_ty (form_ref d) t v x.
End Format.
