(** The error a decoder has to report, stated on the bytes.  Specification part: no readers.  [fault E d t e bs]
    says that the first thing wrong with [bs] as the form of a [t], in the order of the format, is reported as [e].
    The parts before it are described by [Format.form].  The decoders are proved to report exactly this (C62). *)

From Verif Require Import Base Prog Prim PrimL Utf8 Ty De Spec Format.
From Coq Require Import List NArith ZArith Bool.
Import ListNotations.
Open Scope N_scope.

(** The input ends within the next [n] bytes. *)
Definition short (n : N) (e : err) (x : bytes) : Prop := e = EIo /\ len x < n.
(** After [F], [G]. *)
Definition after (F : bytes -> Prop) (G : err -> bytes -> Prop) (e : err) (x : bytes) : Prop := exists y z, x = y ++ z /\ F y /\ G e z.
(** Whatever follows. *)
Definition says (e0 e : err) (x : bytes) : Prop := e = e0.
(** A part of [n] bytes that is taken out first and then read by itself. *)
Definition part (n : N) (G : err -> bytes -> Prop) (e : err) (x : bytes) : Prop :=
  short n e x \/ exists y z, x = y ++ z /\ len y = n /\ G e y.
(** One of [n] items, those before it being good. *)
Definition list_fault {A} (n : N) (F : A -> bytes -> Prop) (G : err -> bytes -> Prop) (e : err) (x : bytes) : Prop :=
  exists l, len l < n /\ after (items F l) G e x.
Definition pair_fault {A} (F : A -> bytes -> Prop) (G H : err -> bytes -> Prop) (e : err) (x : bytes) : Prop :=
  G e x \/ exists a, after (F a) H e x.
(** [Result] and [Bound] replace the error of their content by a text. *)
Definition wrapped (G : err -> bytes -> Prop) (e : err) (x : bytes) : Prop := e = EDeserialize MInner /\ exists e', G e' x.

(** Variable-length numbers: 251, 252, 253, 254 announce 2, 4, 8, 16 bytes; 64 bit numbers have no 254. *)
Definition announced (m : N) : N := if m =? 251 then 2 else if m =? 252 then 4 else if m =? 253 then 8 else if m =? 254 then 16 else 0.
Definition varint_fault (w : N) (e : err) (x : bytes) : Prop :=
  match x with
  | [] => e = EIo
  | m :: y => if m =? 255 then e = EInvalidInt
              else if (m =? 254) && (w =? 64) then e = EOverflow
              else short (announced m) e y
  end.

(** [char]: the length follows from the first byte. *)
Definition lead_len (b : N) : option N :=
  if b <? 128 then Some 1
  else if (192 <=? b) && (b <? 224) then Some 2
  else if (224 <=? b) && (b <? 240) then Some 3
  else if (240 <=? b) && (b <? 248) then Some 4
  else None.
Definition char_fault (e : err) (x : bytes) : Prop :=
  match x with
  | [] => e = EIo
  | b :: y => match lead_len b with
              | None => e = EInvalidChar
              | Some n => short n e x \/ (e = EInvalidChar /\ exists p q, x = p ++ q /\ len p = n /\ forall c, scalar c -> p <> utf8_encode c)
              end
  end.

(** The fields of a struct or variant, as in [fields_form]. *)
Inductive fields_fault (mode_form : fmode -> ty -> val -> bytes -> Prop) (mode_fault : fmode -> ty -> err -> bytes -> Prop) (opt : bool) (cur tgt : N)
  : list field -> err -> bytes -> Prop :=
| fx_kept : forall f fs e x, falive cur f = true -> falive tgt f = true -> mode_fault (mode_of opt f) (f_ty f) e x ->
    fields_fault mode_form mode_fault opt cur tgt (f :: fs) e x
| fx_old : forall f fs e x, falive cur f = true -> falive tgt f = false -> mode_fault (mode_removed opt f) (f_ty f) e x ->
    fields_fault mode_form mode_fault opt cur tgt (f :: fs) e x
| fx_added : forall f fs e x, falive cur f = false -> falive tgt f = true -> f_default f cur = Err e ->
    fields_fault mode_form mode_fault opt cur tgt (f :: fs) e x
| fx_after_kept : forall f fs v e x y, falive cur f = true -> falive tgt f = true -> mode_form (mode_of opt f) (f_ty f) v x ->
    fields_fault mode_form mode_fault opt cur tgt fs e y -> fields_fault mode_form mode_fault opt cur tgt (f :: fs) e (x ++ y)
| fx_after_old : forall f fs v e x y, falive cur f = true -> falive tgt f = false -> mode_form (mode_removed opt f) (f_ty f) v x ->
    fields_fault mode_form mode_fault opt cur tgt fs e y -> fields_fault mode_form mode_fault opt cur tgt (f :: fs) e (x ++ y)
| fx_after_added : forall f fs v e x, falive cur f = false -> falive tgt f = true -> f_default f cur = Ok v ->
    fields_fault mode_form mode_fault opt cur tgt fs e x -> fields_fault mode_form mode_fault opt cur tgt (f :: fs) e x
| fx_neither : forall f fs e x, falive cur f = false -> falive tgt f = false ->
    fields_fault mode_form mode_fault opt cur tgt fs e x -> fields_fault mode_form mode_fault opt cur tgt (f :: fs) e x.

Section Diag.
Variable E : env.

(** Numbers of the wide types; [usize] and [isize] take every 64 bit number. *)
Definition code_fault (i : ity) (e : err) (x : bytes) : Prop :=
  if e_fw E then short (ity_bits 64 i / 8) e x else varint_fault (wire_bits i) e x.
Definition int_fault (i : ity) (e : err) (x : bytes) : Prop :=
  match i with
  | U8 | I8 => short 1 e x
  | Usize | Isize => code_fault i e x
  | _ => code_fault i e x \/ (e = EOverflow /\ exists n, padded (code_form E i n) x /\ ~ in_ity (e_ub E) i (number i n))
  end.
Definition len_fault : err -> bytes -> Prop := int_fault Usize.
Definition counted_fault {A} (F : A -> bytes -> Prop) (G : err -> bytes -> Prop) (e : err) (x : bytes) : Prop :=
  len_fault e x \/ exists n, after (len_form E n) (list_fault n F G) e x.
Definition blob_fault (e : err) (x : bytes) : Prop := len_fault e x \/ exists n, after (len_form E n) (short n) e x.
Definition text_fault (e : err) (x : bytes) : Prop :=
  len_fault e x \/ exists n, after (len_form E n) (part n (fun e b => e = EUtf8 /\ ~ utf8_text b)) e x.
(** The lengths of indexed containers: their reader knows no 16 byte numbers, and checks the range of [usize]. *)
Definition idx_len_fault (e : err) (x : bytes) : Prop :=
  match x with
  | [] => e = EIo
  | m :: y => if 253 <? m then e = EInvalidInt
              else short (announced m) e y \/ (e = EOverflow /\ exists n, padded (fun p => denotes 64 p n) x /\ 2 ^ e_ub E <= n)
  end.
(** Vectors in bulk form: the number of bytes has to fit [usize], decimals excepted. *)
Definition bulk_fault (k : bk) (e : err) (x : bytes) : Prop :=
  len_fault e x \/ exists n, after (len_form E n)
    (match k with
     | BBool => short ((n + 7) / 8)
     | BFix _ w => if n * N.of_nat w <? 2 ^ e_ub E then short (n * N.of_nat w) else says EOverflow
     | BRaw false => if n * 16 <? 2 ^ e_ub E then short (n * 16) else says EOverflow
     | BRaw true => short (n * 16)
     end) e x.

Section Rec.
(** The forms of the derived types, and their faults. *)
Variable frec : N -> val -> bytes -> Prop.
Variable rec : N -> err -> bytes -> Prop.
Fixpoint fault_ty (t : ty) (e : err) (x : bytes) {struct t} : Prop :=
  match t with
  | TBool => short 1 e x \/ exists b z, x = b :: z /\ b <> 0 /\ b <> 1 /\ e = EInvalidBool b
  | TInt i => int_fault i e x
  | TF32 => short 4 e x
  | TF64 => short 8 e x
  | TChar => char_fault e x
  | TStr | TPath => text_fault e x
  | TBytes => blob_fault e x
  | TUuid | TDecimal => short 16 e x
  | TUnit => False
  | TPair a b => pair_fault (form_ty E frec a) (fault_ty a) (fault_ty b) e x
  | TVec t' => match (if e_spec E then bulk_of t' else None) with
               | Some k => bulk_fault k e x
               | None => counted_fault (form_ty E frec t') (fault_ty t') e x
               end
  | TImVec t' | TSet _ t' | THeap t' => counted_fault (form_ty E frec t') (fault_ty t') e x
  | TArray n t' => list_fault (N.of_nat n) (form_ty E frec t') (fault_ty t') e x
  | TOption t' => short 1 e x \/ (exists z, x = 1 :: z /\ fault_ty t' e z)
      \/ exists b z, x = b :: z /\ b <> 0 /\ b <> 1 /\ e = EDeserialize MBadOption
  | TResult a b => int_fault U32 e x
      \/ after (int_form E U32 0) (wrapped (fault_ty a)) e x
      \/ after (int_form E U32 1) (wrapped (fault_ty b)) e x
      \/ exists k, (1 < k)%Z /\ after (int_form E U32 k) (says (EDeserialize MUnknownVariant)) e x
  | TBound t' => int_fault U32 e x
      \/ after (int_form E U32 1) (wrapped (fault_ty t')) e x
      \/ after (int_form E U32 2) (wrapped (fault_ty t')) e x
      \/ exists k, (2 < k)%Z /\ after (int_form E U32 k) (says (EDeserialize MUnknownVariant)) e x
  | TMap _ a b => counted_fault (entry_form (form_ty E frec a) (form_ty E frec b)) (pair_fault (form_ty E frec a) (fault_ty a) (fault_ty b)) e x
  | TWrap t' => fault_ty t' e x
  | TDuration | TSystemTime => pair_fault (int_form E U64) (int_fault U64) (int_fault U32) e x
  | TExt c _ t' => fault_ty t' e x \/ (e = EDeserialize (MExternal c) /\ exists v, padded (form_ty E frec t' v) x /\ e_ext E c v = None)
  | TRef n => rec n e x
  end.

(** Containers of [indexed_*] fields. *)
Definition idx_map_fault (a b : ty) (e : err) (x : bytes) : Prop :=
  short 1 e x \/ exists f z, x = f :: z /\
  (idx_len_fault e z \/ exists n, after (idx_len_form E n)
     (fun e x =>
      if N.odd f then
        if n * 8 <? 2 ^ e_ub E then
          exists m, table_len E n = Some m /\
          (short m e x \/ after (any m) (fun e x => list_fault n (form_ty E frec a) (fault_ty a) e x
             \/ exists ks, len ks = n /\ after (items (form_ty E frec a) ks) (list_fault n (form_ty E frec b) (fault_ty b)) e x) e x)
        else e = ESubReaderOverrun
      else list_fault n (entry_form (form_ty E frec a) (form_ty E frec b)) (pair_fault (form_ty E frec a) (fault_ty a) (fault_ty b)) e x) e z).
Definition idx_seq_fault (t : ty) (e : err) (x : bytes) : Prop :=
  short 1 e x \/ exists f z, x = f :: z /\
  (idx_len_fault e z \/ exists n, after (idx_len_form E n)
     (fun e x =>
      if N.odd f then
        if n * 4 <? 2 ^ e_ub E then short (n * 4) e x \/ after (any (n * 4)) (list_fault n (form_ty E frec t) (fault_ty t)) e x
        else e = ESubReaderOverrun
      else list_fault n (form_ty E frec t) (fault_ty t) e x) e z).
Definition mode_fault (m : fmode) (t : ty) (e : err) (x : bytes) : Prop :=
  match m, t with
  | MPlain, _ => fault_ty t e x
  | MFixed, _ => match fixed_of t with Some (_, w) => short (N.of_nat w) e x | None => False end
  | MBulk, TVec t' => match bulk_of t' with Some k => bulk_fault k e x | None => False end
  | MIdxMap, TMap _ a b => idx_map_fault a b e x
  | MIdxSeq, TVec t' | MIdxSeq, TImVec t' | MIdxSet, TSet _ t' => idx_seq_fault t' e x
  | _, _ => False
  end.

(** The [convert_fn]s run when all fields are read. *)
Inductive convert_fails (cur : N) : list val -> list (field * val) -> err -> Prop :=
| cf_here : forall l f v old e, f_convert f l cur v = Err e -> convert_fails cur l ((f, v) :: old) e
| cf_later : forall l f v old l1 e, f_convert f l cur v = Ok l1 -> convert_fails cur l1 old e -> convert_fails cur l ((f, v) :: old) e.
Definition content_fault (opt : bool) (cur tgt : N) (fs : list field) (e : err) (x : bytes) : Prop :=
  fields_fault (mode_form E frec) mode_fault opt cur tgt fs e x
  \/ exists l old, padded (fields_form (mode_form E frec) opt cur tgt fs l old) x /\ convert_fails cur l old e.
(** A four byte length and that many bytes. *)
Definition sized_fault (G : err -> bytes -> Prop) (e : err) (x : bytes) : Prop :=
  short 4 e x \/ exists y z, x = y ++ z /\ len y = 4 /\ part (le_val y) G e z.
Definition struct_fault (h : hent) (cur tgt : N) (fs : list field) (e : err) (x : bytes) : Prop :=
  if h_opt h then
    sized_fault (fun e p => let m := if h_idx h then 4 * len (filter (falive cur) fs) else 0 in
                            (e = ESubReaderOverrun /\ len p < m) \/ after (any m) (content_fault true cur tgt fs) e p) e x
  else content_fault false cur tgt fs e x.
(** The [convert_fn] of a variant that is gone. *)
Definition variant_fault (cur tgt : N) (vr : variant) (l : list val) (e : err) : Prop :=
  valive tgt vr = false /\ v_convert vr l cur = Err e.
Definition opt_fields_fault (cur : N) (fs : list field) (e : err) (x : bytes) : Prop :=
  exists fs1 f fs2 l, filter (falive cur) fs = fs1 ++ f :: fs2 /\ length l = length fs1 /\
  after (items (fun p y => form_ty E frec (f_ty (fst p)) (snd p) y) (combine fs1 l)) (fault_ty (f_ty f)) e x.
Definition payload_fault (s : vsize) (G : err -> bytes -> Prop) (e : err) (x : bytes) : Prop :=
  match s with
  | SInline => G e []
  | SFixed n => part n G e x
  | SVarlen => sized_fault G e x
  end.
Definition enum_fault (h : hent) (cur tgt : N) (vs : list variant) (e : err) (x : bytes) : Prop :=
  exists ds, calc_disc cur vs = Some ds /\
  if h_opt h then
    short 1 e x \/ exists tag z, x = tag :: z /\
    if tag / 32 mod 4 =? 3 then e = EInvalidTag tag
    else (e = EDeserialize MUnknownVariant /\ forall vr s, In (vr, tag mod 32) ds -> v_size vr = Some s -> tag / 32 mod 4 <> class_code s)
      \/ exists vr s, In (vr, tag mod 32) ds /\ v_size vr = Some s /\ tag / 32 mod 4 = class_code s
         /\ (payload_fault s (opt_fields_fault cur (v_fields vr)) e z
             \/ exists l, padded (payload_form s (opt_fields_form E frec cur (v_fields vr) l)) z /\ variant_fault cur tgt vr l e)
  else
    int_fault U32 e x
    \/ exists k, after (int_form E U32 (Z.of_N k)) (fun e z =>
         (e = EDeserialize MUnknownVariant /\ forall vr, ~ In (vr, k) ds)
         \/ exists vr, In (vr, k) ds /\ (content_fault false cur tgt (v_fields vr) e z
              \/ exists l, padded (content_form E frec false cur tgt (v_fields vr) l) z /\ variant_fault cur tgt vr l e)) e x.
Definition derived_fault (s : schema) (e : err) (x : bytes) : Prop :=
  int_fault U16 e x
  \/ exists r, after (int_form E U16 (Z.of_N r)) (fun e y =>
       match sent s r with
       | None => e = EDeserialize MInvalidRevision
       | Some h => match s_body s with SStruct fs => struct_fault h r (scur s) fs e y | SEnum vs => enum_fault h r (scur s) vs e y end
       end) e x.
End Rec.
Fixpoint fault_ref (d : nat) (n : N) (e : err) (x : bytes) : Prop :=
  match d with
  | O => False
  | S d' => exists s, e_sch E n = Some s /\ derived_fault (form_ref E d') (fault_ref d') s e x
  end.
Definition fault_in (d : nat) (t : ty) (e : err) (x : bytes) : Prop := fault_ty (form_ref E d) (fault_ref d) t e x.
End Diag.
(** Memory plays no part in it. *)
Definition unlimited (E : env) : env :=
  mkEnv (e_fw E) (e_spec E) (e_dbg E) (e_ub E) None (e_esize E) (e_cmp E) (e_iter E) (e_dec E) (e_ext E) (e_time E) (e_sch E).
Definition fault (E : env) : nat -> ty -> err -> bytes -> Prop := fault_in (unlimited E).
