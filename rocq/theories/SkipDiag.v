(** The error a skip has to report, stated on the bytes.  Specification part: no readers.  [obstacle E d t e bs] says
    that the first thing in [bs] at which it cannot be passed over as a [t], in the order of the format, is reported as
    [e].  What comes before it is described by [SkipForm.shape].  The skippers are proved to report exactly this (C88). *)

From Verif Require Import Base Prog Prim PrimL Utf8 Ty De Spec Format Diag SkipForm.
From Coq Require Import List NArith ZArith Bool.
Import ListNotations.
Open Scope N_scope.

(** One of [n] pieces, those before it being [F]. *)
Definition piece_fault (n : N) (F : bytes -> Prop) (G : err -> bytes -> Prop) (e : err) (x : bytes) : Prop :=
  exists k, k < n /\ after (pieces k F) G e x.
(** A four byte length and that many bytes, whatever they are. *)
Definition opaque_fault (e : err) (x : bytes) : Prop :=
  short 4 e x \/ exists y z, x = y ++ z /\ len y = 4 /\ short (le_val y) e z.

Section SkipDiag.
Variable E : env.
Definition counted_pieces_fault (F : bytes -> Prop) (G : err -> bytes -> Prop) (e : err) (x : bytes) : Prop :=
  len_fault E e x \/ exists n, after (len_form E n) (piece_fault n F G) e x.
(** Vectors in bulk form: the number of bytes has to fit [usize]. *)
Definition bulk_obstacle (k : bk) (e : err) (x : bytes) : Prop :=
  len_fault E e x \/ exists n, after (len_form E n)
    (match k with
     | BBool => short ((n + 7) / 8)
     | BFix _ w => if n * N.of_nat w <? 2 ^ e_ub E then short (n * N.of_nat w) else says EOverflow
     | BRaw _ => if n * 16 <? 2 ^ e_ub E then short (n * 16) else says EOverflow
     end) e x.

Section Rec.
(** What can be skipped as a derived type and what stops it; the forms of the derived types and their faults. *)
Variable srec : N -> bytes -> Prop.
Variable rec : N -> err -> bytes -> Prop.
Variable form_rec : N -> val -> bytes -> Prop.
Variable fault_rec : N -> err -> bytes -> Prop.
Fixpoint obstacle_ty (t : ty) (e : err) (x : bytes) {struct t} : Prop :=
  match t with
  (* as reported by the decoder *)
  | TBool | TInt _ | TF32 | TF64 | TChar | TDuration | TPath => fault_ty E form_rec fault_rec t e x
  | TStr | TBytes => blob_fault E e x
  | TUuid | TDecimal => short 16 e x
  | TUnit => False
  | TPair a b => obstacle_ty a e x \/ after (shape_ty E srec form_rec a) (obstacle_ty b) e x
  | TVec t' => match (if e_spec E then bulk_of t' else None) with
               | Some k => bulk_obstacle k e x
               | None => counted_pieces_fault (shape_ty E srec form_rec t') (obstacle_ty t') e x
               end
  | TImVec t' | TSet _ t' | THeap t' => counted_pieces_fault (shape_ty E srec form_rec t') (obstacle_ty t') e x
  | TArray n t' => piece_fault (N.of_nat n) (shape_ty E srec form_rec t') (obstacle_ty t') e x
  | TOption t' => short 1 e x \/ (exists z, x = 1 :: z /\ obstacle_ty t' e z)
      \/ exists b z, x = b :: z /\ b <> 0 /\ b <> 1 /\ e = EDeserialize MBadOption
  (* the error of the content is kept, unlike in [Diag.fault] *)
  | TResult a b => int_fault E U32 e x
      \/ after (int_form E U32 0) (obstacle_ty a) e x
      \/ after (int_form E U32 1) (obstacle_ty b) e x
      \/ exists k, (1 < k)%Z /\ after (int_form E U32 k) (says (EDeserialize MUnknownVariant)) e x
  | TBound t' => int_fault E U32 e x
      \/ after (int_form E U32 1) (obstacle_ty t') e x
      \/ after (int_form E U32 2) (obstacle_ty t') e x
      \/ exists k, (2 < k)%Z /\ after (int_form E U32 k) (says (EDeserialize MUnknownVariant)) e x
  | TMap _ a b => counted_pieces_fault (both (shape_ty E srec form_rec a) (shape_ty E srec form_rec b))
      (fun e x => obstacle_ty a e x \/ after (shape_ty E srec form_rec a) (obstacle_ty b) e x) e x
  | TWrap t' => obstacle_ty t' e x
  | TSystemTime => int_fault E U64 e x \/ exists s, after (int_form E U64 s) (int_fault E U32) e x
  | TExt _ mirror t' => if mirror then fault_ty E form_rec fault_rec t e x else obstacle_ty t' e x
  | TRef n => rec n e x
  end.

(** One of the fields present at revision [cur]. *)
Fixpoint fields_obstacle (cur : N) (fs : list field) (e : err) (x : bytes) : Prop :=
  match fs with
  | [] => False
  | f :: fs' =>
      if falive cur f then
        if f_fixed f then
          match fixed_of (f_ty f) with
          | Some (_, w) => short (N.of_nat w) e x \/ after (any (N.of_nat w)) (fields_obstacle cur fs') e x
          | None => False
          end
        else obstacle_ty (f_ty f) e x \/ after (shape_ty E srec form_rec (f_ty f)) (fields_obstacle cur fs') e x
      else fields_obstacle cur fs' e x
  end.
(** The payload of an optimised enum by its tag. *)
Definition tagged_obstacle (ds : list (variant * N)) (e : err) (x : bytes) : Prop :=
  short 1 e x \/ exists tag z, x = tag :: z /\
  match tag / 32 mod 4 with
  | 0 => False
  | 1 => exists n, declared_size ds (tag mod 32) n /\ short n e z
  | 2 => opaque_fault e z
  | _ => e = EInvalidTag tag
  end.
Definition body_obstacle (s : schema) (h : hent) (r : N) (e : err) (x : bytes) : Prop :=
  match s_body s with
  | SStruct fs => if h_opt h then opaque_fault e x else fields_obstacle r fs e x
  | SEnum vs =>
      exists ds, calc_disc r vs = Some ds /\
      if h_opt h then tagged_obstacle ds e x
      else int_fault E U32 e x
        \/ exists k, after (int_form E U32 (Z.of_N k)) (fun e z =>
             (e = EDeserialize MUnknownVariant /\ forall vr, ~ In (vr, k) ds)
             \/ exists vr, In (vr, k) ds /\ fields_obstacle r (v_fields vr) e z) e x
  end.
Definition derived_obstacle (s : schema) (e : err) (x : bytes) : Prop :=
  int_fault E U16 e x
  \/ exists r, after (int_form E U16 (Z.of_N r)) (fun e z =>
       (e = EDeserialize MInvalidRevision /\ sent s r = None)
       \/ exists h, sent s r = Some h /\ body_obstacle s h r e z) e x.
End Rec.
(** Derived types nested at most [d] deep. *)
Fixpoint obstacle_ref (d : nat) (n : N) (e : err) (x : bytes) : Prop :=
  match d with
  | O => False
  | S d' => exists s, e_sch E n = Some s /\ derived_obstacle (shape_ref E d') (obstacle_ref d') (form_ref E d') (fault_ref E d') s e x
  end.
Definition obstacle_in (d : nat) (t : ty) (e : err) (x : bytes) : Prop :=
  obstacle_ty (shape_ref E d) (obstacle_ref d) (form_ref E d) (fault_ref E d) t e x.
End SkipDiag.
(** Memory plays no part in it. *)
Definition obstacle (E : env) : nat -> ty -> err -> bytes -> Prop := obstacle_in (unlimited E).

Section More.
Variable E : env.

(** The checking skip reports the faults of the decoder. *)
Fixpoint check_fault (d : nat) (t : ty) (e : err) (x : bytes) {struct t} : Prop :=
  match t with
  | TUnit => False
  | TPair a b => check_fault d a e x \/ after (check_shape E d a) (check_fault d b) e x
  | TArray n t' => piece_fault (N.of_nat n) (check_shape E d t') (check_fault d t') e x
  | TSystemTime => int_fault E U64 e x \/ exists s, after (int_form E U64 s) (int_fault E U32) e x
  | _ => fault E d t e x
  end.

(** [indexed_*] fields.  With a table, the sizes of the table, and of what the two region lengths or the last offset
    make up, have to fit [usize]. *)
Definition idx_map_obstacle (d : nat) (a b : ty) (e : err) (x : bytes) : Prop :=
  short 1 e x \/ exists f z, x = f :: z /\
  (idx_len_fault E e z \/ exists n, after (idx_len_form E n)
     (fun e x =>
      if N.odd f then
        if n * 8 <? 2 ^ e_ub E then
          short (n * 8 + 8) e x \/ exists table k v y, x = table ++ k ++ v ++ y /\ len table = n * 8 /\ len k = 4 /\ len v = 4
            /\ if le_val k + le_val v <? 2 ^ e_ub E then short (le_val k + le_val v) e y else e = ESubReaderOverrun
        else e = ESubReaderOverrun
      else piece_fault n (both (shape E d a) (shape E d b)) (fun e x => obstacle E d a e x \/ after (shape E d a) (obstacle E d b) e x) e x) e z).
Definition idx_seq_obstacle (d : nat) (a : ty) (e : err) (x : bytes) : Prop :=
  short 1 e x \/ exists f z, x = f :: z /\
  (idx_len_fault E e z \/ exists n, after (idx_len_form E n)
     (fun e x =>
      if N.odd f then
        0 < n /\
        if n * 4 <? 2 ^ e_ub E then
          short (n * 4) e x \/ exists table last y, x = table ++ last ++ y /\ len table + 4 = n * 4 /\ len last = 4
            /\ (short (le_val last) e y \/ after (any (le_val last)) (obstacle E d a) e y)
        else e = ESubReaderOverrun
      else piece_fault n (shape E d a) (obstacle E d a) e x) e z).
End More.
