(** Which byte strings can be skipped as a value of a given type.  Specification part: no readers.  The skippers
    are proved to pass over exactly these (C61). *)

From Verif Require Import Base Prog Prim Utf8 Ty De Spec Format.
From Coq Require Import List NArith ZArith Bool.
Import ListNotations.
Open Scope N_scope.

(** [n] pieces, each of them [F]. *)
Definition pieces (n : N) (F : bytes -> Prop) (x : bytes) : Prop := exists xs, len xs = n /\ Forall F xs /\ x = concat xs.
(** A four byte length and that many bytes, whatever they are. *)
Definition opaque (x : bytes) : Prop := exists y z, x = y ++ z /\ len y = 4 /\ le_val y = len z.

Section SkipForm.
Variable E : env.
(** A length, then so many pieces. *)
Definition counted_pieces (F : bytes -> Prop) (x : bytes) : Prop := exists n, both (len_form E n) (pieces n F) x.
Definition counted_bytes (x : bytes) : Prop := exists n, both (len_form E n) (any n) x.
(** A vector in bulk form, by the length alone. *)
Definition bulk_shape (k : bk) (x : bytes) : Prop :=
  exists n, both (len_form E n)
    (any (match k with BBool => (n + 7) / 8 | BFix _ w => n * N.of_nat w | BRaw _ => n * 16 end)) x
    /\ match k with BBool => True | BFix _ w => n * N.of_nat w < 2 ^ e_ub E | BRaw _ => n * 16 < 2 ^ e_ub E end.

Section Rec.
(** What can be skipped as a derived type, and the forms of the derived types. *)
Variable rec : N -> bytes -> Prop.
Variable form_rec : N -> val -> bytes -> Prop.
Fixpoint shape_ty (t : ty) (x : bytes) {struct t} : Prop :=
  match t with
  (* as checked by the decoder *)
  | TBool | TInt _ | TF32 | TF64 | TChar | TDuration | TPath => exists v, form_ty E form_rec t v x
  | TStr | TBytes => counted_bytes x
  | TUuid | TDecimal => len x = 16
  | TUnit => x = []
  | TPair a b => both (shape_ty a) (shape_ty b) x
  | TVec t' => match (if e_spec E then bulk_of t' else None) with
               | Some k => bulk_shape k x
               | None => counted_pieces (shape_ty t') x
               end
  | TImVec t' | TSet _ t' | THeap t' => counted_pieces (shape_ty t') x
  | TArray n t' => pieces (N.of_nat n) (shape_ty t') x
  | TOption t' => x = [0] \/ both (eq [1]) (shape_ty t') x
  | TResult a b => both (int_form E U32 0) (shape_ty a) x \/ both (int_form E U32 1) (shape_ty b) x
  | TBound t' => int_form E U32 0 x \/ both (int_form E U32 1) (shape_ty t') x \/ both (int_form E U32 2) (shape_ty t') x
  | TMap _ a b => counted_pieces (both (shape_ty a) (shape_ty b)) x
  | TWrap t' => shape_ty t' x
  (* seconds and nanoseconds, out of range or not *)
  | TSystemTime => exists s n, both (int_form E U64 s) (int_form E U32 n) x
  | TExt _ mirror t' => if mirror then exists v, form_ty E form_rec t v x else shape_ty t' x
  | TRef n => rec n x
  end.

(** The fields present at revision [cur], [fixed] ones by their width, all others as their type. *)
Fixpoint fields_shape (cur : N) (fs : list field) (x : bytes) : Prop :=
  match fs with
  | [] => x = []
  | f :: fs' =>
      if falive cur f then
        both (if f_fixed f then match fixed_of (f_ty f) with Some (_, w) => any (N.of_nat w) | None => fun _ => False end
              else shape_ty (f_ty f))
             (fields_shape cur fs') x
      else fields_shape cur fs' x
  end.
(** The payload of an optimised enum by its tag: nothing, the number of bytes declared for this variant (none if no
    variant of that number has a declared size), or as many as announced. *)
Definition declared_size (ds : list (variant * N)) (id n : N) : Prop :=
  (exists vr, In (vr, id) ds /\ v_size vr = Some (SFixed n))
  \/ (n = 0 /\ forall vr m, In (vr, id) ds -> v_size vr <> Some (SFixed m)).
Definition tagged_shape (ds : list (variant * N)) (x : bytes) : Prop :=
  exists tag y, x = tag :: y /\
  match tag / 32 mod 4 with
  | 0 => y = []
  | 1 => exists n, declared_size ds (tag mod 32) n /\ len y = n
  | 2 => opaque y
  | _ => False
  end.
Definition body_shape (s : schema) (h : hent) (r : N) (x : bytes) : Prop :=
  match s_body s with
  | SStruct fs => if h_opt h then opaque x else fields_shape r fs x
  | SEnum vs =>
      exists ds, calc_disc r vs = Some ds /\
      if h_opt h then tagged_shape ds x
      else exists vr k, In (vr, k) ds /\ both (int_form E U32 (Z.of_N k)) (fields_shape r (v_fields vr)) x
  end.
Definition derived_shape (s : schema) (x : bytes) : Prop :=
  exists r h, sent s r = Some h /\ both (int_form E U16 (Z.of_N r)) (body_shape s h r) x.
End Rec.
(** Derived types nested at most [d] deep. *)
Fixpoint shape_ref (d : nat) (n : N) (x : bytes) : Prop :=
  match d with
  | O => False
  | S d' => exists s, e_sch E n = Some s /\ derived_shape (shape_ref d') (form_ref E d') s x
  end.
Definition shape (d : nat) (t : ty) (x : bytes) : Prop := shape_ty (shape_ref d) (form_ref E d) t x.

(** What passes the checking skip: the forms of the values, save that a time directly inside tuples, ranges and arrays may be
    out of range. *)
Fixpoint check_shape (d : nat) (t : ty) (x : bytes) {struct t} : Prop :=
  match t with
  | TUnit => x = []
  | TPair a b => both (check_shape d a) (check_shape d b) x
  | TArray n t' => pieces (N.of_nat n) (check_shape d t') x
  | TSystemTime => exists s n, both (int_form E U64 s) (int_form E U32 n) x
  | _ => exists v, form E d t v x
  end.

(** [indexed_*] fields: the flags, the length; without a table the entries; with one, as far as the two region
    lengths after the table say, or, for sequences, one element after the last offset. *)
Definition idx_map_shape (d : nat) (a b : ty) (x : bytes) : Prop :=
  (exists n, both (flagged false) (both (idx_len_form E n) (pieces n (both (shape d a) (shape d b)))) x)
  \/ exists n table k v, n * 8 < 2 ^ e_ub E /\ len table = n * 8 /\ len k = 4 /\ len v = 4 /\ le_val k + le_val v < 2 ^ e_ub E
     /\ both (flagged true) (both (idx_len_form E n) (both (eq (table ++ k ++ v)) (any (le_val k + le_val v)))) x.
Definition idx_seq_shape (d : nat) (a : ty) (x : bytes) : Prop :=
  (exists n, both (flagged false) (both (idx_len_form E n) (pieces n (shape d a))) x)
  \/ both (flagged true) (idx_len_form E 0) x
  \/ exists n table last, 0 < n /\ n * 4 < 2 ^ e_ub E /\ len table + 4 = n * 4 /\ len last = 4
     /\ both (flagged true) (both (idx_len_form E n) (both (eq (table ++ last)) (both (any (le_val last)) (shape d a)))) x.
End SkipForm.
