(** Which values have which type, which derive inputs compile, which environments are real.
    Specification part: it does not mention bytes. *)

From Verif Require Import Base BaseL Prog Prim PrimL Utf8 Tag Ty.
From Coq Require Import List NArith ZArith Bool Sorted Permutation.
Import ListNotations.
Open Scope N_scope.

Section Typed.
Variable E : env.

(** Lengths are [usize]; a bulk vector's byte length too (a Rust allocation has at most
    [isize::MAX] bytes). *)
Definition fits (n : N) : Prop := n < 2 ^ e_ub E.
Definition vec_fits (t : ty) (n : N) : Prop :=
  match bulk_of t with
  | Some (BFix _ w) => fits (n * N.of_nat w)
  | Some (BRaw _) => fits (n * 16)
  | _ => True
  end.

Section Rec.
Variable rec : N -> val -> Prop.

Fixpoint wt_ty (t : ty) (v : val) {struct t} : Prop :=
  match t, v with
  | TBool, VBool _ => True
  | TInt i, VInt z => in_ity (e_ub E) i z
  | TF32, VInt z => inU 32 z
  | TF64, VInt z => inU 64 z
  | TChar, VInt z => (0 <= z)%Z /\ scalar (Z.to_N z)
  | TStr, VBytes b => wfb b /\ utf8_ok b = true /\ fits (len b)
  | TPath, VBytes b => wfb b /\ fits (len b)
  | TBytes, VBytes b => wfb b /\ fits (len b)
  | TUuid, VBytes b => wfb b /\ len b = 16
  | TDecimal, VBytes b => wfb b /\ len b = 16 /\ e_dec E b = b
  | TUnit, VUnit => True
  | TPair a b, VPair x y => wt_ty a x /\ wt_ty b y
  | TVec t', VSeq l => fits (len l) /\ vec_fits t' (len l) /\ Forall (wt_ty t') l
  | TImVec t', VSeq l => fits (len l) /\ Forall (wt_ty t') l
  | TArray n t', VSeq l => length l = n /\ Forall (wt_ty t') l
  | TOption t', VVar k l =>
      match k, l with 0, [] => True | 1, [x] => wt_ty t' x | _, _ => False end
  | TResult a b, VVar k l =>
      match k, l with 0, [x] => wt_ty a x | 1, [x] => wt_ty b x | _, _ => False end
  | TBound t', VVar k l =>
      match k, l with 0, [] => True | 1, [x] => wt_ty t' x | 2, [x] => wt_ty t' x | _, _ => False end
  (* maps and sets: the entries in the order of their keys, no two keys equal *)
  | TMap _ a b, VSeq l =>
      fits (len l)
      /\ Forall (fun p => match p with VPair x y => wt_ty a x /\ wt_ty b y | _ => False end) l
      /\ StronglySorted (fun p q => e_cmp E a (pkey p) (pkey q) = Lt) l
  | TSet _ t', VSeq l =>
      fits (len l) /\ Forall (wt_ty t') l /\ StronglySorted (fun x y => e_cmp E t' x y = Lt) l
  (* heaps: the multiset of the elements, listed in the structural order *)
  | THeap t', VSeq l =>
      fits (len l) /\ Forall (wt_ty t') l /\ StronglySorted (fun x y => vcmp x y <> Gt) l
  | TWrap t', _ => wt_ty t' v
  | TDuration, VPair (VInt s) (VInt n) => inU 64 s /\ (0 <= n < 1000000000)%Z
  | TSystemTime, VPair (VInt s) (VInt n) => (s <= e_time E)%Z /\ (0 <= n < 1000000000)%Z
  | TExt c _ t', _ => wt_ty t' v /\ e_ext E c v = Some v
  | TRef n, _ => rec n v
  | _, _ => False
  end.

Definition wt_fields (r : N) (fs : list field) (vs : list val) : Prop :=
  Forall2 (fun f v => wt_ty (f_ty f) v) (filter (falive r) fs) vs.

(** A struct has the fields alive at its current revision; an enum value is one of the variants
    alive at its current revision, with its alive fields. *)
Definition wt_derived (s : schema) (v : val) : Prop :=
  match s_body s, v with
  | SStruct fs, VSeq l => wt_fields (scur s) fs l
  | SEnum vs, VVar k l =>
      exists vr, In vr vs /\ v_name vr = k /\ valive (scur s) vr = true
                 /\ wt_fields (scur s) (v_fields vr) l
  | _, _ => False
  end.
End Rec.

(** [depth] bounds how many derived types are nested in each other. *)
Fixpoint wt_ref (depth : nat) (n : N) (v : val) : Prop :=
  match depth with
  | O => False
  | S d => match e_sch E n with Some s => wt_derived (wt_ref d) s v | None => False end
  end.
Definition wt (depth : nat) (t : ty) (v : val) : Prop := wt_ty (wt_ref depth) t v.
End Typed.

(** ** Derive inputs that compile *)

(** Attribute and type agree: common.rs:136 ([fixed]), trait bounds of the emitted calls
    ([specialised], [indexed_*]). *)
Definition mode_ok (m : fmode) (t : ty) : bool :=
  match m, t with
  | MPlain, _ => true
  | MFixed, _ => match fixed_of t with Some _ => true | None => false end
  | MBulk, TVec t' => match bulk_of t' with Some _ => true | None => false end
  | MIdxMap, TMap _ _ _ => true
  | MIdxSeq, TVec _ | MIdxSeq, TImVec _ => true
  | MIdxSet, TSet _ _ => true
  | _, _ => false
  end.
Definition field_ok (f : field) : bool :=
  mode_ok (mode_legacy f) (f_ty f) && mode_ok (mode_opt f) (f_ty f).

(** Optimised revision [r] of an enum whose current revision is [cur]: mod.rs
    ValidateOptimised for every optimised revision; enum_codegen.rs:107-112 rejects [inline]
    variants with live fields, but only while emitting the encoder, that is for [cur]. *)
Definition opt_variant_ok (cur r : N) (p : variant * N) : bool :=
  (snd p <? 32) &&
  match v_size (fst p) with
  | None => false
  | Some SInline => negb (r =? cur) || match filter (falive r) (v_fields (fst p)) with [] => true | _ => false end
  | Some (SFixed n) => n <? 256
  | Some SVarlen => true
  end.
Definition rev_ok (cur : N) (vs : list variant) (r : N) (h : hent) : Prop :=
  exists ds, calc_disc r vs = Some ds
             /\ Forall (fun p => snd p < 2 ^ 32) ds
             /\ (h_opt h = true -> forallb (opt_variant_ok cur r) ds = true).

Definition wf_schema (s : schema) : Prop :=
  0 < scur s /\ scur s < 2 ^ 16 /\
  match s_body s with
  | SStruct fs => forallb field_ok fs = true
  | SEnum vs =>
      NoDup (map v_name vs)
      /\ Forall (fun v => forallb field_ok (v_fields v) = true) vs
      /\ forall r h, sent s r = Some h -> rev_ok (scur s) vs r h
  end.

(** ** Environments *)

(** A total preorder: [Ord] on user types obeying its contract. *)
Record lawful (cmp : val -> val -> comparison) : Prop := {
  law_sym : forall x y, cmp y x = CompOpp (cmp x y);
  law_lt : forall x y z, cmp x y = Lt -> cmp y z = Lt -> cmp x z = Lt;
  law_eq : forall x y z, cmp x y = Eq -> cmp y z = cmp x z
}.

Record wf_env (E : env) : Prop := {
  we_ub : e_ub E = 32 \/ e_ub E = 64;
  we_cmp : forall t, lawful (e_cmp E t);
  we_iter : forall t l, Permutation (e_iter E t l) l;
  we_dec : forall b, wfb b -> len b = 16 ->
           wfb (e_dec E b) /\ len (e_dec E b) = 16 /\ e_dec E (e_dec E b) = e_dec E b;
  we_ext : forall c v w, e_ext E c v = Some w -> e_ext E c w = Some w;
  we_time : (0 <= e_time E < 2 ^ 64)%Z;
  we_sch : forall n s, e_sch E n = Some s -> wf_schema s
}.
