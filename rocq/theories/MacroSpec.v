(** What a declaration says, read off its attributes directly.  Specification part.  *)

From Verif Require Import Base Ty Typed Macro.
From Coq Require Import List NArith ZArith Bool Permutation.
Import ListNotations.
Open Scope N_scope.

(** The numbers given as [revision = n], and the entries [revision(n, ..)], of an option list. *)
Definition numbers (l : list iopt) : list N := flat_map (fun x => match x with IRevision n => [n] | _ => [] end) l.
Definition entries (l : list iopt) : list (N * list eopt) :=
  flat_map (fun x => match x with IEntry n o => [(n, o)] | _ => [] end) l.
Definition others (l : list iopt) : list iopt := filter (fun x => match x with IEntry _ _ => false | _ => true end) l.
(** What an entry asks for: optimised or not, with an indexed struct or not. *)
Definition wants (o : list eopt) : hent :=
  mkHent (existsb (fun x => match x with EOptimised => true | _ => false end) o)
         (existsb (fun x => match x with EIndexedStruct => true | _ => false end) o).
Definition legacy : hent := mkHent false false.
Definition upto (n : nat) : list N := map N.of_nat (seq 1 n).

(** Nothing said about revisions. *)
Definition silent (l : list iopt) : Prop := numbers l = [] /\ entries l = [].
(** The attributes [l] declare the history [h] (first element: revision 1): either as [revision = N], or by one
    entry for each of 1..=N, in any order. *)
Definition declares (l : list iopt) (h : list hent) : Prop :=
  (exists n, numbers l = [n] /\ entries l = [] /\ 1 <= n /\ h = repeat legacy (N.to_nat n))
  \/ (numbers l = [] /\ entries l <> []
      /\ Permutation (map fst (entries l)) (upto (length h))
      /\ forall n o, In (n, o) (entries l) -> nth_error h (N.to_nat n - 1) = Some (wants o)).

(** The options of an entry that are accepted: [map], [seq] only as "default"; [indexed_struct] only with
    [optimised]. *)
Definition fine (o : list eopt) : Prop :=
  (forall d, In (EMap d) o \/ In (ESeq d) o -> d = true) /\ (In EIndexedStruct o -> In EOptimised o).

(** What rustc checks besides: attributes fit the types they are on ([field_ok], Typed.v), variants have distinct
    names, and there are no more than 2^32 of them. *)
Definition fields_of (m : mitem) (fs : list mfield) : Prop :=
  match mi_kind m with KStruct fs' => fs = fs' | KEnum vs => exists v, In v vs /\ fs = mv_fields v end.
Definition attrs_fit (m : mfield) : Prop :=
  (In FFixed (mf_opts m) -> mode_ok MFixed (mf_ty m) = true)
  /\ (In FSpecialised (mf_opts m) -> mode_ok MBulk (mf_ty m) = true)
  /\ (In (FIndexed IMap) (mf_opts m) -> mode_ok MIdxMap (mf_ty m) = true)
  /\ (In (FIndexed ISeq) (mf_opts m) -> mode_ok MIdxSeq (mf_ty m) = true)
  /\ (In (FIndexed ISet) (mf_opts m) -> mode_ok MIdxSet (mf_ty m) = true).
Definition type_checks (m : mitem) : Prop :=
  (forall fs f, fields_of m fs -> In f fs -> attrs_fit f)
  /\ match mi_kind m with
     | KStruct _ => True
     | KEnum vs => NoDup (map mv_name vs) /\ len vs <= 2 ^ 32
     end.

(** When a field or variant with these options is part of the type. *)
Definition field_lives (r : N) (m : mfield) : Prop :=
  (forall n, In (FStart n) (mf_opts m) -> n <= r) /\ (forall n, In (FEnd n) (mf_opts m) -> r < n).
Definition variant_lives (r : N) (m : mvariant) : Prop :=
  (forall n, In (VStart n) (mv_opts m) -> n <= r) /\ (forall n, In (VEnd n) (mv_opts m) -> r < n).

(** The schema's field [f] says what the declared field [m] says. *)
Definition field_made (m : mfield) (f : field) : Prop :=
  f_ty f = mf_ty m
  /\ (forall r, falive r f = true <-> field_lives r m)
  /\ (forall d, In (FDefault d) (mf_opts m) -> f_default f = d)
  /\ ((forall d, ~ In (FDefault d) (mf_opts m)) -> f_default f = fun _ => mf_default m)
  /\ (forall c, In (FConvert c) (mf_opts m) -> f_convert f = c)
  /\ (f_fixed f = true <-> In FFixed (mf_opts m))
  /\ (f_spec f = true <-> In FSpecialised (mf_opts m))
  /\ (forall i, i <> INone -> (f_idx f = i <-> In (FIndexed i) (mf_opts m))).
(** The last [override] for revision [r] gives discriminant [d]. *)
Definition overrides_to (l : list vopt) (r d : N) : Prop :=
  exists before o after, l = before ++ VOverride o :: after /\ In (ORevision r) o /\ In (ODiscriminant d) o
    /\ forall o', In (VOverride o') after -> ~ In (ORevision r) o'.
Definition variant_made (m : mvariant) (v : variant) : Prop :=
  v_name v = mv_name m
  /\ (forall r, valive r v = true <-> variant_lives r m)
  /\ (forall r d, v_over v r = Some d <-> overrides_to (mv_opts m) r d)
  /\ (forall z, v_size v = Some z <-> In (VSize z) (mv_opts m))
  /\ (forall c, In (VConvert c) (mv_opts m) -> v_convert v = c)
  /\ Forall2 field_made (mv_fields m) (v_fields v).
Definition body_made (k : mkind) (b : body) : Prop :=
  match k, b with
  | KStruct ms, SStruct fs => Forall2 field_made ms fs
  | KEnum ms, SEnum vs => Forall2 variant_made ms vs
  | _, _ => False
  end.
(** Some field or variant has a [convert_fn]. *)
Definition converts_somewhere (k : mkind) : Prop :=
  match k with
  | KStruct ms => exists m c, In m ms /\ In (FConvert c) (mf_opts m)
  | KEnum vs => exists v, In v vs /\ ((exists c, In (VConvert c) (mv_opts v))
                                      \/ exists m c, In m (mv_fields v) /\ In (FConvert c) (mf_opts m))
  end.

(** The attributes say nothing but revisions, with acceptable entries. *)
Definition only_revisions (l : list iopt) : Prop :=
  Forall (fun x => match x with IRevision _ => True | IEntry _ o => fine o | _ => False end) l.
(** A compile error. *)
Definition rejected (i : mitem) : Prop := exists e, expand i = Fail e.
(** The value of the last of a flag's occurrences. *)
Definition last_flag (sel : iopt -> option bool) (l : list iopt) : option bool :=
  fold_left (fun o x => match sel x with Some b => Some b | None => o end) l None.
Definition serialize_flag (x : iopt) : option bool := match x with ISerialize b => Some b | _ => None end.
Definition deserialize_flag (x : iopt) : option bool := match x with IDeserialize b => Some b | _ => None end.
Definition skip_flag (x : iopt) : option bool := match x with ISkip b => Some b | _ => None end.
Definition walk_flag (x : iopt) : option bool := match x with IWalk b => Some b | _ => None end.
Definition or_else (o : option bool) (d : bool) : bool := match o with Some b => b | None => d end.
