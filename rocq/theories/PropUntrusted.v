(** C55: skipping bytes from an untrusted source. *)

From Verif Require Import Base BaseL Prog ProgL Prim PrimL Utf8 Tag Ty Ser De Typed Mig Parts RtL RtId Agree Total PropTotal Spec Ex SliceReader Skip SkipL PropSkip SkipTot.
From Coq Require Import List NArith ZArith Bool Lia.
Import ListNotations.
Open Scope N_scope.

Lemma all_fields : forall p s f, fields_all p s = true -> In f (body_fields (s_body s)) -> p f = true.
Proof.
  intros p s f H Hf. unfold fields_all in H. destruct (s_body s) as [fs|vs]; cbn [body_fields] in Hf; rewrite forallb_forall in H; [auto|].
  apply in_flat_map in Hf. destruct Hf as (v & Hv & Hf). specialize (H v Hv). rewrite forallb_forall in H. auto.
Qed.

(** C55.  [d] is the number of nested calls into derived types the stack has room for: one more than
    the number of input bytes is always enough ([PStack] is not in the list).  [Q]: the panics of
    user-supplied functions (PathBuf and some external types are skipped by decoding them). *)
Theorem C55_panics_listed : forall E (Q : pan -> Prop) d t bs x,
  wf_env E -> closed E t -> user_panics E Q -> (length bs < d)%nat ->
  run (skip E d t) bs = Panic x ->
  (x = PMem /\ e_mem E <> None) \/ x = PTime \/ (x = POverflow /\ e_dbg E = true) \/ Q x.
Proof.
  intros E Q d t bs x W [C1 C2] U Hd H.
  set (P := fun x => (x = PMem /\ e_mem E <> None) \/ x = PTime \/ (x = POverflow /\ e_dbg E = true) \/ Q x).
  assert (Hmem : e_mem E = None \/ P PMem).
  { destruct (e_mem E) eqn:Em; [right; left; split; [reflexivity|congruence]|left; reflexivity]. }
  assert (Htime : P PTime) by (unfold P; auto).
  assert (Hover : e_dbg E = false \/ P POverflow).
  { unfold P. destruct (e_dbg E); [right; right; right; left; auto|left; reflexivity]. }
  assert (HU : user_panics E P) by (eapply user_panics_mono; [|exact U]; unfold P; auto).
  refine (skip_panics E P (declared E) W (fun _ Ht => Ht) _ _ d t bs x C1 Hd H).
  - intros n s r h f Es _ _ Hf _. right. exact (all_fields _ s f (C2 n s Es) Hf).
  - intros d' u Hu _. apply (safe_ty P d' E Hmem (de_ref E d')) with (ok := declared E); auto.
    exact (safe_ref E P (declared E) W Hmem (fun _ Ht => Ht) C2 (or_intror Htime) (or_intror Hover) HU d').
Qed.

(** Types skipped without building a value that can fail: not PathBuf, not Duration, no external type
    that is skipped by decoding it. *)
Definition quiet (t : ty) : bool :=
  match t with TPath | TDuration | TExt _ true _ => false | _ => true end.
(** The fields skipped one by one: those of revisions that are not optimised, unless fixed width. *)
Definition quiet_env (E : env) : Prop :=
  forall n s r h f, e_sch E n = Some s -> sent s r = Some h -> h_opt h = false ->
    In f (body_fields (s_body s)) -> falive r f = true -> f_fixed f = true \/ ty_all quiet (f_ty f) = true.

Lemma quiet_panics : forall E d t bs x, wf_env E -> closed E t -> quiet_env E -> ty_all quiet t = true ->
  (length bs < d)%nat -> run (skip E d t) bs <> Panic x.
Proof.
  intros E d t bs x W [C1 C2] HE Ht Hd H.
  assert (A : forall u, ty_all (declared E) u = true -> ty_all quiet u = true -> ty_all (fun u => declared E u && quiet u) u = true).
  { generalize (declared E), quiet. intros p q. induction u; cbn [ty_all]; rewrite ?andb_true_iff; intuition auto. }
  refine (skip_panics E (fun _ => False) (fun u => declared E u && quiet u) W _ _ _ d t bs x (A t C1 Ht) Hd H).
  - intros u Hu. apply andb_prop in Hu. apply Hu.
  - intros n s r h f Es Eh Ho Hf Ha. destruct (HE n s r h f Es Eh Ho Hf Ha) as [Hx|Hx]; [left; exact Hx|]. right.
    apply A; [|exact Hx]. exact (all_fields _ s f (C2 n s Es) Hf).
  - intros d' u Hu Hm. exfalso. destruct u; try contradiction; cbn [ty_all] in Hu; try (rewrite andb_false_r in Hu; discriminate Hu).
    destruct mirror; [|contradiction]. cbn in Hu. discriminate Hu.
Qed.

(** No panic at all on such types, whatever the memory limit and whatever user functions do. *)
Theorem C55_no_panic : forall E d t bs,
  wf_env E -> closed E t -> quiet_env E -> ty_all quiet t = true -> (length bs < d)%nat ->
  (exists rest, run (skip E d t) bs = Ok (tt, rest) /\ exists used, bs = used ++ rest)
  \/ exists e, run (skip E d t) bs = Err e.
Proof.
  intros E d t bs W C HE Ht Hd. destruct (run (skip E d t) bs) as [[[] rest]|e|x] eqn:H.
  - left. exists rest. split; [reflexivity|]. apply run_suffix in H. destruct H as (u & -> & _). eauto.
  - right. eauto.
  - elim (quiet_panics E d t bs x W C HE Ht Hd H).
Qed.
Theorem C55_slice_no_panic : forall E d t bs,
  wf_env E -> closed E t -> quiet_env E -> ty_all quiet t = true -> (length bs < d)%nat ->
  (exists n, skip_slice E d t bs = Ok n /\ n <= len bs) \/ exists e, skip_slice E d t bs = Err e.
Proof.
  intros E d t bs W C HE Ht Hd. destruct (skip_slice E d t bs) as [n|e|x] eqn:H.
  - left. exists n. split; [reflexivity|]. apply C13_skip_slice in H. destruct H as (rest & _ & H). lia.
  - right. eauto.
  - exfalso. unfold skip_slice in H. pose proof (C13_slice_skip E d t bs) as S.
    destruct (skip_on_slice E d t (sr_new bs)) as [[[] s]|e|y]; cbn [rmap] in H; try discriminate.
    destruct (run (skip E d t) bs) as [[? ?]|e|z] eqn:Hr; try contradiction. exact (quiet_panics E d t bs z W C HE Ht Hd Hr).
Qed.
(** More stack than input makes no difference. *)
Theorem C55_depth_bounded_by_input : forall E (Q : pan -> Prop) d d' t bs,
  wf_env E -> closed E t -> user_panics E Q -> ~ Q PStack -> (length bs < d)%nat -> (d <= d')%nat ->
  run (skip E d' t) bs = run (skip E d t) bs.
Proof.
  intros E Q d d' t bs W C U HQ Hd Hd'.
  destruct (skip_depth E d d' t Hd' bs) as [H|(x & <- & Hx)]; [symmetry; exact H|].
  destruct (C55_panics_listed E Q d t bs PStack W C U Hd Hx) as [[? _]|[?|[[? _]|?]]]; try discriminate. contradiction.
Qed.
(** Checking a value builds it: the panics of decoding. *)
Theorem C55_check_panics_listed : forall E (Q : pan -> Prop) d t bs x,
  wf_env E -> closed E t -> user_panics E Q -> (length bs < d)%nat ->
  run (skip_check E d t) bs = Panic x ->
  (x = PMem /\ e_mem E <> None) \/ x = PTime \/ (x = POverflow /\ e_dbg E = true) \/ Q x.
Proof.
  intros E Q d t bs x W [C1 C2] U Hd H.
  set (P := fun x => (x = PMem /\ e_mem E <> None) \/ x = PTime \/ (x = POverflow /\ e_dbg E = true) \/ Q x).
  assert (Hmem : e_mem E = None \/ P PMem).
  { destruct (e_mem E) eqn:Em; [right; left; split; [reflexivity|congruence]|left; reflexivity]. }
  assert (Htime : P PTime) by (unfold P; auto).
  assert (Hover : e_dbg E = false \/ P POverflow).
  { unfold P. destruct (e_dbg E); [right; right; right; left; auto|left; reflexivity]. }
  assert (HU : user_panics E P) by (eapply user_panics_mono; [|exact U]; unfold P; auto).
  assert (D : forall u, ty_all (declared E) u = true -> safe P d (fun _ => True) (de_ty E (de_ref E d) u)).
  { intros u Hu. apply (safe_ty P d E Hmem (de_ref E d)) with (ok := declared E); auto.
    exact (safe_ref E P (declared E) W Hmem (fun _ Ht => Ht) C2 (or_intror Htime) (or_intror Hover) HU d). }
  assert (S : safe P d (fun _ => True) (skip_check E d t)).
  { clear H. unfold skip_check. revert C1. induction t; intros C1; cbn [sc_ty]; try (eapply safe_drop, D; exact C1).
    - apply safe_ret; exact I.
    - cbn [ty_all] in C1. rewrite !andb_true_iff in C1. destruct C1 as (_ & ? & ?). eapply safe_bind; [apply IHt1; assumption|]. auto.
    - cbn [ty_all] in C1. rewrite !andb_true_iff in C1. destruct C1 as (_ & ?). eapply safe_rep_, IHt. assumption.
    - eapply safe_bind; [apply D; reflexivity|]. intros _ _. eapply safe_drop, D. reflexivity. }
  specialize (S bs Hd). rewrite H in S. exact S.
Qed.

(** The exceptions are needed: skipping a Duration can panic, and so can skipping a PathBuf when
    memory is limited. *)
Theorem C55_duration_refuted : forall E d, e_fw E = false ->
  run (skip E d TDuration) [253; 255; 255; 255; 255; 255; 255; 255; 255; 252; 255; 255; 255; 255] = Panic PTime.
Proof. intros E d H. unfold skip. cbn [sk_ty]. rewrite run_bind. fold (deserialize E d TDuration). rewrite (C15_duration_refuted E d H). reflexivity. Qed.
Theorem C55_path_refuted : forall E d m, e_fw E = false -> e_ub E = 64 -> e_mem E = Some m -> m < 2 ^ 63 ->
  run (skip E d TPath) [253; 0; 0; 0; 0; 0; 0; 0; 128] = Panic PMem.
Proof.
  intros E d m H Hu Hm Hl. unfold skip. cbn [sk_ty]. rewrite run_bind. change (de_ty E (de_ref E d) TPath) with (deserialize E d TStr).
  rewrite (C15_declared_length_refuted E d m H Hu Hm Hl). reflexivity.
Qed.

(** ** Non-vacuity: a recursive type, and input that nests as deep as it can *)
Definition chain : schema := mkSchema [mkHent false false; mkHent true false]
  (SStruct [fld (TOption (TWrap (TRef 1))) 1 None; fld TStr 1 None; fld TDuration 2 None]).
Definition chains : env := ex_env (fun n => if n =? 1 then Some chain else None).
Example wf_chains : wf_env chains.
Proof. apply wf_ex. intros n s H. destruct (n =? 1); inversion H; subst. apply wf_schemab_ok. vm_compute. reflexivity. Qed.
Example closed_chains : closed chains (TVec (TRef 1)).
Proof. split; [reflexivity|]. intros n s H. cbn in H. destruct (n =? 1); inversion H; subst; reflexivity. Qed.
(** The Duration lives in the optimised revision only, which is skipped as a whole. *)
Example quiet_chains : quiet_env chains.
Proof.
  intros n s r h f Hs Hh Ho Hi Ha. right. cbn in Hs. destruct (n =? 1); inversion Hs; subst.
  destruct Hi as [<-|[<-|[<-|[]]]]; try reflexivity. exfalso. unfold sent in Hh. cbn [chain s_hist] in Hh.
  destruct (N.eqb_spec r 0) as [|Hr]; [discriminate|].
  destruct (N.to_nat (r - 1)) as [|[|[|k]]] eqn:En; cbn in Hh; try discriminate; inversion Hh; subst; try discriminate.
  assert (r = 1) as -> by lia. discriminate.
Qed.
Example C55_case :
  run (skip chains 10 (TVec (TRef 1))) [1; 1; 1; 1; 1; 1; 1; 1; 1] = Err EIo
  /\ run (skip chains 3 (TVec (TRef 1))) [1; 1; 1; 1; 1; 1; 1; 1; 1] = Panic PStack
  /\ run (skip chains 10 (TVec (TRef 1))) [1; 1; 1; 1; 0; 0; 1; 97] = Ok (tt, []).
Proof. split; [vm_compute; reflexivity|]. split; vm_compute; reflexivity. Qed.

Print Assumptions C55_panics_listed.
Print Assumptions C55_no_panic.
Print Assumptions C55_slice_no_panic.
Print Assumptions C55_depth_bounded_by_input.
Print Assumptions C55_check_panics_listed.
Print Assumptions C55_duration_refuted.
Print Assumptions C55_path_refuted.
