(** C15, C45: how decoding and encoding can end. *)

From Verif Require Import Base BaseL Prog ProgL Prim PrimL Utf8 Tag Ty Ser De Typed Mig RtL RtId Parts PartsL Agree Total SerL Spec Ex.
From Coq Require Import List NArith ZArith Bool Lia ZifyBool.
Import ListNotations.
Open Scope N_scope.

Lemma user_panics_mono : forall E (P Q : pan -> Prop), (forall x, P x -> Q x) -> user_panics E P -> user_panics E Q.
Proof.
  intros E P Q HI U n s Es. destruct (U n s Es) as [U1 U2]. split.
  - intros f r x Hf. destruct (U1 f r x Hf). split; eauto.
  - eauto.
Qed.

(** C15.  [d] is the number of nested calls into derived types the stack has room for: one more than
    the number of input bytes is always enough ([PStack] is not in the list).  [closed E t]: the
    types mentioned are declared.  [Q]: the panics of user-supplied functions. *)
Theorem C15_panics_listed : forall E (Q : pan -> Prop) d t bs x,
  wf_env E -> closed E t -> user_panics E Q -> (length bs < d)%nat ->
  run (deserialize E d t) bs = Panic x ->
  (x = PMem /\ e_mem E <> None) \/ x = PTime \/ (x = POverflow /\ e_dbg E = true) \/ Q x.
Proof.
  intros E Q d t bs x W [C1 C2] U Hd H.
  set (P := fun x => (x = PMem /\ e_mem E <> None) \/ x = PTime \/ (x = POverflow /\ e_dbg E = true) \/ Q x).
  refine (decode_panics E P (declared E) W _ (fun _ Ht => Ht) C2 (or_intror _) (or_intror _) _ d t bs x C1 Hd H); unfold P.
  - destruct (e_mem E); [right; left; split; [reflexivity|discriminate]|left; reflexivity].
  - auto.
  - destruct (e_dbg E); [right; right; right; left; auto|left; reflexivity].
  - eapply user_panics_mono; [|exact U]. auto.
Qed.
(** No panic at all without the time types, memory limit, indexed maps (or in release builds), and
    with user functions that do not panic. *)
Theorem C15_no_panic : forall E d t bs x,
  wf_env E -> closed E t -> no_time E t -> e_mem E = None -> no_idx_map E \/ e_dbg E = false ->
  user_panics E (fun _ => False) -> (length bs < d)%nat ->
  run (deserialize E d t) bs <> Panic x.
Proof.
  intros E d t bs x W [C1 C2] [T1 T2] Hm Ho U Hd H.
  assert (AND : forall p q s, fields_all (fun f => ty_all p (f_ty f)) s = true -> fields_all (fun f => ty_all q (f_ty f)) s = true ->
                fields_all (fun f => ty_all (fun u => p u && q u) (f_ty f)) s = true).
  { assert (A : forall p q u, ty_all p u = true -> ty_all q u = true -> ty_all (fun u => p u && q u) u = true).
    { intros p q. induction u; cbn [ty_all]; rewrite ?andb_true_iff; intuition auto. }
    intros p q s. unfold fields_all. destruct (s_body s) as [fs|vs]; rewrite !forallb_forall.
    - intros Hp Hq f Hf. apply A; auto.
    - intros Hp Hq v Hv. specialize (Hp v Hv). specialize (Hq v Hv). rewrite forallb_forall in *. intros f Hf. apply A; auto. }
  refine (decode_panics E (fun _ => False) (fun u => declared E u && timeless u) W (or_introl Hm) _ _ (or_introl _) _ U d t bs x _ Hd H).
  - intros u Hu. apply andb_prop in Hu. apply Hu.
  - intros n s Es. apply AND; [apply (C2 n s Es)|apply (T2 n s Es)].
  - intros u Hu. apply andb_prop in Hu. apply Hu.
  - destruct Ho; auto.
  - clear - C1 T1. revert C1 T1. generalize (declared E), timeless. intros p q. induction t; cbn [ty_all]; rewrite ?andb_true_iff; intuition auto.
Qed.
(** More stack than input makes no difference. *)
Theorem C15_depth_bounded_by_input : forall E (Q : pan -> Prop) d d' t bs,
  wf_env E -> closed E t -> user_panics E Q -> ~ Q PStack -> (length bs < d)%nat -> (d <= d')%nat ->
  run (deserialize E d' t) bs = run (deserialize E d t) bs.
Proof.
  intros E Q d d' t bs W C U HQ Hd Hd'.
  destruct (depth_agree E d d' t Hd' bs) as [H|(x & <- & Hx)]; [symmetry; exact H|].
  destruct (C15_panics_listed E Q d t bs PStack W C U Hd Hx) as [[? _]|[?|[[? _]|?]]]; try discriminate. contradiction.
Qed.

(** The panics are reachable. *)
Theorem C15_duration_refuted : forall E d, e_fw E = false ->
  run (deserialize E d TDuration) [253; 255; 255; 255; 255; 255; 255; 255; 255; 252; 255; 255; 255; 255] = Panic PTime.
Proof. intros E d H. unfold deserialize. cbn [de_ty]. rewrite H. vm_compute. reflexivity. Qed.
Theorem C15_system_time_refuted : forall E d, e_fw E = false -> (e_time E < 2 ^ 63)%Z ->
  run (deserialize E d TSystemTime) [253; 0; 0; 0; 0; 0; 0; 0; 128; 0] = Panic PTime.
Proof.
  intros E d H Ht. unfold deserialize. cbn [de_ty]. rewrite H.
  set (k := fun d0 : val => of_res (time_add E d0)).
  assert (Hk : run (k (VPair (VInt (2 ^ 63)) (VInt 0))) [] = Panic PTime).
  { unfold k. unfold time_add. replace (2 ^ 63 <=? e_time E)%Z with false by lia. reflexivity. }
  rewrite <- Hk. vm_compute. reflexivity.
Qed.
Theorem C15_declared_length_refuted : forall E d m, e_fw E = false -> e_ub E = 64 -> e_mem E = Some m -> m < 2 ^ 63 ->
  run (deserialize E d TStr) [253; 0; 0; 0; 0; 0; 0; 0; 128] = Panic PMem.
Proof.
  intros E d m H Hu Hm Hl. unfold deserialize. cbn [de_ty]. unfold de_str, de_len, alloc. rewrite H, Hu, Hm.
  rewrite run_bind. replace (run (de_usize false 64) [253; 0; 0; 0; 0; 0; 0; 0; 128]) with (Ok (2 ^ 63, @nil N)) by (vm_compute; reflexivity).
  replace (2 ^ 63 =? 0) with false by reflexivity. rewrite run_bind.
  replace (2 ^ 63 <=? m) with false by lia. reflexivity.
Qed.

(** C45 *)
Theorem C45_errors_listed : forall E d t v e, wf_env E -> wt E d t v -> to_vec E d t v = Err e ->
  e = EInvalidPath \/ e = ESerialize MPreEpoch \/ e = ESerialize MTooLong.
Proof.
  intros E d t v e W Hw H. unfold to_vec, ser_bytes in H.
  set (Pe := fun e => e = EInvalidPath \/ e = ESerialize MPreEpoch \/ e = ESerialize MTooLong).
  assert (S : rspec (Forall (fun w => wfb (wop_bytes w))) Pe (fun _ => True) (to_writer E d t v)).
  { apply (sspec_writer Pe (fun _ => True) (fun _ _ => True)); unfold Pe; auto.
    - intros _ _. split; repeat constructor.
    - apply every_true; auto. }
  destruct (to_writer E d t v) as [ops|e'|x]; cbn in *; try discriminate. injection H as ->. exact S.
Qed.
(** Each reason has its cause in the value: [good] says that paths are UTF-8 and times are not
    before the epoch, [no_opt] that no type is in an optimised revision. *)
Definition good (t : ty) (v : val) : Prop :=
  match t, v with
  | TPath, VBytes b => utf8_ok b = true
  | TSystemTime, VPair (VInt s) _ => (0 <= s)%Z
  | _, _ => True
  end.
Definition no_opt (E : env) : Prop := forall n s h, e_sch E n = Some s -> sent s (scur s) = Some h -> h_opt h = false.
Theorem C45_only_size_can_fail : forall E d t v e, wf_env E -> wt E d t v -> every E good d t v ->
  to_vec E d t v = Err e -> e = ESerialize MTooLong /\ ~ no_opt E.
Proof.
  intros E d t v e W Hw G H. unfold to_vec, ser_bytes in H.
  set (Pe := fun e => e = ESerialize MTooLong /\ ~ no_opt E).
  assert (S : rspec (Forall (fun w => wfb (wop_bytes w))) Pe (fun _ => True) (to_writer E d t v)).
  { apply (sspec_writer Pe (fun _ => True) good); unfold Pe; auto.
    - intros b Hb Hf. cbn in Hb. congruence.
    - intros s n Hs Hn. cbn in Hs. lia.
    - intros x Hx. split; repeat constructor.
    - intros n s h Es Eh Ho. split; [reflexivity|]. intros HN. rewrite (HN n s h Es Eh) in Ho. discriminate. }
  destruct (to_writer E d t v) as [ops|e'|x]; cbn in *; try discriminate. injection H as ->. exact S.
Qed.
(** Encoding panics only in debug builds, on a variant whose [fixed(N)] size is wrong. *)
Theorem C45_panics_listed : forall E d t v x, wf_env E -> wt E d t v -> to_vec E d t v = Panic x ->
  x = PAssert /\ e_dbg E = true /\ ~ sizes_true E.
Proof.
  intros E d t v x W Hw H. unfold to_vec, ser_bytes in H.
  assert (S : forall Pp : pan -> Prop, (Pp PAssert \/ e_dbg E = false \/ sizes_true E) -> rspec (Forall (fun w => wfb (wop_bytes w))) (fun _ => True) Pp (to_writer E d t v)).
  { intros Pp HP. apply (sspec_writer (fun _ => True) Pp (fun _ _ => True)); auto.
    - intros _ _. split; repeat constructor.
    - apply every_true; auto. }
  destruct (to_writer E d t v) as [ops|e'|x']; cbn in *; try discriminate. injection H as ->.
  split; [|split].
  - apply (S (fun x => x = PAssert)). auto.
  - destruct (e_dbg E) eqn:Ed; [reflexivity|]. elim (S (fun _ => False)). auto.
  - intros Ht. elim (S (fun _ => False)). auto.
Qed.

(** The documented failures do happen. *)
Theorem C45_failures_happen : forall E d,
  to_vec E d TPath (VBytes [255]) = Err EInvalidPath
  /\ to_vec E d TSystemTime (VPair (VInt (-1)) (VInt 0)) = Err (ESerialize MPreEpoch).
Proof. intros. split; reflexivity. Qed.

(** ** The hypotheses are met *)
Example closed_new : closed new (TRef 1).
Proof.
  split; [reflexivity|]. intros n s. cbn [ex_env e_sch new]. unfold sch3. destruct (n =? 1); [|destruct (n =? 2)]; intros H; inversion H; subst; reflexivity.
Qed.
Example no_time_new : no_time new (TRef 1).
Proof.
  split; [reflexivity|]. intros n s. cbn [ex_env e_sch new]. unfold sch3. destruct (n =? 1); [|destruct (n =? 2)]; intros H; inversion H; subst; reflexivity.
Qed.
Example users_new : user_panics new (fun _ => False).
Proof.
  intros n s. cbn [ex_env e_sch new]. unfold sch3. destruct (n =? 1) eqn:E1; [|destruct (n =? 2) eqn:E2]; intros H; inversion H; subst; cbn [s_body user3 shape2].
  - split; [|discriminate]. intros f r x Hf. repeat destruct Hf as [<-|Hf]; try contradiction; (split; [discriminate|]); intros l v; try discriminate.
    cbn. unfold age_to_birth. destruct l as [|? [|? [|? [|? [|? [|]]]]]]; try discriminate. destruct v; discriminate.
  - split.
    + intros f r x (v & Hv & Hf). repeat destruct Hv as [<-|Hv]; try contradiction; cbn in Hf; repeat destruct Hf as [<-|Hf]; try contradiction; (split; [discriminate|]); intros; discriminate.
    + intros vs v l r x Hvs Hv. inversion Hvs; subst. repeat destruct Hv as [<-|Hv]; try contradiction; discriminate.
Qed.
(** Type 2 of the example in a release build: decoding never panics. *)
Definition new_rel : env := mkEnv false true false 64 None (e_esize new) (e_cmp new) (e_iter new) (e_dec new) (e_ext new) (e_time new) (e_sch new).
Example C15_instance : forall bs x, run (deserialize new_rel (S (length bs)) (TRef 1)) bs <> Panic x.
Proof.
  intros bs x. apply C15_no_panic; try exact closed_new; try exact no_time_new; try exact users_new; try reflexivity; auto.
  pose proof wf_new as [H1 H2 H3 H4 H5 H6 H7]. constructor; assumption.
Qed.
Example C45_instance : forall e, to_vec new 2 (TRef 1) u_new = Err e -> e = ESerialize MTooLong.
Proof.
  intros e H. eapply (C45_only_size_can_fail new 2 (TRef 1) u_new e wf_new wt_new); [|exact H].
  apply (every_types new (fun t => match t with TPath | TSystemTime => false | _ => true end)); auto using wf_new, wt_new.
  - intros t v Ht. destruct t; first [exact I|discriminate Ht].
  - intros n s. cbn [ex_env e_sch new]. unfold sch3. destruct (n =? 1); [|destruct (n =? 2)]; intros E; inversion E; subst; reflexivity.
Qed.

Print Assumptions C15_panics_listed.
Print Assumptions C15_no_panic.
Print Assumptions C15_depth_bounded_by_input.
Print Assumptions C15_duration_refuted.
Print Assumptions C15_system_time_refuted.
Print Assumptions C15_declared_length_refuted.
Print Assumptions C45_errors_listed.
Print Assumptions C45_only_size_can_fail.
Print Assumptions C45_panics_listed.
Print Assumptions C45_failures_happen.
