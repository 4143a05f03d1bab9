(** C56: upgrading through an intermediate version, or directly. *)

From Verif Require Import Base BaseL Prog ProgL Prim PrimL Ty Ser De Typed Mig Parts Evol RtL RtSch RtId Agree Cross EvolL Spec Steps StepsL Ex PropMig.
From Coq Require Import List NArith ZArith Bool Lia Relations.
Import ListNotations.
Open Scope N_scope.

(** What the second program makes of a value of the first, and the third of that, is what the third
    makes of it directly: when neither upgrade removes anything, defaults are [defaults_settled] and
    derived types are not keys. *)
Theorem C56_stepwise_is_direct : forall E1 E2 E3 d d2 t v v2 v3,
  wf_env E1 -> wf_env E2 -> wf_env E3 -> later E1 E2 -> later E2 E3 ->
  same_libraries E1 E2 -> same_libraries E2 E3 ->
  nothing_removed E1 E2 -> nothing_removed E2 E3 -> defaults_settled E1 E2 E3 ->
  env_all (fun f => plain_keys (f_ty f)) E2 -> plain_keys t = true ->
  wt E1 d t v -> wt E2 d2 t v2 ->
  migrate E1 E2 d t v = Ok v2 -> migrate E2 E3 d2 t v2 = Ok v3 -> migrate E1 E3 d t v = Ok v3.
Proof.
  intros E1 E2 E3 d d2 t v v2 v3 W1 W2 W3 H12 H23 L12 L23 T12 T23 HS HK Hk H1 H2 M1 M2.
  apply (migrate_steps E1 E2 E3 W1 W2 W3 L12 L23 (edit_program_star _ _ H12) T12 T23 HK HS d d2 t v v2 v3); assumption.
Qed.

(** The same for stored bytes: [b] written by the first program, read and rewritten (as [b2]) by
    the second, read by the third.  If both reads succeed, then the third program reads [b] too,
    as the same value. *)
Theorem C56_upgrade : forall E1 E2 E3 d d2 d12 d23 d13 t v b rest v2 rest' b2 rest2 v3 rest2',
  wf_env E1 -> wf_env E2 -> wf_env E3 -> later E1 E2 -> later E2 E3 ->
  opt_safe E1 E2 -> opt_safe E2 E3 -> opt_safe E1 E3 -> sizes_honest E1 -> sizes_honest E2 ->
  user_panics E2 (fun x => x <> PStack) -> user_panics E3 (fun x => x <> PStack) ->
  same_libraries E1 E2 -> same_libraries E2 E3 ->
  nothing_removed E1 E2 -> nothing_removed E2 E3 -> defaults_settled E1 E2 E3 ->
  env_all (fun f => plain_keys (f_ty f)) E2 -> plain_keys t = true ->
  wt E1 d t v -> wt E2 d2 t v2 -> (d <= d12)%nat -> (d2 <= d23)%nat -> (d <= d13)%nat ->
  to_vec E1 d t v = Ok b ->
  run (deserialize E2 d12 t) (b ++ rest) = Ok (v2, rest') ->
  to_vec E2 d2 t v2 = Ok b2 ->
  run (deserialize E3 d23 t) (b2 ++ rest2) = Ok (v3, rest2') ->
  or_oom E3 (run (deserialize E3 d13 t) (b ++ rest)) (Ok (v3, rest)).
Proof.
  intros E1 E2 E3 d d2 d12 d23 d13 t v b rest v2 rest' b2 rest2 v3 rest2' W1 W2 W3 H12 H23 O12 O23 O13 S1 S2 U2 U3 L12 L23
    T12 T23 HS HK Hk H1 H2 D12 D23 D13 B1 R12 B2 R23.
  assert (M1 : migrate E1 E2 d t v = Ok v2).
  { pose proof (C17_later_programs_read E1 E2 d d12 t v b rest W1 W2 H12 O12 U2 S1 H1 D12 B1) as [H|[_ H]]; rewrite R12 in H; [|discriminate].
    destruct (migrate E1 E2 d t v); cbn [rmap] in H; try discriminate. apply Ok_inj in H. congruence. }
  assert (M2 : migrate E2 E3 d2 t v2 = Ok v3).
  { pose proof (C17_later_programs_read E2 E3 d2 d23 t v2 b2 rest2 W2 W3 H23 O23 U3 S2 H2 D23 B2) as [H|[_ H]]; rewrite R23 in H; [|discriminate].
    destruct (migrate E2 E3 d2 t v2); cbn [rmap] in H; try discriminate. apply Ok_inj in H. congruence. }
  pose proof (C56_stepwise_is_direct E1 E2 E3 d d2 t v v2 v3 W1 W2 W3 H12 H23 L12 L23 T12 T23 HS HK Hk H1 H2 M1 M2) as M3.
  pose proof (C17_later_programs_read E1 E3 d d13 t v b rest W1 W3 (rt_trans _ _ _ _ _ H12 H23) O13 U3 S1 H1 D13 B1) as H.
  rewrite M3 in H. exact H.
Qed.

(** ** The hypotheses are met *)
(** Three versions.  Type 1: a point with fields x, then y, then a list of labels between them.
    Type 2: an enum holding points, with more variants and fields from version to version. *)
Definition h0 := mkHent false false.
Definition u8 := fld (TInt U8).
Definition dv (v : val) := with_default v.
Definition pt1 : schema := mkSchema [h0] (SStruct [u8 1 None]).
Definition pt2 : schema := mkSchema [h0; h0] (SStruct [u8 1 None; dv (VInt 5) (u8 2 None)]).
Definition pt3 : schema := mkSchema [h0; h0; mkHent true true]
  (SStruct [u8 1 None; dv (VSeq []) (fld (TVec TStr) 3 None); dv (VInt 5) (u8 2 None)]).
Definition sh1 : schema := mkSchema [h0] (SEnum [var 0 1 None None [fld (TVec (TRef 1)) 1 None]]).
Definition sh2 : schema := mkSchema [h0; h0]
  (SEnum [var 0 1 None None [fld (TVec (TRef 1)) 1 None; dv (VSeq [VInt 1; VInt 2]) (fld (TRef 1) 2 None)]; var 1 2 None None []]).
Definition sh3 : schema := mkSchema [h0; h0; h0]
  (SEnum [var 0 1 None None [fld (TVec (TRef 1)) 1 None; dv (VSeq [VInt 1; VSeq []; VInt 2]) (fld (TRef 1) 2 None);
                             dv (VBool true) (fld TBool 3 None)];
          var 2 3 None None []; var 1 2 None None []]).
Definition sch_of (a b : schema) (n : N) : option schema := if n =? 1 then Some a else if n =? 2 then Some b else None.
Definition P1 := ex_env (sch_of pt1 sh1).
Definition P2 := ex_env (sch_of pt2 sh2).
Definition P3 := ex_env (sch_of pt3 sh3).
Lemma wf_two : forall a b, wf_schemab a = true -> wf_schemab b = true -> wf_env (ex_env (sch_of a b)).
Proof.
  intros a b Ha Hb. apply wf_ex. intros n s. unfold sch_of. destruct (n =? 1); [|destruct (n =? 2)]; intros H; inversion H; subst;
  apply wf_schemab_ok; assumption.
Qed.
Example wf_P1 : wf_env P1. Proof. apply wf_two; vm_compute; reflexivity. Qed.
Example wf_P2 : wf_env P2. Proof. apply wf_two; vm_compute; reflexivity. Qed.
Example wf_P3 : wf_env P3. Proof. apply wf_two; vm_compute; reflexivity. Qed.
Ltac efs := repeat first [apply ef_keep; [unfold edit_field, edit_end; repeat split; auto|] | apply ef_add; [reflexivity|] | apply ef_nil].
Lemma edit_two : forall a b a' b', edit_schema a a' -> edit_schema b b' -> edit_program (ex_env (sch_of a b)) (ex_env (sch_of a' b')).
Proof.
  intros a b a' b' Ha Hb. repeat split. intros n s. cbn [ex_env e_sch]. unfold sch_of.
  destruct (n =? 1); [|destruct (n =? 2)]; intros H; inversion H; subst; eexists; (split; [reflexivity|assumption]).
Qed.
Example edit_12 : edit_program P1 P2.
Proof.
  apply edit_two; (split; [eexists; reflexivity|]).
  - cbn [edit_body s_body pt1 pt2]. efs.
  - cbn [edit_body s_body sh1 sh2]. apply ev_keep; [unfold edit_variant, edit_end; repeat split; auto; cbn [var v_fields]; efs|].
    apply ev_add; [reflexivity|]. apply ev_nil.
Qed.
Example edit_23 : edit_program P2 P3.
Proof.
  apply edit_two; (split; [eexists; reflexivity|]).
  - cbn [edit_body s_body pt2 pt3]. apply ef_keep; [unfold edit_field, edit_end; repeat split; auto|].
    apply ef_add; [reflexivity|]. efs.
  - cbn [edit_body s_body sh2 sh3]. apply ev_keep; [unfold edit_variant, edit_end; repeat split; auto; cbn [var v_fields]; efs|].
    apply ev_add; [reflexivity|]. apply ev_keep; [unfold edit_variant, edit_end; repeat split; auto; cbn [var v_fields]; efs|]. apply ev_nil.
Qed.
Lemma safe_two : forall a b a' b', existsb h_opt (s_hist a) = false -> existsb h_opt (s_hist b) = false ->
  opt_safe (ex_env (sch_of a b)) (ex_env (sch_of a' b')).
Proof.
  intros a b a' b' Ha Hb n s s' h. cbn [ex_env e_sch]. unfold sch_of. intros Hs Hs' Hn Ho. exfalso.
  assert (Hc : existsb h_opt (s_hist s) = false) by (destruct (n =? 1); [|destruct (n =? 2)]; inversion Hs; subst; assumption).
  assert (existsb h_opt (s_hist s) = true); [|congruence]. apply existsb_exists. exists h. split; [|exact Ho].
  unfold sent in Hn. destruct (scur s =? 0); [discriminate|]. eapply nth_error_In; eassumption.
Qed.
Ltac nopan := intros n s; cbn [ex_env e_sch]; unfold sch_of; destruct (n =? 1); [|destruct (n =? 2)]; intros H; inversion H; subst; cbn [s_body];
  [split; [|discriminate]; intros f r x Hf; repeat destruct Hf as [<-|Hf]; try contradiction; (split; [discriminate|]); intros l v; discriminate|
   split;
   [intros f r x (v & Hv & Hf); repeat destruct Hv as [<-|Hv]; try contradiction; cbn in Hf; repeat destruct Hf as [<-|Hf]; try contradiction; (split; [discriminate|]); intros; discriminate|
    intros vs v l r x Hvs Hv; inversion Hvs; subst; repeat destruct Hv as [<-|Hv]; try contradiction; discriminate]].
Example user_P2 : user_panics P2 (fun x => x <> PStack).
Proof. unfold P2, pt2, sh2. nopan. Qed.
Example user_P3 : user_panics P3 (fun x => x <> PStack).
Proof. unfold P3, pt3, sh3. nopan. Qed.
Example none_12 : nothing_removed P1 P2.
Proof.
  intros n s s'. cbn [P1 P2 ex_env e_sch]. unfold sch_of. destruct (n =? 1); [|destruct (n =? 2)]; intros H H'; inversion H; inversion H'; subst; cbn [s_body pt2 sh2].
  - intros f Hf. repeat destruct Hf as [<-|Hf]; try contradiction; vm_compute; congruence.
  - intros v Hv. repeat destruct Hv as [<-|Hv]; try contradiction; vm_compute; try discriminate; (split; [reflexivity|]);
      intros f Hf; repeat destruct Hf as [<-|Hf]; try contradiction; congruence.
Qed.
Example none_23 : nothing_removed P2 P3.
Proof.
  intros n s s'. cbn [P2 P3 ex_env e_sch]. unfold sch_of. destruct (n =? 1); [|destruct (n =? 2)]; intros H H'; inversion H; inversion H'; subst; cbn [s_body pt3 sh3].
  - intros f Hf. repeat destruct Hf as [<-|Hf]; try contradiction; vm_compute; congruence.
  - intros v Hv. repeat destruct Hv as [<-|Hv]; try contradiction; vm_compute; try discriminate; (split; [reflexivity|]);
      intros f Hf; repeat destruct Hf as [<-|Hf]; try contradiction; congruence.
Qed.
Example settled_123 : defaults_settled P1 P2 P3.
Proof.
  intros n s1 s2 s3. cbn [P1 P2 P3 ex_env e_sch]. unfold sch_of. destruct (n =? 1); [|destruct (n =? 2)]; intros H H' H''; inversion H; inversion H'; inversion H''; subst; cbn [s_body pt2 pt3 sh2 sh3].
  - apply se_keep; [unfold edit_field, edit_end; repeat split; auto|intros Hf; discriminate Hf|reflexivity|].
    apply se_add; [reflexivity|reflexivity|]. apply se_keep; [unfold edit_field, edit_end; repeat split; auto| |reflexivity|apply se_nil].
    intros _ _ x y Hx (d & Hy). apply Ok_inj in Hx. subst x. exact Hy.
  - apply sv_keep; [unfold edit_variant, edit_end; repeat split; auto; cbn [var v_fields]; efs| |].
    { cbn [var v_fields].
      apply se_keep; [unfold edit_field, edit_end; repeat split; auto|intros Hf; discriminate Hf|reflexivity|].
      apply se_keep; [unfold edit_field, edit_end; repeat split; auto| |reflexivity|].
      { intros _ _ x y Hx (d & Hy). apply Ok_inj in Hx. subst x. destruct d as [|d]; [discriminate|]. exact Hy. }
      apply se_add; [reflexivity|reflexivity|apply se_nil]. }
    apply sv_add; [reflexivity|]. apply sv_keep; [unfold edit_variant, edit_end; repeat split; auto; cbn [var v_fields]; efs|apply se_nil|apply sv_nil].
Qed.
Example keys_P2 : env_all (fun f => plain_keys (f_ty f)) P2.
Proof.
  intros n s. cbn [P2 ex_env e_sch]. unfold sch_of. destruct (n =? 1); [|destruct (n =? 2)]; intros H; inversion H; reflexivity.
Qed.
Example safe_12 : opt_safe P1 P2. Proof. apply safe_two; reflexivity. Qed.
Example safe_23 : opt_safe P2 P3. Proof. apply safe_two; reflexivity. Qed.
Example safe_13 : opt_safe P1 P3. Proof. apply safe_two; reflexivity. Qed.
(** A map of shapes, by name. *)
Definition shapes : ty := TMap KOrd TStr (TRef 2).
Definition shapes1 : val := VSeq [VPair (a_str [97]) (VVar 0 [VSeq [VSeq [VInt 9]; VSeq [VInt 8]]])].
Definition shapes2 : val := VSeq [VPair (a_str [97]) (VVar 0 [VSeq [VSeq [VInt 9; VInt 5]; VSeq [VInt 8; VInt 5]]; VSeq [VInt 1; VInt 2]])].
Definition shapes3 : val := VSeq [VPair (a_str [97])
  (VVar 0 [VSeq [VSeq [VInt 9; VSeq []; VInt 5]; VSeq [VInt 8; VSeq []; VInt 5]]; VSeq [VInt 1; VSeq []; VInt 2]; VBool true])].
Example C56_instance : forall rest, run (deserialize P3 2 shapes) ([1; 1; 97; 1; 0; 2; 1; 9; 1; 8] ++ rest) = Ok (shapes3, rest).
Proof.
  intros rest.
  assert (H1 : wt P1 2 shapes shapes1) by (apply wtb_ok; vm_compute; reflexivity).
  assert (H2 : wt P2 2 shapes shapes2) by (apply wtb_ok; vm_compute; reflexivity).
  assert (B1 : to_vec P1 2 shapes shapes1 = Ok [1; 1; 97; 1; 0; 2; 1; 9; 1; 8]) by reflexivity.
  assert (B2 : to_vec P2 2 shapes shapes2 = Ok [1; 1; 97; 2; 0; 2; 2; 9; 5; 2; 8; 5; 2; 1; 2]) by reflexivity.
  assert (M1 : migrate P1 P2 2 shapes shapes1 = Ok shapes2) by reflexivity.
  assert (R1 : run (deserialize P2 2 shapes) ([1; 1; 97; 1; 0; 2; 1; 9; 1; 8] ++ rest) = Ok (shapes2, rest)).
  { destruct (C17_later_programs_read P1 P2 2 2 shapes shapes1 _ rest wf_P1 wf_P2 (rt_step _ _ _ _ edit_12)
      safe_12 user_P2 (or_introl eq_refl) H1 ltac:(lia) B1) as [H|[H _]].
    - rewrite M1 in H. exact H.
    - elim H. reflexivity. }
  assert (R2 : run (deserialize P3 2 shapes) ([1; 1; 97; 2; 0; 2; 2; 9; 5; 2; 8; 5; 2; 1; 2] ++ []) = Ok (shapes3, []))
    by (vm_compute; reflexivity).
  destruct (C56_upgrade P1 P2 P3 2 2 2 2 2 shapes shapes1 _ rest shapes2 rest _ [] shapes3 []
    wf_P1 wf_P2 wf_P3 (rt_step _ _ _ _ edit_12) (rt_step _ _ _ _ edit_23) safe_12 safe_23 safe_13
    (or_introl eq_refl) (or_introl eq_refl) user_P2 user_P3 ltac:(repeat split) ltac:(repeat split)
    none_12 none_23 settled_123 keys_P2 eq_refl H1 H2 ltac:(lia) ltac:(lia) ltac:(lia) B1 R1 B2 R2) as [H|[H _]].
  - exact H.
  - elim H. reflexivity.
Qed.

(** ** What does not hold *)
(** A default that depends on the revision being read: the two ways differ. *)
Definition dr (f : field) : field :=
  mkField (f_ty f) (f_start f) (f_end f) (fun r => Ok (VInt (Z.of_N r))) (f_convert f) (f_fixed f) (f_spec f) (f_idx f).
Definition pr (n : nat) (fs : list field) : env := ex_env (fun k => if k =? 1 then Some (mkSchema (repeat h0 n) (SStruct fs)) else None).
Theorem C56_default_refuted : exists E1 E2 E3 b b2,
  later E1 E2 /\ later E2 E3 /\ nothing_removed E1 E2 /\ nothing_removed E2 E3
  /\ to_vec E1 1 (TRef 1) (VSeq []) = Ok b
  /\ from_slice E2 1 (TRef 1) b = Ok (VSeq []) /\ to_vec E2 1 (TRef 1) (VSeq []) = Ok b2
  /\ from_slice E3 1 (TRef 1) b2 = Ok (VSeq [VInt 2]) /\ from_slice E3 1 (TRef 1) b = Ok (VSeq [VInt 1]).
Proof.
  exists (pr 1 []), (pr 2 []), (pr 3 [dr (u8 3 None)]), [1], [2].
  split; [|split]; [apply rt_step; repeat split; intros n s; cbn [pr ex_env e_sch]; destruct (n =? 1); intros H; inversion H; subst; eexists; (split; [reflexivity|]); (split; [eexists; reflexivity|]).. |].
  - apply ef_nil.
  - apply ef_add; [reflexivity|apply ef_nil].
  - split; [|split; [|repeat split; vm_compute; reflexivity]]; intros n s s'; cbn [pr ex_env e_sch]; destruct (n =? 1); intros H H'; inversion H; inversion H'; subst; cbn [s_body].
    + intros f [].
    + intros f [<-|[]] Hf. reflexivity.
Qed.
(** A field added and removed again: its [convert_fn] runs only on the way through the middle. *)
Definition move (this : list val) (_ : N) (v : val) : res (list val) := Ok [v].
Theorem C56_removed_refuted : exists E1 E2 E3 b b2,
  later E1 E2 /\ later E2 E3 /\ nothing_removed E1 E2 /\ defaults_settled E1 E2 E3
  /\ to_vec E1 1 (TRef 1) (VSeq [VInt 9]) = Ok b
  /\ from_slice E2 1 (TRef 1) b = Ok (VSeq [VInt 9; VInt 5]) /\ to_vec E2 1 (TRef 1) (VSeq [VInt 9; VInt 5]) = Ok b2
  /\ from_slice E3 1 (TRef 1) b2 = Ok (VSeq [VInt 5]) /\ from_slice E3 1 (TRef 1) b = Ok (VSeq [VInt 9]).
Proof.
  exists (pr 1 [u8 1 None]), (pr 2 [u8 1 None; dv (VInt 5) (u8 2 None)]), (pr 3 [u8 1 None; with_convert move (dv (VInt 5) (u8 2 (Some 3)))]), [1; 9], [2; 9; 5].
  assert (K : edit_field 2 (dv (VInt 5) (u8 2 None)) (with_convert move (dv (VInt 5) (u8 2 (Some 3))))).
  { unfold edit_field, edit_end. repeat split. right. split; [reflexivity|]. exists 3. split; reflexivity. }
  split; [|split]; [apply rt_step; repeat split; intros n s; cbn [pr ex_env e_sch]; destruct (n =? 1); intros H; inversion H; subst; eexists; (split; [reflexivity|]); (split; [eexists; reflexivity|]).. |].
  - efs.
  - apply ef_keep; [unfold edit_field, edit_end; repeat split; auto|]. apply ef_keep; [exact K|apply ef_nil].
  - split; [|split; [|repeat split; vm_compute; reflexivity]].
    + intros n s s'; cbn [pr ex_env e_sch]; destruct (n =? 1); intros H H'; inversion H; inversion H'; subst; cbn [s_body].
      intros f Hf. repeat destruct Hf as [<-|Hf]; try contradiction; vm_compute; congruence.
    + intros n s1 s2 s3; cbn [pr ex_env e_sch]; destruct (n =? 1); intros H H' H''; inversion H; inversion H'; inversion H''; subst; cbn [s_body].
      apply se_keep; [unfold edit_field, edit_end; repeat split; auto|intros Hf; discriminate Hf|reflexivity|].
      apply se_keep; [exact K| |reflexivity|apply se_nil].
      intros _ _ x y Hx (d & Hy). apply Ok_inj in Hx. subst x. exact Hy.
Qed.

Print Assumptions C56_stepwise_is_direct.
Print Assumptions C56_upgrade.
Print Assumptions C56_default_refuted.
Print Assumptions C56_removed_refuted.
