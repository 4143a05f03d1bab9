(** C71: deleting the declarations of what ended, once no older data is around, changes nothing. *)

From Verif Require Import Base BaseL Transp Prog ProgL Prim PrimL Utf8 Tag Ty Ser De Typed Mig Evol EvolL Local LocalL Tidy TidyL DiscL RtL RtTy RtId MigL Agree Parts Spec Cross Ex PropMig.
From Coq Require Import List NArith ZArith Bool Lia Relations.
Import ListNotations.
Open Scope N_scope.

(** The types of the program keep their values, and what is written keeps its bytes. *)
Theorem C71_same_values : forall E S cut d t v, tidied cut (e_sch E) S -> no_older cut (e_sch E) ->
  wt (set_sch E S) d t v <-> wt E d t v.
Proof.
  intros E S cut d t v T K. unfold wt. change (wt_ty (set_sch E S)) with (wt_ty E).
  split; apply loc_wt_ty; intros n _ w Hw; apply (tidy_wt_ref E S cut T K d n w); exact Hw.
Qed.
Theorem C71_same_bytes : forall E S cut d t v, tidied cut (e_sch E) S -> no_older cut (e_sch E) ->
  to_vec (set_sch E S) d t v = to_vec E d t v.
Proof. intros E S cut d t v T K. unfold to_vec. rewrite (tidy_ser_ty E S cut T K d t v). reflexivity. Qed.
Theorem C71_same_writes : forall E S cut d t v, tidied cut (e_sch E) S -> no_older cut (e_sch E) ->
  to_writer (set_sch E S) d t v = to_writer E d t v.
Proof. intros E S cut d t v T K. apply (tidy_ser_ty E S cut T K d t v). Qed.

(** Whatever an earlier version [W] of the program wrote, provided its types are at revision [cut] or
    later: the tidied program reads the same value (or fails the same way), and stops at the same byte. *)
Theorem C71_same_reading : forall W E S cut d d' t v b rest,
  wf_env W -> wf_env E -> wf_env (set_sch E S) -> later W E -> opt_safe W E -> user_panics E (fun x => x <> PStack) ->
  sizes_honest W -> e_mem E = None -> tidied cut (e_sch E) S -> no_older cut (e_sch W) ->
  wt W d t v -> (d <= d')%nat -> to_vec W d t v = Ok b ->
  run (deserialize (set_sch E S) d' t) (b ++ rest) = run (deserialize E d' t) (b ++ rest).
Proof.
  intros W E S cut d d' t v b rest WW WE WE' L O U Hh Hm T K Hw Hd Hs. pose proof (later_compatible W E WW L O) as C.
  pose proof (migrate_nost W E WW WE C U d t v Hw) as Hn.
  pose proof (cong_migrate W E S WW cut WE C T K d t v Hw) as He.
  assert (Hn' : migrate W (set_sch E S) d t v <> Panic PStack) by (rewrite He; exact Hn).
  destruct (cross W E d d' t v b rest WW WE C Hh Hw Hd Hn Hs) as [H1|[H1 _]]; [|contradiction].
  destruct (cross W (set_sch E S) d d' t v b rest WW WE' (tidy_compatible W E S cut C T K) Hh Hw Hd Hn' Hs) as [H2|[H2 _]]; [|contradiction].
  rewrite H1, H2, He. reflexivity.
Qed.

(** Edits and tidyings in any order: data of [W] still reads as its migrated value, and ends at the same byte. *)
Theorem C71_history : forall cut W E d d' t v b rest,
  wf_env W -> wf_env E -> kept_up cut W E -> no_older cut (e_sch W) -> opt_safe W E -> user_panics E (fun x => x <> PStack) ->
  sizes_honest W -> wt W d t v -> (d <= d')%nat -> to_vec W d t v = Ok b ->
  or_oom E (run (deserialize E d' t) (b ++ rest)) (rmap (fun v' => (v', rest)) (migrate W E d t v)).
Proof.
  intros cut W E d d' t v b rest WW WE KU K O U Hh Hw Hd Hs.
  pose proof (keeps_compatible W E (kept_up_keeps cut W E WW K KU) O) as C. apply cross; auto. apply (migrate_nost W E WW WE C U). exact Hw.
Qed.
Theorem C71_edits_are_a_history : forall cut W E, wf_env W -> later W E -> kept_up cut W E.
Proof. intros cut W E WW L. eapply ku_edit; [apply ku_start|exact WW|apply edit_program_star, L]. Qed.

(** Variants keep the numbers they have at [c] and later. *)
Theorem C71_discriminants : forall c r vs vs', tidy_variants c vs vs' -> c <= r -> numbering r vs' = numbering r vs.
Proof. exact tidy_numbering. Qed.

(** ** Examples.  Type 1: { a: u8 [until 2], b: u16, c: u8 [from 2] }, at revision 3 [b] has ended and went to [d].
    Type 2: A [until 2] | B | C, at revision 3 [C] has ended and reads as [B]. *)
Definition to_d (this : list val) (r : N) (v : val) : res (list val) := match this with [c; _] => Ok [c; v] | _ => Err (EConversion (MUser 0)) end.
Definition fa := fld (TInt U8) 1 (Some 2).
Definition fb (e : option N) := with_convert to_d (fld (TInt U16) 1 e).
Definition fc := with_default (VInt 5) (fld (TInt U8) 2 None).
Definition fd := with_default (VInt 0) (fld (TInt U16) 3 None).
Definition hs (n : nat) := repeat (mkHent false false) n.
Definition acct1 := mkSchema (hs 1) (SStruct [fld (TInt U8) 1 None; fb None]).
Definition acct2 := mkSchema (hs 2) (SStruct [fa; fb None; fc]).
Definition acct3 := mkSchema (hs 3) (SStruct [fa; fb (Some 3); fc; fd]).
Definition acct3' := mkSchema (hs 3) (SStruct [fb (Some 3); fc; fd]).
Definition as_b (k s : N) (e : option N) : variant := mkVariant k s e (fun _ => None) None [] (fun _ _ => Ok (VVar 1 [])).
Definition kind1 := mkSchema (hs 1) (SEnum [as_b 0 1 None; as_b 1 1 None; as_b 2 1 None]).
Definition kind2 := mkSchema (hs 2) (SEnum [as_b 0 1 (Some 2); as_b 1 1 None; as_b 2 1 None]).
Definition kind3 := mkSchema (hs 3) (SEnum [as_b 0 1 (Some 2); as_b 1 1 None; as_b 2 1 (Some 3)]).
Definition kind3' := mkSchema (hs 3) (SEnum [as_b 1 1 None; as_b 2 1 (Some 3)]).
Definition two (a b : schema) (n : N) : option schema := if n =? 1 then Some a else if n =? 2 then Some b else None.
Definition p1 := ex_env (two acct1 kind1).
Definition p2 := ex_env (two acct2 kind2).
Definition p3 := ex_env (two acct3 kind3).
Definition S3' := two acct3' kind3'.
Definition cut2 (_ : N) : N := 2.

Ltac by_type := intros n s; cbn [p1 p2 p3 ex_env e_sch set_sch]; unfold S3', two; destruct (n =? 1) eqn:?E1; [|destruct (n =? 2) eqn:?E2]; intros H; inversion H; subst.
Example wf_p1 : wf_env p1.
Proof. apply wf_ex. by_type; apply wf_schemab_ok; vm_compute; reflexivity. Qed.
Example wf_p2 : wf_env p2.
Proof. apply wf_ex. by_type; apply wf_schemab_ok; vm_compute; reflexivity. Qed.
Example wf_p3 : wf_env p3.
Proof. apply wf_ex. by_type; apply wf_schemab_ok; vm_compute; reflexivity. Qed.
Example wf_p3' : wf_env (set_sch p3 S3').
Proof. change (wf_env (ex_env S3')). apply wf_ex. by_type; apply wf_schemab_ok; vm_compute; reflexivity. Qed.
Example tidied_p3 : tidied cut2 (e_sch p3) S3'.
Proof.
  intros n. cbn [p3 ex_env e_sch]. unfold S3', two. destruct (n =? 1); [|destruct (n =? 2); [|exact I]]; (split; [reflexivity|]); cbn [s_body acct3 acct3' kind3 kind3'].
  - apply tf_drop; [exists 2; split; [reflexivity|apply N.le_refl]|]. repeat constructor.
  - apply tv_drop; [exists 2; split; [reflexivity|apply N.le_refl]|]. repeat (apply tv_keep; [repeat split; constructor|]). constructor.
Qed.
Example edit_p2_p3 : edit_program p2 p3.
Proof.
  repeat split; try reflexivity. by_type; eexists; (split; [reflexivity|]); (split; [eexists; reflexivity|]); cbn [edit_body s_body acct2 acct3 kind2 kind3 scur].
  - apply ef_keep; [unfold edit_field, edit_end; repeat split; auto|].
    apply ef_keep; [unfold edit_field, edit_end; repeat split; auto; right; split; [reflexivity|]; exists 3; split; reflexivity|].
    apply ef_keep; [unfold edit_field, edit_end; repeat split; auto|]. apply ef_add; [reflexivity|]. apply ef_nil.
  - do 2 (apply ev_keep; [unfold edit_variant, edit_end; repeat split; auto using edit_fields_refl|]).
    apply ev_keep; [unfold edit_variant, edit_end; repeat split; auto using edit_fields_refl; right; split; [reflexivity|]; exists 3; split; reflexivity|]. apply ev_nil.
Qed.
Example edit_p1_p2 : edit_program p1 p2.
Proof.
  repeat split; try reflexivity. by_type; eexists; (split; [reflexivity|]); (split; [eexists; reflexivity|]); cbn [edit_body s_body acct1 acct2 kind1 kind2 scur].
  - apply ef_keep; [unfold edit_field, edit_end; repeat split; auto; right; split; [reflexivity|]; exists 2; split; reflexivity|].
    apply ef_keep; [unfold edit_field, edit_end; repeat split; auto|]. apply ef_add; [reflexivity|]. apply ef_nil.
  - apply ev_keep; [unfold edit_variant, edit_end; repeat split; auto using edit_fields_refl; right; split; [reflexivity|]; exists 2; split; reflexivity|].
    do 2 (apply ev_keep; [unfold edit_variant, edit_end; repeat split; auto using edit_fields_refl|]). apply ev_nil.
Qed.
Example later_p2_p3 : later p2 p3.
Proof. apply rt_step, edit_p2_p3. Qed.
Example safe_p : forall E, E = p1 \/ E = p2 -> opt_safe E p3.
Proof. intros E HE n s s' h. destruct HE as [-> | ->]; cbn [p1 p2 p3 ex_env e_sch]; unfold two; destruct (n =? 1); try destruct (n =? 2); intros A B; inversion A; inversion B; subst; vm_compute; intros Hh; inversion Hh; subst; discriminate. Qed.
Example quiet_p3 : user_panics p3 (fun x => x <> PStack).
Proof.
  by_type; cbn [s_body acct3 kind3].
  - split; [|discriminate]. intros f r x Hf. repeat destruct Hf as [<-|Hf]; try contradiction; (split; [discriminate|]); intros l v; try discriminate.
    cbn. unfold to_d. destruct l as [|? [|? [|]]]; discriminate.
  - split.
    + intros f r x (v & Hv & Hf). repeat destruct Hv as [<-|Hv]; try contradiction.
    + intros vs v l r x Hvs Hv. inversion Hvs; subst. repeat destruct Hv as [<-|Hv]; try contradiction; discriminate.
Qed.
Example no_older_p2 : no_older cut2 (e_sch p2).
Proof. by_type; vm_compute; discriminate. Qed.
Example no_older_p3 : no_older cut2 (e_sch p3).
Proof. by_type; vm_compute; discriminate. Qed.

Definition acct_v : val := VSeq [VInt 300; VInt 9].
Example acct_wt : wt p2 1 (TRef 1) acct_v.
Proof. apply wtb_ok. vm_compute. reflexivity. Qed.
Example acct_enc : to_vec p2 1 (TRef 1) acct_v = Ok [2; 251; 44; 1; 9].
Proof. vm_compute. reflexivity. Qed.
(** The tidied program reads the account of revision 2: [b] went to [d]. *)
Example C71_instance : forall rest, run (deserialize (set_sch p3 S3') 1 (TRef 1)) ([2; 251; 44; 1; 9] ++ rest) = Ok (VSeq [VInt 9; VInt 300], rest).
Proof.
  intros rest.
  rewrite (C71_same_reading p2 p3 S3' cut2 1 1 (TRef 1) acct_v [2; 251; 44; 1; 9] rest wf_p2 wf_p3 wf_p3' later_p2_p3 (safe_p p2 (or_intror eq_refl))
    quiet_p3 (or_introl eq_refl) eq_refl tidied_p3 no_older_p2 acct_wt (le_n _) acct_enc).
  destruct (C17_later_programs_read p2 p3 1 1 (TRef 1) acct_v _ rest wf_p2 wf_p3 later_p2_p3 (safe_p p2 (or_intror eq_refl)) quiet_p3 (or_introl eq_refl) acct_wt (le_n _) acct_enc) as [H|[H _]];
    [exact H|elim H; reflexivity].
Qed.
Example C71_bytes_instance : to_vec (set_sch p3 S3') 1 (TRef 2) (VVar 1 []) = Ok [3; 0].
Proof. rewrite (C71_same_bytes p3 S3' cut2 1 (TRef 2) (VVar 1 []) tidied_p3 no_older_p3). vm_compute. reflexivity. Qed.
Example C71_history_instance : kept_up cut2 p2 (set_sch p3 S3').
Proof. apply ku_tidy; [|exact tidied_p3]. apply C71_edits_are_a_history; [exact wf_p2|exact later_p2_p3]. Qed.

(** Tidying too early: data of revision 1 is still around.  The field is read from the bytes of its
    neighbour, and a variant turns into another one; nothing reports an error. *)
Theorem C71_too_early_refuted :
  ~ (forall W E S cut d d' t v b rest,
     wf_env W -> wf_env E -> wf_env (set_sch E S) -> later W E -> opt_safe W E -> user_panics E (fun x => x <> PStack) ->
     sizes_honest W -> e_mem E = None -> tidied cut (e_sch E) S -> no_older cut (e_sch E) ->
     wt W d t v -> (d <= d')%nat -> to_vec W d t v = Ok b ->
     run (deserialize (set_sch E S) d' t) (b ++ rest) = run (deserialize E d' t) (b ++ rest)).
Proof.
  intros H. specialize (H p1 p3 S3' cut2 1%nat 1%nat (TRef 1) (VSeq [VInt 7; VInt 8]) [1; 7; 8] [9] wf_p1 wf_p3 wf_p3').
  assert (L : later p1 p3) by (eapply rt_trans; apply rt_step; [apply edit_p1_p2|apply edit_p2_p3]).
  specialize (H L (safe_p p1 (or_introl eq_refl)) quiet_p3 (or_introl eq_refl) eq_refl tidied_p3 no_older_p3).
  assert (Hw : wt p1 1 (TRef 1) (VSeq [VInt 7; VInt 8])) by (apply wtb_ok; vm_compute; reflexivity).
  assert (He : to_vec p1 1 (TRef 1) (VSeq [VInt 7; VInt 8]) = Ok [1; 7; 8]) by (vm_compute; reflexivity).
  specialize (H Hw (le_n _) He). vm_compute in H. discriminate.
Qed.
Example too_early_field : run (deserialize p3 1 (TRef 1)) [1; 7; 8; 9] = Ok (VSeq [VInt 5; VInt 8], [9])
  /\ run (deserialize (set_sch p3 S3') 1 (TRef 1)) [1; 7; 8; 9] = Ok (VSeq [VInt 5; VInt 7], [8; 9]).
Proof. split; vm_compute; reflexivity. Qed.
(** Written as [A] by the first version, read as [B]: the numbers have moved up. *)
Example too_early_variant : to_vec p1 1 (TRef 2) (VVar 0 []) = Ok [1; 0]
  /\ numbering 1 [as_b 0 1 (Some 2); as_b 1 1 None; as_b 2 1 (Some 3)] = Some [(0, 0); (1, 1); (2, 2)]
  /\ numbering 1 [as_b 1 1 None; as_b 2 1 (Some 3)] = Some [(1, 0); (2, 1)]
  /\ run (deserialize (set_sch p3 S3') 1 (TRef 2)) [1; 0] = Ok (VVar 1 [], []).
Proof. repeat split; vm_compute; reflexivity. Qed.

Print Assumptions C71_same_values.
Print Assumptions C71_same_bytes.
Print Assumptions C71_same_writes.
Print Assumptions C71_same_reading.
Print Assumptions C71_history.
Print Assumptions C71_edits_are_a_history.
Print Assumptions C71_discriminants.
Print Assumptions C71_too_early_refuted.
