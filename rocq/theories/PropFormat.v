(** C49: the decoders accept exactly the wire format of Format.v. *)

From Verif Require Import Base BaseL Prog ProgL Prim PrimL Utf8 Ty Ser De Typed Parts PartsL SerL Mig RtL RtId Agree Spec Cross Format FormatL Ex PropWire.
From Coq Require Import List NArith ZArith Bool Lia.
Import ListNotations.
Open Scope N_scope.

(** The grammar does not mention the memory limit. *)
Lemma form_mem : forall E d t v x, form (set_mem None E) d t v x = form E d t v x.
Proof. reflexivity. Qed.

(** Whatever is decoded was a form of the value returned, and exactly that form was consumed. *)
Theorem C49_decoded_is_form : forall E d t bs v rest, wf_env E -> wfb bs ->
  run (deserialize E d t) bs = Ok (v, rest) -> exists x, bs = x ++ rest /\ form E d t v x.
Proof.
  intros E d t bs v rest W Hb R.
  destruct (mem_agree E d t bs) as [A|(x & <- & A)]; [|congruence]. rewrite A in R.
  pose proof (means_deserialize (set_mem None E) (wf_set_mem None E W) eq_refl d t) as M.
  apply (means_run _ _ _ M _ _ _ Hb) in R. exact R.
Qed.
(** Every form of a value decodes to that value, whatever follows. *)
Theorem C49_form_decodes : forall E d t v x rest, wf_env E -> wfb x -> wfb rest ->
  form E d t v x -> or_oom E (run (deserialize E d t) (x ++ rest)) (Ok (v, rest)).
Proof.
  intros E d t v x rest W Hx Hr F.
  assert (Hb : wfb (x ++ rest)) by (apply wfb_app; auto).
  pose proof (means_deserialize (set_mem None E) (wf_set_mem None E W) eq_refl d t) as M.
  assert (R : run (deserialize (set_mem None E) d t) (x ++ rest) = Ok (v, rest)) by (apply (means_run _ _ _ M _ _ _ Hb); exists x; auto).
  destruct (e_mem E) as [m|] eqn:Em.
  - destruct (mem_agree E d t (x ++ rest)) as [A|(q & <- & A)]; [left; congruence|right]. rewrite Em. split; [discriminate|exact A].
  - left. replace E with (set_mem None E) by (destruct E; cbn in *; subst; reflexivity). exact R.
Qed.
(** Both together, without a memory limit. *)
Theorem C49_decodes_exactly : forall E d t bs v rest, wf_env E -> e_mem E = None -> wfb bs ->
  (run (deserialize E d t) bs = Ok (v, rest) <-> exists x, bs = x ++ rest /\ form E d t v x).
Proof.
  intros E d t bs v rest W Hm Hb. apply (means_run _ _ _ (means_deserialize E W Hm d t) _ _ _ Hb).
Qed.
(** Nothing else decodes. *)
Theorem C49_rejected : forall E d t bs, wf_env E -> wfb bs ->
  (forall v x rest, bs = x ++ rest -> ~ form E d t v x) -> exists r, from_slice E d t bs = r /\ forall v, r <> Ok v.
Proof.
  intros E d t bs W Hb N. exists (from_slice E d t bs). split; [reflexivity|]. intros v H. unfold from_slice in H. apply rmap_ok in H.
  destruct H as ([w rest] & R & _). apply C49_decoded_is_form in R; try assumption. destruct R as (x & He & F). exact (N w x rest He F).
Qed.
(** The grammar is unambiguous, and no form is the beginning of another. *)
Theorem C49_unambiguous : forall E d t v v' x x' s s', wf_env E -> wfb (x ++ s) ->
  form E d t v x -> form E d t v' x' -> x ++ s = x' ++ s' -> v = v' /\ x = x' /\ s = s'.
Proof.
  intros E d t v v' x x' s s' W Hb F F' He.
  pose proof (wf_set_mem None E W) as W0.
  assert (R : run (deserialize (set_mem None E) d t) (x ++ s) = Ok (v, s)).
  { apply (C49_decodes_exactly (set_mem None E) d t); try assumption; try reflexivity. exists x. auto. }
  assert (R' : run (deserialize (set_mem None E) d t) (x ++ s) = Ok (v', s')).
  { apply (C49_decodes_exactly (set_mem None E) d t); try assumption; try reflexivity. exists x'. auto. }
  rewrite R in R'. apply Ok_inj in R'. injection R' as -> ->. split; [reflexivity|]. split; [|reflexivity]. apply app_inv_tail in He. exact He.
Qed.
Lemma written_wfb : forall E d t v b, wf_env E -> wt E d t v -> to_vec E d t v = Ok b -> wfb b.
Proof.
  intros E d t v b W Hw H. unfold to_vec, ser_bytes in H.
  assert (S : rspec (Forall (fun w => wfb (wop_bytes w))) (fun _ => True) (fun _ => True) (to_writer E d t v)).
  { apply (sspec_writer (fun _ => True) (fun _ => True) (fun _ _ => True)); auto.
    - intros _ _. split; repeat constructor.
    - apply every_true; auto. }
  destruct (to_writer E d t v) as [ops|e'|x]; try discriminate. apply Ok_inj in H. subst b. exact (out_wf (fun w => wfb (wop_bytes w)) (fun w H => H) ops S).
Qed.
(** What is written is a form of the value. *)
Theorem C49_written_is_form : forall E d t v b, wf_env E -> sizes_honest E -> wt E d t v ->
  to_vec E d t v = Ok b -> form E d t v b.
Proof.
  intros E d t v b W Hh Hw Hs. pose proof (written_wfb E d t v b W Hw Hs) as Hb.
  pose proof (same0 E d d t v b [] W Hh Hw (le_n _) Hs) as R. rewrite app_nil_r in R.
  apply (C49_decodes_exactly (set_mem None E) d t b v [] (wf_set_mem None E W) eq_refl Hb) in R.
  destruct R as (x & -> & F). rewrite app_nil_r in *. exact F.
Qed.

(** Hypotheses met: the struct of Ex.v; a form nobody writes (long integer forms); byte strings that are no
    form of a [bool]. *)
Example C49_case_struct : form new 2 (TRef 1) u_new u_new_bytes.
Proof.
  apply C49_written_is_form; [apply wf_new|apply honest_new|apply wt_new|vm_compute; reflexivity].
Qed.
Example C49_case_long : form new 0 (TImVec (TInt U16)) (VSeq [VInt 7; VInt 300]) ([252; 2; 0; 0; 0] ++ [251; 7; 0] ++ [253; 44; 1; 0; 0; 0; 0; 0; 0]).
Proof.
  assert (W : wfb ([252; 2; 0; 0; 0] ++ [251; 7; 0] ++ [253; 44; 1; 0; 0; 0; 0; 0; 0])) by (apply wfbb_iff; reflexivity).
  destruct (C49_decoded_is_form new 0 (TImVec (TInt U16)) _ (VSeq [VInt 7; VInt 300]) [] wf_new W ltac:(vm_compute; reflexivity)) as (x & He & F).
  rewrite app_nil_r in He. rewrite He. exact F.
Qed.
Example C49_case_bool : forall b rest v x, b <> 0 -> b <> 1 -> b :: rest = x ++ [] ++ rest -> ~ form new 0 TBool v x.
Proof.
  intros b rest v x H0 H1 He [[_ ->]|[_ ->]]; cbn in He; injection He as ->; contradiction.
Qed.

Print Assumptions C49_decoded_is_form.
Print Assumptions C49_form_decodes.
Print Assumptions C49_decodes_exactly.
Print Assumptions C49_rejected.
Print Assumptions C49_unambiguous.
Print Assumptions C49_written_is_form.
