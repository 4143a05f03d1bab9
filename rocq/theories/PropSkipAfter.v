(** Skipping after a change of type in place (C60) and after declarations were deleted (C71). *)

From Verif Require Import Base BaseL Prog ProgL Prim Utf8 Tag Ty Ser De Typed Mig Evol EvolL RtL Agree Spec Cross Ex SliceReader Skip SkipL SkipFormL Transp Retype RetypeL PropRetype Tidy TidyL PropTidy Parts MigL PropSkip PropWire PropFormat PropMig WalkRef.
From Coq Require Import List NArith ZArith Bool Lia.
Import ListNotations.
Open Scope N_scope.

(** What would be decoded, given enough memory, is skipped. *)
Lemma skips_what_decodes : forall E d t bs v rest, spec_built E -> len bs < 2 ^ e_ub E ->
  run (deserialize (set_mem None E) d t) bs = Ok (v, rest) -> or_oom E (run (skip E d t) bs) (Ok (tt, rest)).
Proof.
  intros E d t bs v rest SB Hl H. assert (H' : run (skip (set_mem None E) d t) bs = Ok (tt, rest)) by exact (cov_skip (set_mem None E) d t SB bs v rest Hl H).
  destruct (mem_skip E d t bs) as [Hs|(p & <- & Hs)]; [left; rewrite Hs; exact H'|].
  destruct (e_mem E) as [m|] eqn:Em; [right; split; [congruence|exact Hs]|].
  left. replace (set_mem None E) with E in H' by (destruct E; cbn in Em; subst; reflexivity). exact H'.
Qed.

(** After the change of type the program also skips whatever it could read before. *)
Theorem C60_skipping : forall E o S d t t' bs v rest,
  wf_env E -> retyped E o S -> widens E o t t' -> wfb bs -> spec_built (set_sch E S) -> len bs < 2 ^ e_ub E ->
  run (deserialize E d t) bs = Ok (v, rest) -> or_oom E (run (skip (set_sch E S) d t') bs) (Ok (tt, rest)).
Proof.
  intros E o S d t t' bs v rest W HS Ht Hb SB Hl H.
  assert (H0 : run (deserialize (set_mem None E) d t) bs = Ok (v, rest)).
  { destruct (mem_agree E d t bs) as [<-|(x & <- & K)]; [exact H|congruence]. }
  destruct (C60_widening (set_mem None E) o S d t t' bs v rest (wf_set_mem _ _ W) (retyped_mem _ _ _ HS) (widens_mem _ _ _ _ Ht) Hb H0) as [H1|[K _]]; [|elim K; reflexivity].
  exact (skips_what_decodes (set_sch E S) d t' bs v rest SB Hl H1).
Qed.
(** In particular everything it has written. *)
Theorem C60_skipping_old_data : forall E o S d d' t t' v b rest,
  wf_env E -> sizes_honest E -> retyped E o S -> widens E o t t' -> wt E d t v -> (d <= d')%nat -> to_vec E d t v = Ok b ->
  spec_built (set_sch E S) -> wfb rest -> len (b ++ rest) < 2 ^ e_ub E ->
  or_oom E (run (skip (set_sch E S) d' t') (b ++ rest)) (Ok (tt, rest)).
Proof.
  intros E o S d d' t t' v b rest W Hh HS Ht Hw Hd Hs SB Hr Hl. assert (Hb : wfb b) by (eapply written_wfb; [| |exact Hs]; assumption).
  pose proof (same0 E d d' t v b rest W Hh Hw Hd Hs) as H0.
  destruct (C60_widening (set_mem None E) o S d' t t' (b ++ rest) v rest (wf_set_mem _ _ W) (retyped_mem _ _ _ HS) (widens_mem _ _ _ _ Ht)) as [H1|[K _]];
    [apply Forall_app; split; assumption|exact H0| |elim K; reflexivity].
  exact (skips_what_decodes (set_sch E S) d' t' (b ++ rest) v rest SB Hl H1).
Qed.
(** After any number of edits and deletions the program skips what earlier programs wrote, if it can migrate it. *)
Theorem C71_skipping : forall cut W E d d' t v b rest v',
  wf_env W -> wf_env E -> kept_up cut W E -> no_older cut (e_sch W) -> opt_safe W E -> user_panics E (fun x => x <> PStack) ->
  sizes_honest W -> wt W d t v -> (d <= d')%nat -> to_vec W d t v = Ok b -> migrate W E d t v = Ok v' ->
  e_mem E = None -> spec_built E -> len (b ++ rest) < 2 ^ e_ub E ->
  run (skip E d' t) (b ++ rest) = Ok (tt, rest).
Proof.
  intros cut W E d d' t v b rest v' WW WE KU K O U Hh Hw Hd Hs Hm He SB Hl.
  destruct (C71_history cut W E d d' t v b rest WW WE KU K O U Hh Hw Hd Hs) as [H|[H _]]; [|contradiction]. rewrite Hm in H. cbn [rmap] in H.
  exact (cov_skip E d' t SB (b ++ rest) v' rest Hl H).
Qed.

(** ** Cases: the records of PropRetype.v and PropTidy.v *)
Example C60_skip_case : exists b, to_vec (only rec_old) 1 (TRef 1) rec_val = Ok b /\ run (skip (set_sch (only rec_old) swapped) 1 (TRef 1)) (b ++ [7]) = Ok (tt, [7]).
Proof.
  destruct rec_change as (W & Hw & b & Hb & _). exists b. split; [exact Hb|].
  destruct (C60_skipping_old_data (only rec_old) False swapped 1 1 (TRef 1) (TRef 1) rec_val b [7] W (or_introl eq_refl) rec_retyped (wd_refl _ _ _) Hw (le_n _) Hb) as [H|[H _]].
  - intros n s f _ _ _. reflexivity.
  - repeat constructor.
  - vm_compute in Hb. apply Ok_inj in Hb. subst b. vm_compute. reflexivity.
  - exact H.
  - elim H. reflexivity.
Qed.
Example C71_skip_case : run (skip (set_sch p3 S3') 1 (TRef 1)) ([2; 251; 44; 1; 9] ++ [7]) = Ok (tt, [7]).
Proof.
  assert (Hsafe : opt_safe p2 (set_sch p3 S3')).
  { intros n s s' h. cbn. unfold two. destruct (n =? 1); [|destruct (n =? 2)]; intros A B; inversion A; inversion B; subst; vm_compute; intros Hh; inversion Hh; subst; discriminate. }
  assert (Hquiet : user_panics (set_sch p3 S3') (fun x => x <> PStack)).
  { by_type; cbn [s_body acct3' kind3'].
    - split; [|discriminate]. intros f r x Hf. repeat destruct Hf as [<-|Hf]; try contradiction; (split; [discriminate|]); intros l v; try discriminate.
      cbn. unfold to_d. destruct l as [|? [|? [|]]]; discriminate.
    - split.
      + intros f r x (v & Hv & Hf). repeat destruct Hv as [<-|Hv]; try contradiction.
      + intros vs v l r x Hvs Hv. inversion Hvs; subst. repeat destruct Hv as [<-|Hv]; try contradiction; discriminate. }
  apply (C71_skipping cut2 p2 (set_sch p3 S3') 1 1 (TRef 1) acct_v [2; 251; 44; 1; 9] [7] (VSeq [VInt 9; VInt 300]) wf_p2 wf_p3' C71_history_instance no_older_p2 Hsafe Hquiet
    (or_introl eq_refl) acct_wt (le_n _) acct_enc); [vm_compute; reflexivity|reflexivity|intros n s f _ _ _; reflexivity|vm_compute; reflexivity].
Qed.
Print Assumptions C60_skipping.
Print Assumptions C60_skipping_old_data.
Print Assumptions C71_skipping.
