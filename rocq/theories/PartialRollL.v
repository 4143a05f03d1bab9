(** What an older program makes of the bytes of a failed write.  Proofs. *)

From Verif Require Import Base BaseL Prog ProgL Prim PrimL Utf8 Tag Ty Ser De Typed Mig Evol EvolL RtL RtTy RtDer RtSch RtId Agree Cross Parts PartsL RollL EofL Spec SerL Partial PartialL.
From Coq Require Import List NArith ZArith Bool Lia.
Import ListNotations.
Open Scope N_scope.

Section Roll.
Variables (Pe : err -> Prop) (Pp : pan -> Prop).
Hypothesis PIo : Pe EIo.
Hypothesis Pref : forall e, refusal e -> Pe e.
Variables (E E' : env).   (* E: the newer program, which wrote; E': the older, which reads *)
Hypothesis W : wf_env E.
Hypothesis W' : wf_env E'.
Hypothesis HE : edit_program E' E.
Hypothesis Hlib : same_libraries E E'.
Hypothesis Hmem : e_mem E' = None.
Hypothesis Hhonest : sizes_honest E.
Let any (_ : ty) : bool := true.
Let Hwrap : Pe (EDeserialize MInner) \/ (forall a b, any (TResult a b) = false) /\ (forall a, any (TBound a) = false).
Proof. left. apply Pref. right. reflexivity. Qed.
Let Hany : env_all (fun f => ty_all any (f_ty f)) E'.
Proof. intros n s _. apply all_true. Qed.

Lemma roll_fine : forall d t v ops, wt_ty E (wtR E E' d) t v -> ser_ty E (ser_ref E d) t v = Ok ops -> fine Pe Pp (mig_ty E E' (roll E E' true d) t v).
Proof.
  intros d t v ops Hw Hs. rewrite (mig_ty_lib E E' (roll E E' true d) Hlib).
  assert (Hi : mig_ty E E (roll E E' false d) t v = Ok v).
  { eapply (mig_ty_id E W (ser_ref E d) (roll E E' false d) (wtR E E' d)); eauto. intros n x o. apply roll_lax; assumption. }
  pose proof (low_ty E E (roll E E' true d) (roll E E' false d) (roll_low E E' d) t v) as L. rewrite Hi in L.
  destruct L as [->|(e & -> & He)]; [exact I|apply Pref, He].
Qed.
Lemma reads_old : forall d t, reads Pe (deserialize E' d t).
Proof. intros d t. apply (reads_deserialize Pe any E' d t PIo Hwrap Hany). apply ty_all_true. Qed.
Lemma pr_ref : forall d n v, wtR E E' d n v -> pbad Pe Pp (pw_ref E d n v) (de_ref E' d n).
Proof.
  assert (Hfw : e_fw E' = e_fw E) by apply HE. assert (Hspec : e_spec E' = e_spec E) by apply HE.
  assert (Hub : e_ub E' = e_ub E) by apply HE.
  induction d as [|d IH]; intros n v Hw; cbn [wtR] in Hw; [contradiction|].
  cbn [pw_ref de_ref]. destruct (e_sch E n) as [s|] eqn:Es; [|contradiction]. destruct (e_sch E' n) as [s'|] eqn:Es'; [|contradiction].
  pose proof (we_sch _ W _ _ Es) as Hs. pose proof (we_sch _ W' _ _ Es') as Hs'.
  destruct (scur s' <? scur s) eqn:El.
  - destruct Hs as (H0 & H16 & _). unfold pw_derived, de_derived. destruct (sent_cur s H0) as (h & Hh). rewrite Hh.
    apply (pb_bytes _ _ _ _ _ _ _ _ (scur s)); [intros rest; rewrite Hfw; apply rt_u16; exact H16|]. unfold de_body.
    assert (Hn : sent s' (scur s) = None).
    { unfold sent. replace (scur s =? 0) with false by lia. apply nth_error_None. unfold scur, len in *. lia. }
    rewrite Hn. unfold pbad. destruct (snd _); [exact I| |]; apply Pref; left; reflexivity.
  - destruct (same_rev E E' W' HE n s s' Es Es' El) as (Hc & Hev).
    apply (pf_derived Pe Pp PIo E E' Hfw Hspec Hub W Hmem (proj2 (we_time _ W)) any Hwrap (pw_ref E d) (ser_ref E d) (de_ref E' d) (roll E E' true d) (wtR E E' d)); auto.
    + apply collapse_ref.
    + intros n' v'. apply rt_roll; assumption.
    + intros n' _. apply (reads_old d (TRef n')).
    + intros t' v' ops'. apply roll_fine.
    + apply all_true.
    + intros f _ H1 H2. rewrite Hc in H2. congruence.
Qed.
Lemma writes_bad_old : forall d t v, closed E' t -> wt E d t v -> pbad Pe Pp (writes E d t v) (deserialize E' d t).
Proof.
  intros d t v [Ht Hcl] Hw.
  assert (Hfw : e_fw E' = e_fw E) by apply HE. assert (Hspec : e_spec E' = e_spec E) by apply HE.
  assert (Hub : e_ub E' = e_ub E) by apply HE.
  unfold writes, deserialize.
  apply (pw_ty_bad Pe Pp PIo E E' Hfw Hspec Hub W Hmem (proj2 (we_time _ W)) any Hwrap (pw_ref E d) (ser_ref E d) (de_ref E' d) (roll E E' true d) (wtR E E' d)).
  - apply collapse_ref.
  - intros n' v'. apply rt_roll; assumption.
  - intros n' v' _. apply pr_ref.
  - intros t' v' ops'. apply roll_fine.
  - apply ty_all_true.
  - apply (wt_all E (declared E') (wt_ref E d)); auto. intros n' v'. apply wt_wtR; assumption.
Qed.
End Roll.
