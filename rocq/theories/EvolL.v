(** Edited programs are compatible.  Proofs. *)

From Verif Require Import Base BaseL Prog Prim Ty Ser Typed Mig Evol RtId.
From Coq Require Import List NArith ZArith Bool Lia ZifyBool Relations.
Import ListNotations.
Open Scope N_scope.

Lemma exists_at_end : forall r s e e' x, edit_end r e e' -> x <= r -> exists_at s e' x = exists_at s e x.
Proof.
  intros r s e e' x [->|(-> & y & -> & Hy)] Hx; [reflexivity|]. unfold exists_at. lia.
Qed.
Lemma exists_at_new : forall s e x, x < s -> exists_at s e x = false.
Proof. intros s e x H. unfold exists_at. lia. Qed.

Lemma edit_wire_fields : forall (wf : field -> ty * fmode) r fs fs',
  (forall f f', edit_field r f f' -> wf f' = wf f) ->
  edit_fields r fs fs' -> map wf (filter (falive r) fs') = map wf (filter (falive r) fs).
Proof.
  intros wf r fs fs' Hw H. induction H as [|f f' fs fs' Hf Hfs IH|f' fs fs' Hf Hfs IH]; cbn [filter].
  - reflexivity.
  - replace (falive r f') with (falive r f).
    + destruct (falive r f); cbn [map]; [rewrite (Hw _ _ Hf)|]; rewrite IH; reflexivity.
    + destruct Hf as (_ & Hs & _ & _ & _ & He). unfold falive. rewrite Hs. symmetry. eapply exists_at_end; [exact He|lia].
  - unfold falive at 1. rewrite exists_at_new by assumption. exact IH.
Qed.
Lemma edit_wire_field : forall opt r f f', edit_field r f f' -> wire_field opt f' = wire_field opt f.
Proof.
  intros opt r f f' (H1 & H2 & H3 & H4 & H5 & _). unfold wire_field, mode_of, mode_opt, mode_legacy. rewrite H1, H3, H4, H5. reflexivity.
Qed.

Lemma edit_valive : forall r v v', edit_variant r v v' -> valive r v' = valive r v.
Proof. intros r v v' (_ & Hs & _ & _ & He & _). unfold valive. rewrite Hs. eapply exists_at_end; [exact He|lia]. Qed.
Lemma edit_gather : forall r vs vs', edit_variants r vs vs' -> forall used, gather r vs' used = gather r vs used.
Proof.
  intros r vs vs' H. induction H as [|v v' vs vs' Hv Hvs IH|v' vs vs' Hv Hvs IH]; intros used; cbn [gather].
  - reflexivity.
  - rewrite (edit_valive _ _ _ Hv). destruct Hv as (_ & _ & _ & Ho & _). rewrite Ho by lia.
    destruct (valive r v); [|apply IH]. destruct (v_over v r) as [d|]; [|apply IH]. destruct (existsb (N.eqb d) used); [reflexivity|apply IH].
  - unfold valive. rewrite exists_at_new by assumption. apply IH.
Qed.
Lemma edit_assign : forall r vs vs', edit_variants r vs vs' -> forall used n,
  Forall2 (fun p p' => edit_variant r (fst p) (fst p') /\ snd p = snd p') (assign r vs used n) (assign r vs' used n).
Proof.
  intros r vs vs' H. induction H as [|v v' vs vs' Hv Hvs IH|v' vs vs' Hv Hvs IH]; intros used n; cbn [assign].
  - constructor.
  - rewrite (edit_valive _ _ _ Hv). pose proof Hv as (_ & _ & _ & Ho & _). rewrite Ho by lia.
    destruct (valive r v); [|apply IH]. destruct (v_over v r) as [d|]; cbv zeta; constructor; auto.
  - unfold valive. rewrite exists_at_new by assumption. apply IH.
Qed.
Lemma edit_wire_variant : forall opt r p p', edit_variant r (fst p) (fst p') -> snd p = snd p' ->
  (opt = true -> v_size (fst p) <> None) -> wire_variant opt r p' = wire_variant opt r p.
Proof.
  intros opt r [v d] [v' d'] (Hn & Hs & Hz & Ho & He & Hf) Hd Hsz. cbn [fst snd] in *. subst d'. unfold wire_variant. cbn [fst snd].
  rewrite Hn. destruct opt.
  - destruct Hz as [Hz|Hz]; [elim (Hsz eq_refl Hz)|]. rewrite Hz. f_equal.
    apply (edit_wire_fields (fun f => (f_ty f, MPlain)) r); [|exact Hf]. intros f f' (H1 & _). rewrite H1. reflexivity.
  - f_equal. unfold wire_fields. apply (edit_wire_fields (wire_field false) r); [|exact Hf]. intros f f'. apply (edit_wire_field false r).
Qed.

Lemma edit_same_wire : forall h s s', wf_schema s -> edit_schema s s' -> sent s (scur s) = Some h ->
  same_wire (h_opt h) (scur s) (s_body s) (s_body s').
Proof.
  intros h s s' (H0 & _ & Hb) (_ & He) Hh. unfold edit_body in He. unfold same_wire.
  destruct (s_body s) as [fs|vs], (s_body s') as [fs'|vs']; try contradiction.
  - symmetry. unfold wire_fields. apply (edit_wire_fields (wire_field (h_opt h)) (scur s)); [|exact He].
    intros f f'. apply (edit_wire_field (h_opt h) (scur s)).
  - destruct Hb as (_ & _ & Hr). destruct (Hr _ _ Hh) as (ds & Hds & _ & Hopt).
    unfold calc_disc in *. pose proof (edit_gather _ _ _ He []) as Hg. destruct (gather (scur s) vs []) as [u|]; [|discriminate].
    rewrite Hg. exists ds, (assign (scur s) vs' u 0). split; [exact Hds|]. split; [reflexivity|]. injection Hds as <-.
    pose proof (edit_assign _ _ _ He u 0) as Ha. induction Ha as [|p p' l l' [H1 H2] Hl IH]; [reflexivity|].
    cbn [map]. rewrite (edit_wire_variant (h_opt h) (scur s) p p' H1 H2).
    + rewrite IH; [reflexivity|]. intros Ho. specialize (Hopt Ho). cbn [forallb] in Hopt. apply andb_prop in Hopt. apply Hopt.
    + intros Ho. specialize (Hopt Ho). cbn [forallb] in Hopt. apply andb_prop in Hopt. destruct Hopt as [Hopt _].
      unfold opt_variant_ok in Hopt. destruct (v_size (fst p)); [discriminate|]. rewrite andb_false_r in Hopt. discriminate.
Qed.

Lemma sent_app : forall s s' more r h, s_hist s' = s_hist s ++ more -> sent s r = Some h -> sent s' r = Some h.
Proof.
  intros s s' more r h Hm Hs. unfold sent in *. destruct (r =? 0); [discriminate|]. rewrite Hm, nth_error_app1; [exact Hs|].
  apply nth_error_Some. congruence.
Qed.
Lemma edit_evolves : forall s s', wf_schema s -> edit_schema s s' ->
  (forall h, sent s (scur s) = Some h -> h_opt h = true -> opt_restricted (scur s) s') -> evolves s s'.
Proof.
  intros s s' Hw He Ho. pose proof He as ((more & Hm) & _). split.
  - unfold scur. rewrite Hm, len_app. lia.
  - destruct (sent_cur s (proj1 Hw)) as (h & Hh). exists h. split; [exact Hh|]. split; [eapply sent_app; eauto|].
    split; [apply edit_same_wire; assumption|]. apply Ho, Hh.
Qed.

(** Edits compose. *)
Lemma edit_end_trans : forall r r' a b c, r <= r' -> edit_end r a b -> edit_end r' b c -> edit_end r a c.
Proof.
  intros r r' a b c Hr [->|(-> & x & -> & Hx)] [->|(Hb & y & -> & Hy)]; unfold edit_end; auto.
  - right. split; [assumption|]. exists y. split; [reflexivity|lia].
  - right. split; [reflexivity|]. eauto.
  - discriminate.
Qed.
Lemma edit_field_trans : forall r r' a b c, r <= r' -> edit_field r a b -> edit_field r' b c -> edit_field r a c.
Proof.
  intros r r' a b c Hr (A1 & A2 & A3 & A4 & A5 & A6) (B1 & B2 & B3 & B4 & B5 & B6). unfold edit_field.
  rewrite B1, B2, B3, B4, B5. repeat split; auto. eapply edit_end_trans; eauto.
Qed.
Lemma edit_fields_trans : forall r r' a b c, r <= r' -> edit_fields r a b -> edit_fields r' b c -> edit_fields r a c.
Proof.
  intros r r' a b c Hr Hab Hbc. revert a Hab. induction Hbc as [|f f' fs fs' Hf Hfs IH|f' fs fs' Hf Hfs IH]; intros a Hab.
  - exact Hab.
  - inversion Hab; subst.
    + apply ef_keep; [eapply edit_field_trans; eauto|apply IH; assumption].
    + apply ef_add; [destruct Hf as (_ & -> & _); assumption|apply IH; assumption].
  - apply ef_add; [lia|apply IH; assumption].
Qed.
Lemma edit_variant_trans : forall r r' a b c, r <= r' -> edit_variant r a b -> edit_variant r' b c -> edit_variant r a c.
Proof.
  intros r r' a b c Hr (A1 & A2 & A3 & A4 & A5 & A6) (B1 & B2 & B3 & B4 & B5 & B6). unfold edit_variant.
  rewrite B1, B2. repeat split; auto.
  - destruct A3 as [A3|A3]; [auto|]. rewrite <- A3. destruct B3 as [B3|B3]; auto.
  - intros x Hx. rewrite B4 by lia. apply A4, Hx.
  - eapply edit_end_trans; eauto.
  - eapply edit_fields_trans; eauto.
Qed.
Lemma edit_variants_trans : forall r r' a b c, r <= r' -> edit_variants r a b -> edit_variants r' b c -> edit_variants r a c.
Proof.
  intros r r' a b c Hr Hab Hbc. revert a Hab. induction Hbc as [|f f' fs fs' Hf Hfs IH|f' fs fs' Hf Hfs IH]; intros a Hab.
  - exact Hab.
  - inversion Hab; subst.
    + apply ev_keep; [eapply edit_variant_trans; eauto|apply IH; assumption].
    + apply ev_add; [destruct Hf as (_ & -> & _); assumption|apply IH; assumption].
  - apply ev_add; [lia|apply IH; assumption].
Qed.
Lemma edit_schema_trans : forall a b c, edit_schema a b -> edit_schema b c -> edit_schema a c.
Proof.
  intros a b c ((m & Hm) & Ha) ((m' & Hm') & Hb). split; [exists (m ++ m'); rewrite Hm', Hm, app_assoc; reflexivity|].
  assert (scur a <= scur b) by (unfold scur; rewrite Hm, len_app; lia).
  unfold edit_body in *. destruct (s_body a), (s_body b), (s_body c); try contradiction.
  - eapply edit_fields_trans; eauto.
  - eapply edit_variants_trans; eauto.
Qed.
Lemma edit_fields_refl : forall r fs, edit_fields r fs fs.
Proof. intros r. induction fs; constructor; auto. unfold edit_field, edit_end. repeat split; auto. Qed.
Lemma edit_schema_refl : forall s, edit_schema s s.
Proof.
  intros s. split; [exists []; rewrite app_nil_r; reflexivity|]. unfold edit_body. destruct (s_body s); [apply edit_fields_refl|].
  induction vs; constructor; auto. unfold edit_variant, edit_end. repeat split; auto. apply edit_fields_refl.
Qed.
Lemma edit_program_trans : forall a b c, edit_program a b -> edit_program b c -> edit_program a c.
Proof.
  intros a b c (A1 & A2 & A3 & A4) (B1 & B2 & B3 & B4). repeat split; try congruence.
  intros n s Hs. destruct (A4 n s Hs) as (s1 & H1 & H2). destruct (B4 n s1 H1) as (s2 & H3 & H4). exists s2. split; [assumption|].
  eapply edit_schema_trans; eauto.
Qed.
Lemma edit_program_star : forall E E', clos_refl_trans _ edit_program E E' -> edit_program E E'.
Proof.
  intros E E' H. induction H as [x y H|x|x y z _ H1 _ H2]; [exact H| |eapply edit_program_trans; eauto].
  repeat split; auto. intros n s Hs. exists s. split; [assumption|apply edit_schema_refl].
Qed.
Lemma edit_compatible : forall E E', wf_env E -> edit_program E E' ->
  (forall n s s' h, e_sch E n = Some s -> e_sch E' n = Some s' -> sent s (scur s) = Some h -> h_opt h = true -> opt_restricted (scur s) s') ->
  compatible E E'.
Proof.
  intros E E' W (H1 & H2 & H3 & H4) Ho. repeat split; auto. intros n s Hs. destruct (H4 n s Hs) as (s' & Hs' & He).
  exists s'. split; [assumption|]. apply edit_evolves; [eapply we_sch; eauto|assumption|]. intros h. apply (Ho n s s' h Hs Hs').
Qed.

(** What [mig_fields] computes, field by field. *)
Section MF.
Variables (E E' : env) (rec : N -> val -> res val) (se : ty -> val -> ser).
Notation mm := (mig_mode E E' rec se).
Lemma mig_fields_spec : forall opt r tgt fs vs this gone, mig_fields E E' rec se opt r tgt fs vs = Ok (this, gone) ->
  length this = length (filter (falive tgt) fs) /\ length gone = length (filter (removed r tgt) fs) /\
  forall i f, nth_error fs i = Some f ->
    if falive r f then exists v v', nth_error vs (slot (falive r) fs i) = Some v /\ mm (mode_of opt f) (f_ty f) v = Ok v' /\
      if falive tgt f then nth_error this (slot (falive tgt) fs i) = Some v'
      else nth_error gone (slot (removed r tgt) fs i) = Some (f, v')
    else falive tgt f = true -> exists v', f_default f r = Ok v' /\ nth_error this (slot (falive tgt) fs i) = Some v'.
Proof.
  intros opt r tgt. induction fs as [|f fs IH]; intros vs this gone H; cbn [mig_fields] in H.
  - destruct vs; [|discriminate]. injection H as <- <-. cbn [filter]. repeat split; try reflexivity. intros [|i] f Hf; discriminate.
  - cbn [filter]. destruct (falive r f) eqn:Ef.
    + destruct vs as [|v vs]; [discriminate|].
      destruct (mm (mode_of opt f) (f_ty f) v) as [v'| |] eqn:Ev; cbn [rbind] in H; try discriminate.
      destruct (mig_fields E E' rec se opt r tgt fs vs) as [[this0 gone0]| |] eqn:Em; cbn [rbind] in H; try discriminate.
      destruct (IH _ _ _ Em) as (I1 & I2 & I3). cbn [fst snd] in H. unfold removed at 1. rewrite Ef.
      destruct (falive tgt f) eqn:Et; cbn [andb negb]; injection H as <- <-; cbn [length];
        (split; [lia|split; [lia|]]); intros [|i] g Hg; cbn [nth_error] in Hg.
      * injection Hg as <-. rewrite Ef, Et. exists v, v'. split; [reflexivity|]. split; [exact Ev|reflexivity].
      * specialize (I3 i g Hg). unfold slot in *. cbn [firstn filter]. unfold removed at 1. rewrite Ef, Et. cbn [andb negb length nth_error]. exact I3.
      * injection Hg as <-. rewrite Ef, Et. exists v, v'. split; [reflexivity|]. split; [exact Ev|reflexivity].
      * specialize (I3 i g Hg). unfold slot in *. cbn [firstn filter]. unfold removed at 1. rewrite Ef, Et. cbn [andb negb length nth_error]. exact I3.
    + unfold removed at 1. rewrite Ef. cbn [andb]. destruct (falive tgt f) eqn:Et.
      * destruct (f_default f r) as [v'| |] eqn:Ed; cbn [rbind] in H; try discriminate.
        destruct (mig_fields E E' rec se opt r tgt fs vs) as [[this0 gone0]| |] eqn:Em; cbn [rbind] in H; try discriminate.
        destruct (IH _ _ _ Em) as (I1 & I2 & I3). cbn [fst snd] in H. injection H as <- <-. cbn [length].
        split; [lia|split; [lia|]]. intros [|i] g Hg; cbn [nth_error] in Hg.
        -- injection Hg as <-. rewrite Ef, Et. intros _. exists v'. split; [exact Ed|reflexivity].
        -- specialize (I3 i g Hg). unfold slot in *. cbn [firstn filter]. unfold removed at 1. rewrite Ef, Et. cbn [andb negb length nth_error]. exact I3.
      * destruct (IH _ _ _ H) as (I1 & I2 & I3). split; [lia|split; [lia|]]. intros [|i] g Hg; cbn [nth_error] in Hg.
        -- injection Hg as <-. rewrite Ef, Et. discriminate.
        -- specialize (I3 i g Hg). unfold slot in *. cbn [firstn filter]. unfold removed at 1. rewrite Ef, Et. cbn [andb negb length nth_error]. exact I3.
Qed.
End MF.
