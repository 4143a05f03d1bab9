(** Lemmas on [every].  Proofs. *)

From Verif Require Import Base BaseL Prog Prim Ty Ser Typed Parts DiscL.
From Coq Require Import List NArith ZArith Bool Lia.
Import ListNotations.
Open Scope N_scope.

Section P.
Variables (E : env) (ok : ty -> bool) (T : ty -> val -> Prop).
Hypothesis HT : forall t v, ok t = true -> T t v.
Hypothesis W : wf_env E.

Section Rec.
Variables (recW recT : N -> val -> Prop).
Hypothesis Hrec : forall n v, recW n v -> recT n v.
Lemma every_types_ty : forall t v, ty_all ok t = true -> wt_ty E recW t v -> every_ty T recT t v.
Proof.
  induction t; intros v G Hw; cbn [ty_all] in G; apply andb_prop in G; destruct G as [G0 G]; try (apply andb_prop in G; destruct G as [G1 G2]);
    cbn [every_ty]; (split; [apply HT, G0|]); cbn [wt_ty] in Hw; try (destruct v; try contradiction); auto.
  - destruct Hw; auto.
  - destruct Hw as (_ & _ & Hl). eapply Forall_impl; [|exact Hl]. auto.
  - destruct Hw as (_ & Hl). eapply Forall_impl; [|exact Hl]. auto.
  - destruct Hw as (_ & Hl). eapply Forall_impl; [|exact Hl]. auto.
  - destruct k as [|[p|p|]]; try contradiction; destruct l as [|x [|y l]]; try contradiction; auto.
  - destruct k as [|[p|p|]]; try contradiction; destruct l as [|x [|y l]]; try contradiction; constructor; cbn; auto.
  - destruct k as [|[p|[p|p|]|]]; try contradiction; destruct l as [|x [|y l]]; try contradiction; auto.
  - destruct Hw as (_ & Hl & _). eapply Forall_impl; [|exact Hl]. intros [] H; try contradiction. destruct H; auto.
  - destruct Hw as (_ & Hl & _). eapply Forall_impl; [|exact Hl]. auto.
  - destruct Hw as (_ & Hl & _). eapply Forall_impl; [|exact Hl]. auto.
  - destruct Hw; auto.
  - destruct Hw; auto.
  - destruct Hw; auto.
  - destruct Hw; auto.
  - destruct Hw; auto.
  - destruct Hw; auto.
  - destruct Hw; auto.
Qed.
Lemma every_types_fields : forall r fs l, forallb (fun f => ty_all ok (f_ty f)) fs = true -> wt_fields E recW r fs l -> every_fields T recT r fs l.
Proof.
  intros r. unfold wt_fields, every_fields. induction fs as [|f fs IH]; intros l G Hw; cbn [filter forallb] in *.
  - inversion Hw. constructor.
  - apply andb_prop in G. destruct G as [G0 G]. destruct (falive r f); [|auto]. inversion Hw; subst. constructor; [apply every_types_ty; assumption|auto].
Qed.
End Rec.
Hypothesis Hall : env_all (fun f => ty_all ok (f_ty f)) E.
Lemma every_types_ref : forall d n v, wt_ref E d n v -> every_ref E T d n v.
Proof.
  induction d as [|d IH]; intros n v Hw; cbn [wt_ref every_ref] in *; [exact I|].
  destruct (e_sch E n) as [s|] eqn:Es; [|exact I]. specialize (Hall n s Es). unfold fields_all in Hall.
  destruct (we_sch _ W _ _ Es) as (_ & _ & Hb). unfold wt_derived, every_derived in *.
  destruct (s_body s) as [fs|vs]; destruct v; try contradiction.
  - eapply every_types_fields; eauto.
  - destruct Hb as (Hn & _ & _). destruct Hw as (vr & Hin & Hk & _ & Hw). intros vr' Hin' Hk'.
    assert (vr' = vr) by (eapply (NoDup_map_inj _ _ v_name); eauto; congruence). subst vr'.
    rewrite forallb_forall in Hall. eapply every_types_fields; eauto.
Qed.
Lemma every_types_in : forall d t v, ty_all ok t = true -> wt E d t v -> every E T d t v.
Proof. intros d t v Ht Hw. apply (every_types_ty (wt_ref E d)); [apply every_types_ref|exact Ht|exact Hw]. Qed.
End P.

Lemma every_types : forall E ok (T : ty -> val -> Prop) d t v,
  (forall t v, ok t = true -> T t v) -> wf_env E -> ty_all ok t = true ->
  env_all (fun f => ty_all ok (f_ty f)) E -> wt E d t v -> every E T d t v.
Proof. intros. eapply every_types_in; eauto. Qed.

Lemma ty_all_true : forall t, ty_all (fun _ => true) t = true.
Proof. induction t; cbn; auto; rewrite ?IHt1, ?IHt2; auto. Qed.
Lemma every_true : forall E (T : ty -> val -> Prop) d t v,
  (forall t v, T t v) -> wf_env E -> wt E d t v -> every E T d t v.
Proof.
  intros E T d t v HT W Hw. apply (every_types E (fun _ => true)); auto using ty_all_true.
  intros n s _. unfold fields_all. destruct (s_body s) as [fs|vs]; apply forallb_forall; intros f _; [apply ty_all_true|].
  apply forallb_forall. intros g _. apply ty_all_true.
Qed.
