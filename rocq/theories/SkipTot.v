(** Which panics skipping can end in, and how deep it recurses.  Proofs. *)

From Verif Require Import Base BaseL Prog ProgL Prim PrimL Utf8 Tag Ty Ser De Typed Mig Parts DiscL RtL Agree Total SliceReader Skip SkipL.
From Coq Require Import List NArith ZArith Bool Lia.
Import ListNotations.
Open Scope N_scope.

Section SafeSkip.
Variable P : pan -> Prop.
Variable k : nat.
Notation safe := (safe P k).
Notation any := (fun _ => True).

Lemma safe_rep_ : forall A (R : A -> Prop) n p, safe R p -> safe any (rep_ n p).
Proof.
  induction n as [|n IH]; intros p H; cbn [rep_]; [apply safe_ret; exact I|].
  eapply safe_bind; [exact H|]. intros a _. apply IH. exact H.
Qed.
Lemma safe_adv_loop : forall f n, safe any (adv_loop f n).
Proof.
  induction f as [|f IH]; intros n; cbn [adv_loop]; [apply safe_ret; exact I|].
  destruct (n =? 0); [apply safe_ret; exact I|]. cbv zeta. eapply safe_bind; [apply safe_read_n|]. intros x _. apply IH.
Qed.
Lemma safe_advance_read : forall n, safe any (advance_read n).
Proof. intros n. apply safe_adv_loop. Qed.
Lemma safe_drop : forall A (R : A -> Prop) p, safe R p -> safe any (p ;;; Ret tt).
Proof. intros A R p H. eapply safe_bind; [exact H|]. intros; apply safe_ret; exact I. Qed.
Lemma safe_varlen : safe any read_varlen_len.
Proof. unfold read_varlen_len. eapply safe_bind; [apply safe_read_n|]. intros; apply safe_ret; exact I. Qed.

Variable E : env.
Lemma safe_sk_blob : safe any (sk_blob E).
Proof. unfold sk_blob. eapply safe_bind; [apply safe_len|]. intros; apply safe_advance_read. Qed.
Lemma safe_sk_bulk : forall b, safe any (sk_bulk E b).
Proof.
  intros b. unfold sk_bulk. eapply safe_bind; [apply safe_len|]. intros n _.
  destruct b as [|s [|[|w]]|dec];
    repeat match goal with |- Total.safe _ _ _ (if ?c then _ else _) => destruct c end; first [apply safe_advance_read|apply safe_fail].
Qed.
Lemma safe_sk_seq : forall p, safe any p -> safe any (sk_seq E p).
Proof. intros p H. unfold sk_seq. eapply safe_bind; [apply safe_len|]. intros n _. eapply safe_rep_. exact H. Qed.

Variable rec : N -> prog unit.
Variable drec : N -> prog val.
Variable ok : ty -> bool.
Hypothesis Hok : forall t, ok t = true -> declared E t = true.
Hypothesis Hrec : forall n, e_sch E n <> None -> safe any (rec n).
(** The types skipped by deserialising them. *)
Hypothesis Hmir : forall t, ty_all ok t = true ->
  match t with TPath | TDuration | TExt _ true _ => True | _ => False end -> safe any (de_ty E drec t).

Lemma safe_sk_ty : forall t, ty_all ok t = true -> safe any (sk_ty E rec drec t).
Proof.
  pose proof (safe_u32 P k E) as H32.
  assert (DI : forall i, safe any (de_ty E drec (TInt i))).
  { intros i. cbn [de_ty]. eapply safe_bind; [apply safe_int|]. intros; apply safe_ret; exact I. }
  induction t; intros G; pose proof G as G0; cbn [ty_all] in G; apply andb_prop in G; destruct G as [Gk G];
    try (apply andb_prop in G; destruct G as [G1 G2]; specialize (IHt1 G1); specialize (IHt2 G2));
    try specialize (IHt G); cbn [sk_ty].
  - eapply safe_drop. cbn [de_ty]. eapply safe_bind; [apply safe_read_byte|]. intros b _.
    repeat match goal with |- Total.safe _ _ _ (if ?c then _ else _) => destruct c end;
      first [apply (safe_ret P k _ any); exact I|apply safe_fail].
  - eapply safe_drop, DI.
  - eapply safe_drop. cbn [de_ty]. eapply safe_bind; [apply safe_read_n|]. intros; apply (safe_ret P k _ any); exact I.
  - eapply safe_drop. cbn [de_ty]. eapply safe_bind; [apply safe_read_n|]. intros; apply (safe_ret P k _ any); exact I.
  - eapply safe_drop. cbn [de_ty]. eapply safe_bind; [apply safe_char|]. intros; apply (safe_ret P k _ any); exact I.
  - apply safe_sk_blob.
  - eapply safe_drop, Hmir; [exact G0|exact I].
  - apply safe_sk_blob.
  - apply safe_advance_read.
  - apply safe_advance_read.
  - apply safe_ret; exact I.
  - eapply safe_bind; [exact IHt1|]. intros _ _. exact IHt2.
  - destruct (if e_spec E then bulk_of t else None); [apply safe_sk_bulk|apply safe_sk_seq; exact IHt].
  - apply safe_sk_seq; exact IHt.
  - eapply safe_rep_; exact IHt.
  - eapply safe_bind; [apply safe_read_byte|]. intros b _. destruct (b =? 0); [apply safe_ret; exact I|]. destruct (b =? 1); [exact IHt|apply safe_fail].
  - eapply safe_bind; [exact H32|]. intros b _. destruct (b =? 0); [exact IHt1|]. destruct (b =? 1); [exact IHt2|apply safe_fail].
  - eapply safe_bind; [exact H32|]. intros b _. destruct (b =? 0); [apply safe_ret; exact I|]. destruct (b =? 1); [exact IHt|].
    destruct (b =? 2); [exact IHt|apply safe_fail].
  - apply safe_sk_seq. eapply safe_bind; [exact IHt1|]. intros _ _. exact IHt2.
  - apply safe_sk_seq; exact IHt.
  - apply safe_sk_seq; exact IHt.
  - exact IHt.
  - eapply safe_drop, Hmir; [exact G0|exact I].
  - eapply safe_bind; [apply (DI U64)|]. intros _ _. eapply safe_drop, (DI U32).
  - destruct mirror; [|exact IHt]. eapply safe_drop, Hmir; [exact G0|exact I].
  - apply Hrec. apply Hok in Gk. cbn in Gk. destruct (e_sch E n); [discriminate|discriminate Gk].
Qed.

Lemma safe_sk_fields : forall cur fs,
  (forall f, In f fs -> falive cur f = true -> field_ok f = true /\ (f_fixed f = true \/ ty_all ok (f_ty f) = true)) ->
  safe any (sk_fields E rec drec cur fs).
Proof.
  intros cur. induction fs as [|f fs IH]; intros H; cbn [sk_fields]; [apply safe_ret; exact I|].
  assert (IH' := IH (fun g Hg => H g (or_intror Hg))). destruct (falive cur f) eqn:Ef; [|exact IH'].
  destruct (H f (or_introl eq_refl) Ef) as [Ho Ht]. eapply safe_bind; [|intros; exact IH'].
  destruct (f_fixed f) eqn:Ff.
  - unfold field_ok, mode_legacy in Ho. rewrite Ff in Ho. apply andb_prop in Ho. destruct Ho as [Ho _]. cbn [mode_ok] in Ho.
    unfold sk_fixed. assert (Ho' : match fixed_of (f_ty f) with Some _ => true | None => false end = true) by (destruct (f_ty f); exact Ho).
    destruct (fixed_of (f_ty f)) as [[s w]|]; [|discriminate]. eapply safe_drop, safe_read_n.
  - destruct Ht as [Ht|Ht]; [discriminate|]. apply safe_sk_ty. exact Ht.
Qed.

Variable s : schema.
Hypothesis Hwf : wf_schema s.
Hypothesis Hfs : forall r h f, sent s r = Some h -> h_opt h = false -> In f (body_fields (s_body s)) -> falive r f = true ->
  f_fixed f = true \/ ty_all ok (f_ty f) = true.

Lemma safe_sk_body : forall r, safe any (sk_body E rec drec s r).
Proof.
  intros r. unfold sk_body. destruct (sent s r) as [h|] eqn:Eh; [|apply safe_fail].
  specialize (Hfs r h). destruct Hwf as (_ & _ & Hb).
  destruct (s_body s) as [fs|vs].
  - destruct (h_opt h) eqn:Eo.
    + unfold sk_struct_opt. eapply safe_bind; [apply safe_varlen|]. intros; apply safe_advance_read.
    + apply safe_sk_fields. intros f Hf Ha. rewrite forallb_forall in Hb. split; [auto|]. apply Hfs; auto.
  - destruct Hb as (_ & Hf & Hr). destruct (Hr _ _ Eh) as (ds & Hds & _ & _). destruct (h_opt h) eqn:Eo.
    + unfold sk_enum_opt. rewrite Hds. eapply safe_bind; [apply safe_read_byte|]. intros t _. eapply safe_bind.
      * apply (safe_of_res P k _ any); [auto|]. intros x Hx. unfold size_class in Hx. destruct (from_bits _); discriminate.
      * intros c _. destruct c; [apply safe_ret; exact I| |].
        -- destruct (size_table_some ds t) as [n ->]. apply safe_advance_read.
        -- eapply safe_bind; [apply safe_varlen|]. intros; apply safe_advance_read.
    + unfold sk_enum_legacy. rewrite Hds. eapply safe_bind; [apply safe_u32|]. intros d _.
      destruct (find_disc d ds) as [[vr d']|] eqn:Ef; [|apply safe_fail]. apply find_some in Ef. destruct Ef as [Ef _].
      assert (Hv : In vr vs).
      { assert (Hm : In (fst (vr, d')) (map fst ds)) by (apply in_map; exact Ef). rewrite (calc_disc_fst _ _ _ Hds) in Hm.
        apply filter_In in Hm. apply Hm. }
      apply safe_sk_fields. intros f Hi Ha. rewrite Forall_forall in Hf. specialize (Hf vr Hv). rewrite forallb_forall in Hf.
      split; [auto|]. apply Hfs; auto. cbn [body_fields]. apply in_flat_map. eauto.
Qed.
End SafeSkip.

Section SkipTotal.
Variables (E : env) (P : pan -> Prop) (ok : ty -> bool).
Hypothesis W : wf_env E.
Hypothesis Hok : forall t, ok t = true -> declared E t = true.
Hypothesis Hfs : forall n s r h f, e_sch E n = Some s -> sent s r = Some h -> h_opt h = false ->
  In f (body_fields (s_body s)) -> falive r f = true -> f_fixed f = true \/ ty_all ok (f_ty f) = true.
Hypothesis Hmir : forall d t, ty_all ok t = true ->
  match t with TPath | TDuration | TExt _ true _ => True | _ => False end -> safe P d (fun _ => True) (de_ty E (de_ref E d) t).

Lemma safe_sk_ref : forall d n, e_sch E n <> None -> safe P d (fun _ => True) (sk_ref E d n).
Proof.
  induction d as [|d IH]; intros n Hn bs Hb; [lia|]. cbn [sk_ref].
  destruct (e_sch E n) as [s|] eqn:Es; [|congruence].
  unfold sk_derived. rewrite run_bind.
  assert (H16 := safe_u16 P (S d) E bs Hb).
  destruct (run (de_u16 (e_fw E)) bs) as [[r y]|e|x] eqn:Er; [|exact I|exact H16].
  apply u16_consumes in Er. assert (Hy : (length y < d)%nat) by lia.
  exact (safe_sk_body P d E (sk_ref E d) (de_ref E d) ok Hok IH (Hmir d) s (we_sch _ W _ _ Es) (fun r h f => Hfs n s r h f Es) r y Hy).
Qed.
Lemma skip_panics : forall d t bs x, ty_all ok t = true -> (length bs < d)%nat -> run (skip E d t) bs = Panic x -> P x.
Proof.
  intros d t bs x Ht Hb H.
  assert (S := safe_sk_ty P d E (sk_ref E d) (de_ref E d) ok Hok (safe_sk_ref d) (Hmir d) t Ht bs Hb).
  unfold skip in H. rewrite H in S. exact S.
Qed.
End SkipTotal.

(** ** Call depth: with a smaller stack, the outcome is the same or the stack is exhausted *)

Lemma agree_sk_ty : forall E (rec rec' : N -> prog unit) drec drec' t,
  (forall n, agree (eq PStack) (rec n) (rec' n)) -> (forall n, agree (eq PStack) (drec n) (drec' n)) ->
  agree (eq PStack) (sk_ty E rec drec t) (sk_ty E rec' drec' t).
Proof.
  intros E rec rec' drec drec' t Hr Hd.
  assert (D : forall t, agree (eq PStack) (de_ty E drec t) (de_ty E drec' t)).
  { intros u. pose proof (agree_ty (eq PStack) E (e_mem E) (e_dbg E)) as H. rewrite set_lim_same in H. apply H; [intros; apply agree_refl|exact Hd]. }
  assert (DD : forall t, agree (eq PStack) (de_ty E drec t ;;; Ret tt) (de_ty E drec' t ;;; Ret tt)).
  { intros u. apply agree_bind; [apply D|intros; apply agree_refl]. }
  assert (Q : forall p q, agree (eq PStack) p q -> agree (eq PStack) (sk_seq E p) (sk_seq E q)).
  { intros p q H. apply agree_bind; [apply agree_refl|]. intros n. apply agree_rep_. exact H. }
  induction t; cbn [sk_ty]; try apply DD; try apply agree_refl; try (apply Q; assumption); try assumption.
  - apply agree_bind; auto.
  - destruct (if e_spec E then bulk_of t else None); [apply agree_refl|apply Q; assumption].
  - apply agree_rep_. assumption.
  - apply agree_bind; [apply agree_refl|]. intros b. destruct (b =? 0); [apply agree_refl|]. destruct (b =? 1); [assumption|apply agree_refl].
  - apply agree_bind; [apply agree_refl|]. intros b. destruct (b =? 0); [assumption|]. destruct (b =? 1); [assumption|apply agree_refl].
  - apply agree_bind; [apply agree_refl|]. intros b. destruct (b =? 0); [apply agree_refl|]. destruct (b =? 1); [assumption|].
    destruct (b =? 2); [assumption|apply agree_refl].
  - apply Q, agree_bind; auto.
  - destruct mirror; [apply DD|assumption].
  - apply Hr.
Qed.
Lemma agree_sk_fields : forall E (rec rec' : N -> prog unit) drec drec' cur fs,
  (forall n, agree (eq PStack) (rec n) (rec' n)) -> (forall n, agree (eq PStack) (drec n) (drec' n)) ->
  agree (eq PStack) (sk_fields E rec drec cur fs) (sk_fields E rec' drec' cur fs).
Proof.
  intros E rec rec' drec drec' cur fs Hr Hd. induction fs as [|f fs IH]; cbn [sk_fields]; [apply agree_refl|].
  destruct (falive cur f); [|exact IH]. apply agree_bind; [|intros; exact IH].
  destruct (f_fixed f); [apply agree_refl|]. apply agree_sk_ty; assumption.
Qed.
Lemma sk_ref_depth : forall E k d n, agree (eq PStack) (sk_ref E d n) (sk_ref E (d + k) n).
Proof.
  intros E k. induction d as [|d IH]; intros n; cbn [sk_ref Nat.add].
  - intros bs. right. exists PStack. auto.
  - destruct (e_sch E n) as [s|]; [|apply agree_refl]. apply agree_bind; [apply agree_refl|]. intros r. unfold sk_body.
    destruct (sent s r) as [h|]; [|apply agree_refl]. pose proof (ref_depth E k d) as D.
    destruct (s_body s) as [fs|vs]; destruct (h_opt h); try apply agree_refl; [apply agree_sk_fields; assumption|].
    unfold sk_enum_legacy. destruct (calc_disc r vs) as [ds|]; [|apply agree_refl]. apply agree_bind; [apply agree_refl|]. intros x.
    destruct (find_disc x ds) as [[vr ?]|]; [apply agree_sk_fields; assumption|apply agree_refl].
Qed.
Lemma skip_depth : forall E d d' t, (d <= d')%nat -> agree (eq PStack) (skip E d t) (skip E d' t).
Proof.
  intros E d d' t Hd. replace d' with (d + (d' - d))%nat by lia. apply agree_sk_ty; intros n; [apply sk_ref_depth|apply ref_depth].
Qed.
