(** Reading newer data with an older program.  Proofs. *)

From Verif Require Import Base BaseL Prog ProgL Prim PrimL Utf8 Utf8L Tag Ty Ser De Typed Mig Parts PartsL Evol SortL DiscL RtL RtTy RtDer RtSch RtId Agree Cross EvolL Spec.
From Coq Require Import List NArith ZArith Bool Lia ZifyBool Permutation Sorted.
Import ListNotations.
Open Scope N_scope.

(** ** Two declarations of the same revision *)
Lemma wire_wt : forall E recW r fs fs' vs, map f_ty (filter (falive r) fs) = map f_ty (filter (falive r) fs') ->
  wt_fields E recW r fs vs -> wt_fields E recW r fs' vs.
Proof.
  intros E recW r fs fs' vs H. unfold wt_fields. revert H. generalize (filter (falive r) fs) (filter (falive r) fs'). clear.
  intros l l' H Hf. revert l' H. induction Hf as [|f v l vs Hv Hf IH]; intros [|f' l'] H; try discriminate; constructor.
  - injection H as H _. rewrite <- H. exact Hv.
  - injection H as _ H. auto.
Qed.
Lemma wire_tys : forall opt r fs fs', wire_fields opt r fs = wire_fields opt r fs' ->
  map f_ty (filter (falive r) fs) = map f_ty (filter (falive r) fs').
Proof.
  intros opt r fs fs' H. apply (f_equal (map fst)) in H. unfold wire_fields in H. rewrite !map_map in H. exact H.
Qed.
Lemma plain_tys : forall r fs fs',
  map (fun f => (f_ty f, MPlain)) (filter (falive r) fs) = map (fun f => (f_ty f, MPlain)) (filter (falive r) fs') ->
  map f_ty (filter (falive r) fs) = map f_ty (filter (falive r) fs').
Proof. intros r fs fs' H. apply (f_equal (map fst)) in H. rewrite !map_map in H. exact H. Qed.
Lemma variant_tys : forall opt r v d v' d', wire_variant opt r (v, d) = wire_variant opt r (v', d') ->
  map f_ty (filter (falive r) (v_fields v)) = map f_ty (filter (falive r) (v_fields v')).
Proof.
  intros opt r v d v' d' H. unfold wire_variant in H. cbn [fst snd] in H. injection H as _ _ _ H.
  destruct opt; [apply plain_tys|eapply wire_tys]; eassumption.
Qed.

Lemma same_wire_sym : forall opt r b b', same_wire opt r b b' -> same_wire opt r b' b.
Proof.
  intros opt r [fs|vs] [fs'|vs'] H; cbn in *; try contradiction; [auto|].
  destruct H as (ds & ds' & H1 & H2 & H3). exists ds', ds. auto.
Qed.

(** The variant of the same name. *)
Lemma variant_match : forall opt r vs vs' ds ds' vr d,
  calc_disc r vs = Some ds -> calc_disc r vs' = Some ds' -> map (wire_variant opt r) ds = map (wire_variant opt r) ds' ->
  In (vr, d) ds -> exists vr', In (vr', d) ds' /\ In vr' vs' /\ valive r vr' = true /\ v_name vr' = v_name vr
    /\ wire_variant opt r (vr, d) = wire_variant opt r (vr', d).
Proof.
  intros opt r vs vs' ds ds' vr d H1 H2 H3 Hin.
  assert (Hi : In (wire_variant opt r (vr, d)) (map (wire_variant opt r) ds')) by (rewrite <- H3; apply in_map; assumption).
  apply in_map_iff in Hi. destruct Hi as ([vr' d'] & Hi1 & Hi2).
  assert (H : d' = d /\ v_name vr' = v_name vr) by (unfold wire_variant in Hi1; cbn [fst snd] in Hi1; inversion Hi1; auto).
  destruct H as [-> Hn]. exists vr'.
  assert (Hm : In vr' (map fst ds')) by (apply in_map_iff; exists (vr', d); auto).
  rewrite (calc_disc_fst _ _ _ H2) in Hm. apply filter_In in Hm. destruct Hm. auto.
Qed.
Lemma disc_in : forall r vs ds vr, calc_disc r vs = Some ds -> In vr vs -> valive r vr = true -> exists d, In (vr, d) ds.
Proof.
  intros r vs ds vr H Hi Ha.
  assert (Hm : In vr (map fst ds)) by (rewrite (calc_disc_fst _ _ _ H); apply filter_In; auto).
  apply in_map_iff in Hm. destruct Hm as ([x d] & <- & Hx). eauto.
Qed.

Lemma same_wt : forall E recW opt s s' v, scur s' = scur s -> same_wire opt (scur s) (s_body s) (s_body s') ->
  wt_derived E recW s v -> wt_derived E recW s' v.
Proof.
  intros E recW opt s s' v Hc Hw H. unfold wt_derived in *. rewrite Hc. unfold same_wire in Hw.
  destruct (s_body s) as [fs|vs], (s_body s') as [fs'|vs']; try contradiction; destruct v; try contradiction.
  - eapply wire_wt; [|exact H]. eapply wire_tys; eauto.
  - destruct H as (vr & Hi & Hk & Ha & Hf). destruct Hw as (ds & ds' & H1 & H2 & H3).
    destruct (disc_in _ _ _ _ H1 Hi Ha) as (d & Hd).
    destruct (variant_match _ _ _ _ _ _ _ _ H1 H2 H3 Hd) as (vr' & _ & V2 & V3 & V4 & V5).
    exists vr'. split; [assumption|]. split; [congruence|]. split; [assumption|].
    eapply wire_wt; [|exact Hf]. eapply variant_tys; eauto.
Qed.

Lemma find_name_uniq : forall r vs ds vr d, NoDup (map v_name vs) -> calc_disc r vs = Some ds -> In (vr, d) ds ->
  find_name (v_name vr) ds = Some (vr, d).
Proof.
  intros r vs ds vr d Hn H Hi. unfold find_name. apply find_some_uniq; [assumption|apply N.eqb_refl|].
  intros [vr' d'] Hi' Hk. cbn [fst] in Hk. apply N.eqb_eq in Hk.
  assert (M : forall x y, In (x, y) ds -> In x vs).
  { intros x y Hx. assert (Hm : In x (map fst ds)) by (apply in_map_iff; exists (x, y); auto).
    rewrite (calc_disc_fst _ _ _ H) in Hm. apply filter_In in Hm. tauto. }
  assert (vr' = vr) by (eapply NoDup_map_inj; [exact Hn|eauto|eauto|congruence]). subst vr'.
  f_equal. assert (ND := calc_disc_nodup _ _ _ H). clear - Hn H Hi Hi' M ND.
  assert (Hf : NoDup (map fst ds)).
  { rewrite (calc_disc_fst _ _ _ H). apply NoDup_filter. clear - Hn. induction vs; cbn in *; [constructor|].
    inversion Hn; subst. constructor; auto. intros Hc. apply H1. apply in_map, Hc. }
  clear - Hf Hi Hi'. induction ds as [|[a b] ds IH]; [destruct Hi|]. cbn [map fst] in Hf. inversion Hf; subst.
  destruct Hi as [Hi|Hi], Hi' as [Hi'|Hi'].
  - congruence.
  - injection Hi as -> ->. exfalso. apply H1. apply in_map_iff. exists (vr, d'). auto.
  - injection Hi' as -> ->. exfalso. apply H1. apply in_map_iff. exists (vr, d). auto.
  - auto.
Qed.

(** Two declarations of the same revision have the same encoder. *)
Lemma same_ser : forall E recS recW h s s' v, wf_schema s -> wf_schema s' -> scur s' = scur s ->
  sent s (scur s) = Some h -> sent s' (scur s) = Some h -> same_wire (h_opt h) (scur s) (s_body s) (s_body s') ->
  wt_derived E recW s v -> ser_derived E recS s' v = ser_derived E recS s v.
Proof.
  intros E recS recW h s s' v (_ & _ & Hb) (_ & _ & Hb') Hc Hh Hh' Hw H. unfold ser_derived. rewrite Hc, Hh, Hh'. f_equal.
  unfold same_wire in Hw. unfold wt_derived in H.
  destruct (s_body s) as [fs|vs], (s_body s') as [fs'|vs']; try contradiction; destruct v; try contradiction.
  - cbn [ser_struct]. unfold ser_struct_opt. rewrite !ser_fields_wire. destruct (h_opt h); rewrite Hw; reflexivity.
  - destruct H as (vr & Hi & <- & Ha & Hf). destruct Hw as (ds & ds' & H1 & H2 & H3).
    destruct (disc_in _ _ _ _ H1 Hi Ha) as (d & Hd).
    destruct (variant_match _ _ _ _ _ _ _ _ H1 H2 H3 Hd) as (vr' & V1 & V2 & V3 & V4 & V5).
    destruct Hb as (Hn & _). destruct Hb' as (Hn' & _).
    cbn [ser_enum]. rewrite H1, H2. rewrite (find_name_uniq _ _ _ _ _ Hn H1 Hd). rewrite <- V4.
    rewrite (find_name_uniq _ _ _ _ _ Hn' H2 V1). unfold wire_variant in V5. cbn [fst snd] in V5.
    destruct (h_opt h).
    + unfold ser_variant_opt. rewrite !ser_vfields_wire. injection V5 as _ Hsz Hfs. rewrite Hsz, Hfs. reflexivity.
    + rewrite !ser_fields_wire. injection V5 as _ Hfs. rewrite Hfs. reflexivity.
Qed.

(** ** Refining the types of the parts *)
Section Refine.
Variables (E : env) (T : ty -> val -> Prop) (P R P' : N -> val -> Prop).
Hypothesis HP : forall n v, P n v -> T (TRef n) v -> R n v -> P' n v.
Lemma wt_refine : forall t v, wt_ty E P t v -> every_ty T R t v -> wt_ty E P' t v.
Proof.
  assert (L : forall (A B C : val -> Prop) l, (forall v, A v -> B v -> C v) -> Forall A l -> Forall B l -> Forall C l).
  { intros A B C l H HA HB. rewrite Forall_forall in *. auto. }
  induction t as [|i| | | | | | | | | |a IHa b IHb|t IH|t IH|n t IH|t IH|a IHa b IHb|t IH|k a IHa b IHb|k t IH|t IH|t IH| | |c m t IH|n];
    intros v Hw [H0 He].
  1-11: exact Hw.
  - destruct v; cbn [wt_ty] in *; try contradiction. destruct He. destruct Hw. auto.
  - destruct v; cbn [wt_ty] in *; try contradiction. destruct Hw as (W1 & W2 & W3). repeat split; auto. eapply L; eauto.
  - destruct v; cbn [wt_ty] in *; try contradiction. destruct Hw as (W1 & W3). repeat split; auto. eapply L; eauto.
  - destruct v; cbn [wt_ty] in *; try contradiction. destruct Hw as (W1 & W3). repeat split; auto. eapply L; eauto.
  - destruct v as [| | | | | |k l]; cbn [wt_ty] in *; try contradiction.
    destruct k as [|[p|p|]]; try contradiction; destruct l as [|x [|y l]]; try contradiction; auto. inversion He; auto.
  - destruct v as [| | | | | |k l]; cbn [wt_ty] in *; try contradiction.
    destruct k as [|[p|p|]]; try contradiction; destruct l as [|x [|y l]]; try contradiction; auto; inversion He; auto.
  - destruct v as [| | | | | |k l]; cbn [wt_ty] in *; try contradiction.
    destruct k as [|[p|[p|p|]|]]; try contradiction; destruct l as [|x [|y l]]; try contradiction; auto; inversion He; auto.
  - destruct v; cbn [wt_ty] in *; try contradiction. destruct Hw as (W1 & W2 & W3). repeat split; auto.
    eapply L; [|exact W2|exact He]. intros p A B. destruct p; try contradiction. destruct A, B. auto.
  - destruct v; cbn [wt_ty] in *; try contradiction. destruct Hw as (W1 & W2 & W3). repeat split; auto. eapply L; eauto.
  - destruct v; cbn [wt_ty] in *; try contradiction. destruct Hw as (W1 & W2 & W3). repeat split; auto. eapply L; eauto.
  - assert (A : wt_ty E P t v) by (destruct v; exact Hw). assert (B : every_ty T R t v) by (destruct v; exact He).
    specialize (IH v A B). destruct v; exact IH.
  - exact Hw.
  - exact Hw.
  - assert (A : wt_ty E P t v /\ e_ext E c v = Some v) by (destruct v; exact Hw). assert (B : every_ty T R t v) by (destruct v; exact He).
    destruct A as [A1 A2]. specialize (IH v A1 B). destruct v; exact (conj IH A2).
  - assert (A : P n v) by (destruct v; exact Hw). assert (B : R n v) by (destruct v; exact He).
    specialize (HP n v A H0 B). destruct v; exact HP.
Qed.
Lemma wt_refine_fields : forall r fs l, wt_fields E P r fs l -> every_fields T R r fs l -> wt_fields E P' r fs l.
Proof.
  intros r fs l. unfold wt_fields, every_fields. generalize (filter (falive r) fs). clear fs. intros fs H.
  induction H; intros He; inversion He; subst; constructor; auto. apply wt_refine; auto.
Qed.
Lemma wt_refine_derived : forall s v, wt_derived E P s v -> every_derived T R s v -> wt_derived E P' s v.
Proof.
  intros s v Hw He. unfold wt_derived, every_derived in *. destruct (s_body s); destruct v; try contradiction.
  - apply wt_refine_fields; auto.
  - destruct Hw as (vr & H1 & H2 & H3 & H4). exists vr. repeat split; auto. apply wt_refine_fields; auto.
Qed.
End Refine.

Section RefineAll.
Variables (E : env) (ok : ty -> bool) (P P' : N -> val -> Prop).
Hypothesis HP : forall n v, P n v -> ok (TRef n) = true -> P' n v.
Let T (t : ty) (v : val) : Prop := ok t = true.
Lemma wt_all : forall t v, ty_all ok t = true -> wt_ty E P t v -> wt_ty E P' t v.
Proof.
  intros t v Ht Hw. apply (wt_refine E T P (fun _ _ => True) P'); [auto|exact Hw|].
  apply (every_types_ty E ok T (fun _ _ H => H) P); auto.
Qed.
Lemma wt_all_fields : forall r fs l, forallb (fun f => ty_all ok (f_ty f)) fs = true -> wt_fields E P r fs l -> wt_fields E P' r fs l.
Proof.
  intros r. unfold wt_fields. induction fs as [|f fs IH]; intros l G Hw; cbn [filter forallb] in *; [inversion Hw; constructor|].
  apply andb_prop in G. destruct G as [G0 G]. destruct (falive r f); [|auto]. inversion Hw; subst. constructor; [apply wt_all; assumption|auto].
Qed.
Lemma wt_all_derived : forall s v, fields_all (fun f => ty_all ok (f_ty f)) s = true -> wt_derived E P s v -> wt_derived E P' s v.
Proof.
  intros s v G Hw. unfold wt_derived, fields_all in *. destruct (s_body s); destruct v; try contradiction.
  - apply wt_all_fields; auto.
  - destruct Hw as (vr & H1 & H2 & H3 & H4). exists vr. repeat split; auto. rewrite forallb_forall in G. apply wt_all_fields; auto.
Qed.
End RefineAll.
Lemma all_true : forall s, fields_all (fun f => ty_all (fun _ => true) (f_ty f)) s = true.
Proof.
  intros s. unfold fields_all. destruct (s_body s); apply forallb_forall; intros; [apply ty_all_true|].
  apply forallb_forall. intros. apply ty_all_true.
Qed.

(** ** What the older program makes of a newer value *)
Definition refusal (e : err) : Prop := e = EDeserialize MInvalidRevision \/ e = EDeserialize MInner.
Definition low {A} (r r' : res A) : Prop := r = r' \/ exists e, r = Err e /\ refusal e.
Lemma low_refl : forall A (r : res A), low r r.
Proof. left. reflexivity. Qed.
Lemma low_rbind : forall A B (r r' : res A) (k k' : A -> res B), low r r' -> (forall a, low (k a) (k' a)) -> low (rbind r k) (rbind r' k').
Proof.
  intros A B r r' k k' [->|(e & -> & He)] H; [|right; exists e; auto]. destruct r' as [a| |]; cbn; [apply H|left; reflexivity|left; reflexivity].
Qed.
Lemma low_rewrap : forall A (r r' : res A), low r r' -> low (rewrap r) (rewrap r').
Proof.
  intros A r r' [->|(e & -> & He)]; [left; reflexivity|]. right. eexists. split; [reflexivity|]. right. reflexivity.
Qed.
Lemma low_rmapM : forall A B (f g : A -> res B) l, (forall a, low (f a) (g a)) -> low (rmapM f l) (rmapM g l).
Proof.
  intros A B f g l H. induction l as [|x l IH]; cbn [rmapM]; [apply low_refl|]. apply low_rbind; [apply H|].
  intros y. apply low_rbind; [exact IH|]. intros ys. apply low_refl.
Qed.

Section Low.
Variables (E E' : env) (rec rec' : N -> val -> res val).
Hypothesis Hrec : forall n v, low (rec n v) (rec' n v).
Ltac lows := repeat (apply low_refl || (apply low_rbind; [|intros]) || apply low_rewrap || (apply low_rmapM; intros)).
Lemma low_entry : forall f f' g g' p, (forall v, low (f v) (f' v)) -> (forall v, low (g v) (g' v)) ->
  low (mig_entry f g p) (mig_entry f' g' p).
Proof. intros f f' g g' p Hf Hg. destruct p; cbn [mig_entry]; try apply low_refl. lows; auto. Qed.
Lemma low_ty : forall t v, low (mig_ty E E' rec t v) (mig_ty E E' rec' t v).
Proof.
  induction t as [|i| | | | | | | | | |a IHa b IHb|t IH|t IH|n t IH|t IH|a IHa b IHb|t IH|k a IHa b IHb|k t IH|t IH|t IH| | |c m t IH|n];
    intros v; cbn [mig_ty]; try apply low_refl; destruct v; try apply low_refl; auto; lows; auto.
  - destruct (_ =? 0); auto.
  - apply low_entry; auto.
Qed.
Lemma low_mode : forall se m t v, low (mig_mode E E' rec se m t v) (mig_mode E E' rec' se m t v).
Proof.
  intros se m t v. destruct m; try (destruct t, v; apply low_ty).
  - destruct t; try (destruct v; apply low_ty). destruct v; try apply low_ty. cbn [mig_mode]. lows.
    destruct (_ <? _); lows; try apply low_ty. apply low_entry; apply low_ty.
  - destruct t; try (destruct v; apply low_ty). destruct v; try apply low_ty. cbn [mig_mode]. lows. apply low_ty.
Qed.
Lemma low_fields : forall se opt cur tgt fs vs,
  low (mig_fields E E' rec se opt cur tgt fs vs) (mig_fields E E' rec' se opt cur tgt fs vs).
Proof.
  intros se opt cur tgt. induction fs as [|f fs IH]; intros vs; cbn [mig_fields]; [apply low_refl|].
  destruct (falive cur f).
  - destruct vs; [apply low_refl|]. apply low_rbind; [apply low_mode|]. intros. apply low_rbind; [apply IH|]. intros. apply low_refl.
  - destruct (falive tgt f); [|apply IH]. apply low_rbind; [apply low_refl|]. intros. apply low_rbind; [apply IH|]. intros. apply low_refl.
Qed.
Lemma low_derived : forall se s cur opt v, low (mig_derived E E' rec se s cur opt v) (mig_derived E E' rec' se s cur opt v).
Proof.
  intros se s cur opt v. unfold mig_derived, mig_body. destruct (s_body s), v; try apply low_refl.
  - apply low_rbind; [|intros; apply low_refl]. apply low_rbind; [apply low_fields|]. intros. apply low_refl.
  - destruct (find _ _); [|apply low_refl]. apply low_rbind; [|intros; apply low_refl]. apply low_rbind; [apply low_fields|]. intros. apply low_refl.
Qed.
End Low.

(** What was decoded was visited. *)
Section Visit.
Variables (E : env) (W : wf_env E) (T : ty -> val -> Prop) (recM : N -> val -> res val) (recW recT : N -> val -> Prop).
Hypothesis HT : forall t v, (forall n, t <> TRef n) -> T t v.
Hypothesis HR : forall n v v', recW n v -> recM n v = Ok v' -> T (TRef n) v /\ recT n v.
Let mg := mig_ty E E recM.
Let ev := every_ty T recT.
Lemma rewrap_ok : forall A (r : res A) a, rewrap r = Ok a -> r = Ok a.
Proof. intros A r a H. destruct r; try discriminate. exact H. Qed.
Lemma visit_list : forall t l l', (forall v v', wt_ty E recW t v -> mg t v = Ok v' -> ev t v) ->
  Forall (wt_ty E recW t) l -> rmapM (mg t) l = Ok l' -> Forall (ev t) l.
Proof.
  intros t l l' IH Hw H. rewrite Forall_forall in *. intros x Hx. destruct (rmapM_in _ _ _ _ _ _ H Hx) as (y & Hy). eauto.
Qed.
Lemma visit_list_perm : forall t l m l', (forall v v', wt_ty E recW t v -> mg t v = Ok v' -> ev t v) ->
  Permutation m l -> Forall (wt_ty E recW t) l -> rmapM (mg t) m = Ok l' -> Forall (ev t) l.
Proof.
  intros t l m l' IH P Hw H. eapply Permutation_Forall; [exact P|]. eapply visit_list; eauto.
  eapply Permutation_Forall; [symmetry; exact P|exact Hw].
Qed.
Let wte (a b : ty) (p : val) := match p with VPair x y => wt_ty E recW a x /\ wt_ty E recW b y | _ => False end.
Let eve (a b : ty) (p : val) := match p with VPair x y => ev a x /\ ev b y | _ => True end.
Lemma visit_entries : forall a b l l', (forall v v', wt_ty E recW a v -> mg a v = Ok v' -> ev a v) ->
  (forall v v', wt_ty E recW b v -> mg b v = Ok v' -> ev b v) ->
  Forall (wte a b) l -> rmapM (mig_entry (mg a) (mg b)) l = Ok l' -> Forall (eve a b) l.
Proof.
  intros a b l l' IHa IHb Hw H. rewrite Forall_forall in *. intros x Hx. destruct (rmapM_in _ _ _ _ _ _ H Hx) as (y & Hy).
  specialize (Hw x Hx). destruct x; try contradiction. cbn [mig_entry wte eve] in *. apply rbind_ok in Hy. destruct Hy as (k' & Hk & Hy).
  apply rbind_ok in Hy. destruct Hy as (u & Hu & _). destruct Hw. eauto.
Qed.
Lemma visit_ty : forall t v v', wt_ty E recW t v -> mg t v = Ok v' -> ev t v.
Proof.
  unfold mg, ev.
  induction t as [|i| | | | | | | | | |a IHa b IHb|t IH|t IH|n t IH|t IH|a IHa b IHb|t IH|k a IHa b IHb|k t IH|t IH|t IH| | |c m t IH|n];
    intros v v' Hw H; cbn [every_ty]; try (split; [apply HT; discriminate|]); try exact I.
  - destruct v; cbn [wt_ty mig_ty] in *; try contradiction. destruct Hw. apply rbind_ok in H. destruct H as (x & Hx & H).
    apply rbind_ok in H. destruct H as (y & Hy & _). eauto.
  - destruct v; cbn [wt_ty mig_ty] in *; try contradiction. destruct Hw as (_ & _ & Hf). apply rbind_ok in H. destruct H as (x & Hx & H). eapply visit_list; eauto.
  - destruct v; cbn [wt_ty mig_ty] in *; try contradiction. destruct Hw as (_ & Hf). apply rbind_ok in H. destruct H as (x & Hx & H). eapply visit_list; eauto.
  - destruct v; cbn [wt_ty mig_ty] in *; try contradiction. destruct Hw as (_ & Hf). apply rbind_ok in H. destruct H as (x & Hx & H). eapply visit_list; eauto.
  - destruct v as [| | | | | |k l]; cbn [wt_ty mig_ty] in *; try contradiction. apply rbind_ok in H. destruct H as (x & Hx & H). eapply visit_list; eauto.
    destruct k as [|[p|p|]]; try contradiction; destruct l as [|y [|z l]]; try contradiction; auto.
  - destruct v as [| | | | | |k l]; cbn [wt_ty mig_ty] in *; try contradiction. apply rbind_ok in H. destruct H as (x & Hx & H).
    apply rewrap_ok in Hx. rewrite Forall_forall. intros z Hz. destruct (rmapM_in _ _ _ _ _ _ Hx Hz) as (y & Hy).
    destruct k as [|[p|p|]]; try contradiction; destruct l as [|z' [|? l]]; try contradiction; destruct Hz as [<-|[]].
    + change (0 =? 0) with true in *. cbv iota in *. eauto.
    + change (1 =? 0) with false in *. cbv iota in *. eauto.
  - destruct v as [| | | | | |k l]; cbn [wt_ty mig_ty] in *; try contradiction. apply rbind_ok in H. destruct H as (x & Hx & H).
    apply rewrap_ok in Hx. eapply visit_list; eauto.
    destruct k as [|[p|[p|p|]|]]; try contradiction; destruct l as [|y [|z l]]; try contradiction; auto.
  - destruct v; cbn [wt_ty mig_ty] in *; try contradiction. destruct Hw as (_ & Hf & _). apply rbind_ok in H. destruct H as (x & Hx & H).
    pose proof (iter_perm E W k (TMap k a b) l) as P. eapply Permutation_Forall; [exact P|]. eapply visit_entries; eauto.
    eapply Permutation_Forall; [symmetry; exact P|exact Hf].
  - destruct v; cbn [wt_ty mig_ty] in *; try contradiction. destruct Hw as (_ & Hf & _). apply rbind_ok in H. destruct H as (x & Hx & H).
    exact (visit_list_perm t l _ x IH (iter_perm E W k (TSet k t) l) Hf Hx).
  - destruct v; cbn [wt_ty mig_ty] in *; try contradiction. destruct Hw as (_ & Hf & _). apply rbind_ok in H. destruct H as (x & Hx & H).
    exact (visit_list_perm t l _ x IH (we_iter _ W (THeap t) l) Hf Hx).
  - cbn [wt_ty mig_ty] in *. destruct v; eapply IH; eauto.
  - cbn [wt_ty mig_ty] in *. assert (Hx : wt_ty E recW t v /\ e_ext E c v = Some v) by (destruct v; exact Hw). destruct Hx as [Hx _].
    assert (Hy : exists x, mig_ty E E recM t v = Ok x) by (destruct v; apply rbind_ok in H; destruct H as (x & Hz & _); eauto).
    destruct Hy as (x & Hy). specialize (IH _ _ Hx Hy). destruct v; exact IH.
  - assert (Hx : recW n v) by (destruct v; exact Hw). assert (Hy : recM n v = Ok v') by (destruct v; exact H).
    destruct (HR _ _ _ Hx Hy) as [H1 H2]. destruct v; auto.
Qed.
Lemma by_bytes_perm : forall enc l es, by_bytes enc l = Ok es -> Permutation es l.
Proof.
  intros enc l es H. unfold by_bytes in H. apply rbind_ok in H. destruct H as (bs & Hb & H). apply Ok_inj in H. subst es.
  transitivity (map snd (combine bs l)); [apply Permutation_map, ssort_perm|].
  replace (map snd (combine bs l)) with l; [reflexivity|].
  pose proof (rmapM_length _ _ _ _ _ Hb) as Hl. clear - Hl. revert bs Hl. induction l as [|x l IH]; intros [|b bs] Hl; try discriminate; [reflexivity|].
  cbn in *. f_equal. apply IH. congruence.
Qed.
Lemma visit_mode : forall se m t v v', wt_ty E recW t v -> mig_mode E E recM se m t v = Ok v' -> ev t v.
Proof.
  intros se m t v v' Hw H. destruct m; try (assert (H' : mg t v = Ok v') by (destruct t, v; exact H); eapply visit_ty; eauto).
  - destruct t as [| | | | | | | | | | | | | | | | | |k a b| | | | | | |]; try (assert (H' := H); eapply visit_ty; eauto; destruct v; exact H').
    destruct v; try (eapply visit_ty; eauto; exact H). cbn [mig_mode] in H. cbn [wt_ty] in Hw. destruct Hw as (_ & Hf & _).
    apply rbind_ok in H. destruct H as (es & He & H). apply rbind_ok in H. destruct H as (es' & H & _).
    apply by_bytes_perm in He. pose proof (iter_perm E W k (TMap k a b) l) as P. assert (P' : Permutation es l) by (rewrite He; exact P).
    unfold ev. cbn [every_ty]. split; [apply HT; discriminate|]. eapply Permutation_Forall; [exact P'|].
    assert (Hf' : Forall (wte a b) es) by (eapply Permutation_Forall; [symmetry; exact P'|exact Hf]).
    destruct (len l <? OFFSET_TABLE_MIN_LEN).
    + eapply visit_entries; eauto; intros; eapply visit_ty; eauto.
    + apply rbind_ok in H. destruct H as (ks & Hk & H). apply rbind_ok in H. destruct H as (vs & Hv & _).
      rewrite Forall_forall in *. intros p Hp. specialize (Hf' p Hp). destruct p; try contradiction.
      destruct (rmapM_in _ _ _ _ _ _ Hk Hp) as (y & Hy). destruct (rmapM_in _ _ _ _ _ _ Hv Hp) as (z & Hz). cbn [pkey pval] in *.
      destruct Hf'. split; eapply visit_ty; eauto.
  - destruct t as [| | | | | | | | | | | | | | | | | | |k t| | | | | |]; try (assert (H' := H); eapply visit_ty; eauto; destruct v; exact H').
    destruct v; try (eapply visit_ty; eauto; exact H). cbn [mig_mode] in H. cbn [wt_ty] in Hw. destruct Hw as (_ & Hf & _).
    apply rbind_ok in H. destruct H as (es & He & H). apply rbind_ok in H. destruct H as (es' & H & _).
    apply by_bytes_perm in He. pose proof (iter_perm E W k (TSet k t) l) as P.
    unfold ev. cbn [every_ty]. split; [apply HT; discriminate|]. 
    exact (visit_list_perm t l es es' (visit_ty t) (Permutation_trans He P) Hf H).
Qed.
Lemma visit_fields : forall se opt cur tgt fs vs p, wt_fields E recW cur fs vs ->
  mig_fields E E recM se opt cur tgt fs vs = Ok p -> every_fields T recT cur fs vs.
Proof.
  intros se opt cur tgt. unfold wt_fields, every_fields. induction fs as [|f fs IH]; intros vs p Hw H; cbn [mig_fields filter] in *.
  - inversion Hw. constructor.
  - destruct (falive cur f).
    + inversion Hw as [|? v ? vs' Hv Hvs]; subst. apply rbind_ok in H. destruct H as (v' & Hv' & H). apply rbind_ok in H. destruct H as (q & Hq & _).
      constructor; [eapply visit_mode; eauto|eauto].
    + destruct (falive tgt f); [|eauto]. apply rbind_ok in H. destruct H as (v' & Hv' & H). apply rbind_ok in H. destruct H as (q & Hq & _). eauto.
Qed.
Lemma visit_derived : forall se s opt v v', wf_schema s -> wt_derived E recW s v -> mig_derived E E recM se s (scur s) opt v = Ok v' ->
  every_derived T recT s v.
Proof.
  intros se s opt v v' (_ & _ & Hb) Hw H. unfold wt_derived, mig_derived, every_derived, mig_body in *.
  destruct (s_body s) as [fs|vs]; destruct v; try contradiction.
  - apply rbind_ok in H. destruct H as (l' & H & _). apply rbind_ok in H. destruct H as (p & H & _). eapply visit_fields; eauto.
  - destruct Hw as (vr & Hi & Hk & _ & Hw). destruct Hb as (Hn & _).
    assert (Hf : find (fun vr => v_name vr =? k) vs = Some vr).
    { apply find_some_uniq; [assumption|apply N.eqb_eq; assumption|]. intros y Hy Hyk. apply N.eqb_eq in Hyk.
      eapply NoDup_map_inj; [exact Hn|assumption|assumption|congruence]. }
    rewrite Hf in H. apply rbind_ok in H. destruct H as (l' & H & _). apply rbind_ok in H. destruct H as (p & H & _).
    intros vr' Hi' Hk'. assert (vr' = vr) by (eapply (NoDup_map_inj _ _ v_name); eauto; congruence). subst vr'. eapply visit_fields; eauto.
Qed.
End Visit.
Lemma wire_every : forall T recT r fs fs' vs, map f_ty (filter (falive r) fs) = map f_ty (filter (falive r) fs') ->
  every_fields T recT r fs vs -> every_fields T recT r fs' vs.
Proof.
  intros T recT r fs fs' vs H. unfold every_fields. revert H. generalize (filter (falive r) fs) (filter (falive r) fs'). clear.
  intros l l' H Hf. revert l' H. induction Hf as [|f v l vs Hv Hf IH]; intros [|f' l'] H; try discriminate; constructor.
  - injection H as H _. rewrite <- H. exact Hv.
  - injection H as _ H. auto.
Qed.
Lemma same_every : forall E recW T recT opt s s' v, wf_schema s -> scur s' = scur s -> same_wire opt (scur s) (s_body s) (s_body s') ->
  wt_derived E recW s v -> every_derived T recT s' v -> every_derived T recT s v.
Proof.
  intros E recW T recT opt s s' v (_ & _ & Hb) Hc Hw Ht H. unfold every_derived, wt_derived in *. rewrite Hc in H. unfold same_wire in Hw.
  destruct (s_body s) as [fs|vs], (s_body s') as [fs'|vs']; try contradiction; destruct v; try exact I; try contradiction.
  - eapply wire_every; [|exact H]. symmetry. eapply wire_tys; eauto.
  - destruct Ht as (vr & Hi & Hk & Ha & Hf). destruct Hw as (ds & ds' & H1 & H2 & H3). intros vr2 Hi2 Hk2. destruct Hb as (Hn & _).
    assert (vr2 = vr) by (eapply (NoDup_map_inj _ _ v_name); eauto; congruence). subst vr2.
    destruct (disc_in _ _ _ _ H1 Hi Ha) as (d & Hd).
    destruct (variant_match _ _ _ _ _ _ _ _ H1 H2 H3 Hd) as (vr' & _ & V2 & V3 & V4 & V5).
    eapply wire_every; [|apply (H vr' V2); congruence]. symmetry. eapply variant_tys; eauto.
Qed.

(** With the same libraries the reader's environment does not matter for values. *)
Lemma mig_ty_lib : forall E E' rec, same_libraries E E' -> mig_ty E E' rec = mig_ty E E rec.
Proof. intros E E' rec (H1 & H2 & H3 & H4). destruct E, E'. cbn in *. subst. reflexivity. Qed.
Lemma mig_derived_lib : forall E E' rec, same_libraries E E' -> mig_derived E E' rec = mig_derived E E rec.
Proof. intros E E' rec (H1 & H2 & H3 & H4). destruct E, E'. cbn in *. subst. reflexivity. Qed.

Section Roll.
Variables (E E' : env).   (* E: the newer program, which wrote; E': the older, which reads *)
Hypothesis W : wf_env E.
Hypothesis W' : wf_env E'.
Hypothesis HE : edit_program E' E.
Hypothesis Hlib : same_libraries E E'.
Hypothesis Hmem : e_mem E' = None.
Hypothesis Hhonest : sizes_honest E.

Fixpoint roll (strict : bool) (depth : nat) (n : N) (v : val) : res val :=
  match depth with
  | O => Panic PStack
  | S d =>
      match e_sch E n, e_sch E' n with
      | Some s, Some s' =>
          if scur s' <? scur s then (if strict then Err (EDeserialize MInvalidRevision) else Ok v)
          else match sent s (scur s) with
               | Some h => mig_derived E E' (roll strict d) (ser_ty E (ser_ref E d)) s' (scur s) (h_opt h) v
               | None => ty_err
               end
      | _, _ => ty_err
      end
  end.

(** The type is known to the reader, and so are those of the parts the reader gets to see. *)
Fixpoint wtR (depth : nat) (n : N) (v : val) : Prop :=
  match depth with
  | O => False
  | S d =>
      match e_sch E n, e_sch E' n with
      | Some s, Some s' => wt_derived E (if scur s' <? scur s then wt_ref E d else wtR d) s v
      | _, _ => False
      end
  end.

Lemma same_rev : forall n s s', e_sch E n = Some s -> e_sch E' n = Some s' -> scur s' <? scur s = false ->
  scur s' = scur s /\ evolves s s'.
Proof.
  intros n s s' Hs Hs' Hl. destruct HE as (_ & _ & _ & H). destruct (H n s' Hs') as (s0 & H0 & He). rewrite Hs in H0. injection H0 as <-.
  pose proof He as ((more & Hm) & _).
  assert (Hc : scur s' = scur s) by (unfold scur in *; rewrite Hm, len_app in *; lia).
  split; [exact Hc|]. split; [lia|]. pose proof (we_sch _ W' _ _ Hs') as Hw.
  destruct (sent_cur s' (proj1 Hw)) as (h & Hh). exists h. rewrite <- Hc.
  pose proof (sent_app _ _ _ _ _ Hm Hh) as Hh2. split; [exact Hh2|]. split; [exact Hh|].
  split; [apply same_wire_sym, edit_same_wire; assumption|].
  intros _. unfold opt_restricted. destruct (s_body s'); intros; congruence.
Qed.

Lemma rt_newer : forall recS recD s s' v, wf_schema s -> wf_schema s' -> scur s' < scur s ->
  rt (ser_derived E recS s v) (de_derived E' recD s') (Err (EDeserialize MInvalidRevision)).
Proof.
  intros recS recD s s' v (H0 & H16 & _) _ Hl ops rest Ho. unfold ser_derived in Ho.
  destruct (sent s (scur s)) as [h|]; [|discriminate]. apply sbind_ok in Ho. destruct Ho as (la & lb & Hla & Hs & ->).
  apply Ok_inj in Hla. subst la. rewrite out_app, <- app_assoc. unfold out at 1. cbn [flat_map wop_bytes].
  assert (Hfw : e_fw E' = e_fw E) by apply HE.
  unfold de_derived. rewrite app_nil_r, Hfw, run_bind, rt_u16 by assumption. unfold de_body.
  assert (Hn : sent s' (scur s) = None).
  { unfold sent. replace (scur s =? 0) with false by lia. apply nth_error_None. unfold scur, len in *. lia. }
  rewrite Hn. reflexivity.
Qed.

Lemma wtR_wt : forall d n v, wtR d n v -> wt_ref E d n v.
Proof.
  induction d as [|d IH]; intros n v H; cbn [wtR wt_ref] in *; [contradiction|].
  destruct (e_sch E n) as [s|]; [|contradiction]. destruct (e_sch E' n) as [s'|]; [|contradiction].
  destruct (scur s' <? scur s); [exact H|]. apply (wt_all_derived E (fun _ => true) (wtR d)); auto using all_true.
Qed.
Lemma rt_roll : forall d n v, wtR d n v -> rt (ser_ref E d n v) (de_ref E' d n) (roll true d n v).
Proof.
  assert (Hfw : e_fw E' = e_fw E) by apply HE. assert (Hspec : e_spec E' = e_spec E) by apply HE.
  assert (Hub : e_ub E' = e_ub E) by apply HE.
  induction d as [|d IH]; intros n v Hw; cbn [wtR] in Hw; [contradiction|].
  cbn [ser_ref de_ref roll]. destruct (e_sch E n) as [s|] eqn:Es; [|contradiction]. destruct (e_sch E' n) as [s'|] eqn:Es'; [|contradiction].
  pose proof (we_sch _ W _ _ Es) as Hs. pose proof (we_sch _ W' _ _ Es') as Hs'.
  destruct (scur s' <? scur s) eqn:El.
  - apply rt_newer; auto. lia.
  - destruct (same_rev n s s' Es Es' El) as (Hc & Hev). pose proof Hev as (_ & h & Hh & _). rewrite Hh.
    apply (rt_derived E E' Hfw Hspec Hub (we_ub _ W) Hmem (we_iter _ W) (proj2 (we_time _ W)) (ser_ref E d) (de_ref E' d) (roll true d) (wtR d) IH); auto.
    intros vs Hvs. destruct Hhonest as [Hd|Hd]; [left; assumption|right].
    intros vr k l bs Hin Hsz Hwl Hbs. eapply Hd; eauto; [|apply enc3; exact Hbs].
    apply (wt_all_fields E (fun _ => true) (wtR d)); auto using wtR_wt. apply forallb_forall. intros. apply ty_all_true.
Qed.

Lemma roll_low : forall d n v, low (roll true d n v) (roll false d n v).
Proof.
  induction d as [|d IH]; intros n v; cbn [roll]; [apply low_refl|].
  destruct (e_sch E n) as [s|]; [|apply low_refl]. destruct (e_sch E' n) as [s'|]; [|apply low_refl].
  destruct (scur s' <? scur s); [right; eexists; split; [reflexivity|left; reflexivity]|].
  destruct (sent s (scur s)); [|apply low_refl]. apply low_derived, IH.
Qed.

(** Same revision, as the reader declares it. *)
Lemma derived_here : forall recS recW n s s' v ops, e_sch E n = Some s -> e_sch E' n = Some s' -> scur s' <? scur s = false ->
  wt_derived E recW s v -> ser_derived E recS s v = Ok ops ->
  exists h, sent s (scur s) = Some h /\ sent s' (scur s') = Some h /\ scur s = scur s'
    /\ wt_derived E recW s' v /\ ser_derived E recS s' v = Ok ops.
Proof.
  intros recS recW n s s' v ops Es Es' El Hw Hs. destruct (same_rev n s s' Es Es' El) as (Hc & _ & h & Hh & Hh' & Hwire & _).
  exists h. rewrite Hc. repeat split; auto.
  - eapply same_wt; eauto.
  - rewrite <- Hs. eapply same_ser; eauto; [apply (we_sch _ W _ _ Es)|apply (we_sch _ W' _ _ Es')].
Qed.

Lemma roll_lax : forall d n v ops, wtR d n v -> ser_ref E d n v = Ok ops -> roll false d n v = Ok v.
Proof.
  induction d as [|d IH]; intros n v ops Hw Hs; cbn [wtR ser_ref roll] in *; [contradiction|].
  destruct (e_sch E n) as [s|] eqn:Es; [|contradiction]. destruct (e_sch E' n) as [s'|] eqn:Es'; [|contradiction].
  destruct (scur s' <? scur s) eqn:El; [reflexivity|].
  destruct (derived_here _ _ n s s' v ops Es Es' El Hw Hs) as (h & Hh & Hh' & Hc & Hw' & Hs'). rewrite Hh, Hc, mig_derived_lib by exact Hlib.
  eapply mig_derived_id; eauto. apply (we_sch _ W' _ _ Es').
Qed.

Hypothesis Hclosed : env_all (fun f => ty_all (declared E') (f_ty f)) E'.
Lemma wt_wtR : forall d n v, wt_ref E d n v -> declared E' (TRef n) = true -> wtR d n v.
Proof.
  induction d as [|d IH]; intros n v Hw Hn; cbn [wt_ref wtR declared] in *; [contradiction|].
  destruct (e_sch E n) as [s|] eqn:Es; [|contradiction]. destruct (e_sch E' n) as [s'|] eqn:Es'; [|discriminate].
  destruct (scur s' <? scur s) eqn:El; [exact Hw|].
  destruct (same_rev n s s' Es Es' El) as (Hc & _ & h & _ & _ & Hwire & _).
  apply (same_wt E (wtR d) (h_opt h) s' s); [auto|rewrite Hc; apply same_wire_sym; exact Hwire|].
  apply (wt_all_derived E (declared E') (wt_ref E d)); [exact IH|apply (Hclosed n s' Es')|].
  eapply same_wt; eauto.
Qed.

Lemma roll_all : forall d t v ops rest, ty_all (declared E') t = true -> wt E d t v -> to_writer E d t v = Ok ops ->
  run (deserialize E' d t) (out ops ++ rest) = rmap (fun v' => (v', rest)) (mig_ty E E (roll true d) t v)
  /\ (mig_ty E E (roll true d) t v = Ok v \/ exists e, mig_ty E E (roll true d) t v = Err e /\ refusal e).
Proof.
  intros d t v ops rest Ht Hw Hs.
  assert (Hfw : e_fw E' = e_fw E) by apply HE. assert (Hspec : e_spec E' = e_spec E) by apply HE.
  assert (Hub : e_ub E' = e_ub E) by apply HE.
  assert (HwR : wt_ty E (wtR d) t v) by (apply (wt_all E (declared E') (wt_ref E d)); auto; apply wt_wtR).
  split.
  - rewrite <- (mig_ty_lib E E' (roll true d) Hlib).
    apply (rt_ty E E' Hfw Hspec Hub (we_ub _ W) Hmem (we_iter _ W) (proj2 (we_time _ W)) (ser_ref E d) (de_ref E' d) (roll true d) (wtR d) (rt_roll d) t v HwR ops rest Hs).
  - assert (Hi : mig_ty E E (roll false d) t v = Ok v).
    { eapply (mig_ty_id E W (ser_ref E d) (roll false d) (wtR d)); eauto. apply roll_lax. }
    rewrite <- Hi. apply (low_ty E E (roll true d) (roll false d) (roll_low d)).
Qed.

(** Exactly when reading succeeds. *)
Notation readable := (same_revision E' E).
Lemma readable_other : forall t v, (forall n, t <> TRef n) -> readable t v.
Proof. intros t v H. destruct t; try exact I. elim (H n eq_refl). Qed.
Lemma roll_visits : forall d n v v', wtR d n v -> roll true d n v = Ok v' ->
  readable (TRef n) v /\ every_ref E readable d n v.
Proof.
  induction d as [|d IH]; intros n v v' Hw H; cbn [wtR roll every_ref same_revision] in *; [contradiction|].
  destruct (e_sch E n) as [s|] eqn:Es; [|contradiction]. destruct (e_sch E' n) as [s'|] eqn:Es'; [|contradiction].
  destruct (scur s' <? scur s) eqn:El; [discriminate|].
  destruct (same_rev n s s' Es Es' El) as (Hc & _ & h & Hh & _ & Hwire & _).
  rewrite Hh, <- Hc, mig_derived_lib in H by exact Hlib. cbn [option_map]. split; [congruence|].
  eapply same_every; [apply (we_sch _ W _ _ Es)|exact Hc|exact Hwire|exact Hw|].
  eapply (visit_derived E W readable (roll true d) (wtR d)); [exact readable_other|exact IH|apply (we_sch _ W' _ _ Es')| |exact H].
  eapply same_wt; eauto.
Qed.
(** All parts known to the reader. *)
Fixpoint wtK (depth : nat) (n : N) (v : val) : Prop :=
  match depth with
  | O => False
  | S d =>
      match e_sch E n, e_sch E' n with
      | Some s, Some s' => scur s' = scur s /\ wt_derived E (wtK d) s v
      | _, _ => False
      end
  end.
Lemma wt_wtK : forall d n v, wt_ref E d n v -> readable (TRef n) v -> every_ref E readable d n v -> wtK d n v.
Proof.
  induction d as [|d IH]; intros n v Hw Hr He; cbn [wt_ref same_revision every_ref wtK] in *; [contradiction|].
  destruct (e_sch E n) as [s|]; [|contradiction]. destruct (e_sch E' n) as [s'|]; [|discriminate].
  cbn [option_map] in Hr. split; [congruence|].
  exact (wt_refine_derived E readable (wt_ref E d) (every_ref E readable d) (wtK d) IH s v Hw He).
Qed.
Lemma roll_known : forall d n v ops, wtK d n v -> ser_ref E d n v = Ok ops -> roll true d n v = Ok v.
Proof.
  induction d as [|d IH]; intros n v ops Hw Hs; cbn [wtK ser_ref roll] in *; [contradiction|].
  destruct (e_sch E n) as [s|] eqn:Es; [|contradiction]. destruct (e_sch E' n) as [s'|] eqn:Es'; [|contradiction]. destruct Hw as [Hc0 Hw].
  assert (El : scur s' <? scur s = false) by lia. rewrite El.
  destruct (derived_here _ _ n s s' v ops Es Es' El Hw Hs) as (h & Hh & Hh' & Hc & Hw' & Hs'). rewrite Hh, Hc, mig_derived_lib by exact Hlib.
  eapply mig_derived_id; eauto. apply (we_sch _ W' _ _ Es').
Qed.
Lemma roll_exact : forall d t v ops, ty_all (declared E') t = true -> wt E d t v -> to_writer E d t v = Ok ops ->
  (mig_ty E E (roll true d) t v = Ok v <-> every E readable d t v).
Proof.
  intros d t v ops Ht Hw Hs.
  assert (HwR : wt_ty E (wtR d) t v) by (apply (wt_all E (declared E') (wt_ref E d)); auto; apply wt_wtR).
  split; intros H.
  - eapply (visit_ty E W readable (roll true d) (wtR d)); eauto; [exact readable_other|apply roll_visits].
  - eapply (mig_ty_id E W (ser_ref E d) (roll true d) (wtK d)); eauto; [apply roll_known|].
    exact (wt_refine E readable (wt_ref E d) (every_ref E readable d) (wtK d) (wt_wtK d) t v Hw H).
Qed.
End Roll.
