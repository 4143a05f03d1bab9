(** Indexed encodings do not depend on iteration order.  Proofs. *)

From Verif Require Import Base BaseL Prog ProgL Prim PrimL Utf8 Tag Ty Ser De Typed Mig SortL DiscL RtL RtTy RtDer RtSch RtId Parts Agree Spec Cross OrderFree.
From Coq Require Import List NArith ZArith Bool Lia Permutation Sorted.
Import ListNotations.
Open Scope N_scope.

(** [b] succeeds with what [a] succeeds with. *)
Definition keeps {A} (a b : res A) : Prop := forall x, a = Ok x -> b = Ok x.
Lemma keeps_refl : forall A (a : res A), keeps a a.
Proof. intros A a x H. exact H. Qed.
Lemma keeps_rbind : forall A B (a a' : res A) (f f' : A -> res B), keeps a a' -> (forall x, keeps (f x) (f' x)) ->
  keeps (rbind a f) (rbind a' f').
Proof. intros A B a a' f f' Ha Hf x H. apply rbind_ok in H. destruct H as (y & H1 & H2). rewrite (Ha _ H1). cbn. apply Hf, H2. Qed.
Lemma keeps_sbind : forall a a' b b' : ser, keeps a a' -> keeps b b' -> keeps (a +++ b) (a' +++ b').
Proof.
  intros a a' b b' Ha Hb x H. apply sbind_ok in H. destruct H as (la & lb & H1 & H2 & ->). rewrite (Ha _ H1), (Hb _ H2). reflexivity.
Qed.
Lemma keeps_bytes : forall a a', keeps a a' -> keeps (ser_bytes a) (ser_bytes a').
Proof. intros a a' H x E. apply ser_bytes_ok in E. destruct E as (ops & E & ->). rewrite (H _ E). reflexivity. Qed.
Lemma keeps_rmapM : forall A B (f f' : A -> res B) l, (forall x, In x l -> keeps (f x) (f' x)) -> keeps (rmapM f l) (rmapM f' l).
Proof.
  intros A B f f' l H r E. apply rmapM_ok in E. apply rmapM_ok. induction E as [|x y l r Hx E IH]; constructor.
  - apply H; [left; reflexivity|exact Hx].
  - apply IH. intros z Hz. apply H. right. exact Hz.
Qed.
Lemma keeps_sconcat : forall A (f f' : A -> ser) l, (forall x, In x l -> keeps (f x) (f' x)) -> keeps (sconcat (map f l)) (sconcat (map f' l)).
Proof.
  intros A f f' l. induction l as [|x l IH]; intros H; [apply keeps_refl|]. cbn [map]. rewrite !sconcat_cons.
  apply keeps_sbind; [apply H; left; reflexivity|]. apply IH. intros y Hy. apply H. right; exact Hy.
Qed.
Lemma keeps_rmapM2 : forall ls ls', Forall2 keeps ls ls' -> keeps (rmapM ser_bytes ls) (rmapM ser_bytes ls').
Proof.
  intros ls ls' H. induction H as [|a b ls ls' Ha H IH]; [apply keeps_refl|]. cbn [rmapM].
  apply keeps_rbind; [apply keeps_bytes; assumption|]. intros y. apply keeps_rbind; [exact IH|]. intros; apply keeps_refl.
Qed.
Lemma keeps_sconcat2 : forall ls ls', Forall2 keeps ls ls' -> keeps (sconcat ls) (sconcat ls').
Proof.
  intros ls ls' H. induction H as [|a b ls ls' Ha H IH]; [apply keeps_refl|]. rewrite !sconcat_cons. apply keeps_sbind; assumption.
Qed.

(** Permuting the input of [rmapM] permutes its output. *)
Lemma rmapM_perm : forall A B (f : A -> res B) l l' r, Permutation l l' -> rmapM f l = Ok r ->
  exists r', rmapM f l' = Ok r' /\ Permutation r r'.
Proof.
  intros A B f l l' r P. revert r. induction P; intros r H.
  - cbn in H. apply Ok_inj in H. subst. exists []. split; [reflexivity|constructor].
  - cbn [rmapM] in H. apply rbind_ok in H. destruct H as (y & Hy & H). apply rbind_ok in H. destruct H as (r1 & Hr & H). apply Ok_inj in H. subst r.
    destruct (IHP _ Hr) as (r' & Hr' & Pr). exists (y :: r'). cbn [rmapM]. rewrite Hy, Hr'. split; [reflexivity|]. constructor. exact Pr.
  - cbn [rmapM] in H. apply rbind_ok in H. destruct H as (b & Hb & H). apply rbind_ok in H. destruct H as (r1 & H & H0). apply Ok_inj in H0. subst r.
    apply rbind_ok in H. destruct H as (a & Ha & H). apply rbind_ok in H. destruct H as (r2 & Hr & H). apply Ok_inj in H. subst r1.
    exists (a :: b :: r2). cbn [rmapM]. rewrite Ha, Hb, Hr. split; [reflexivity|]. constructor.
  - destruct (IHP1 _ H) as (r1 & H1 & P1'). destruct (IHP2 _ H1) as (r2 & H2 & P2'). exists r2. split; [exact H2|]. etransitivity; eassumption.
Qed.

(** Sorting by a key that distinguishes the elements. *)
Lemma ssort_keyed : forall A (cmp : A -> A -> comparison), order cmp -> forall l l', Permutation l l' ->
  (forall x y, In x l -> In y l -> cmp x y = Eq -> x = y) -> ssort cmp l = ssort cmp l'.
Proof.
  intros A cmp O l l' P D.
  assert (G : forall a b, StronglySorted (fun x y => cmp x y <> Gt) a -> StronglySorted (fun x y => cmp x y <> Gt) b -> Permutation a b ->
     (forall x y, In x a -> In y a -> cmp x y = Eq -> x = y) -> a = b).
  { clear - O. induction a as [|x a IH]; intros b Ha Hb P D.
    - apply Permutation_nil in P. subst; reflexivity.
    - destruct b as [|y b]; [apply Permutation_sym, Permutation_nil in P; discriminate|].
      inversion Ha as [|? ? Ha1 Ha2]; subst. inversion Hb as [|? ? Hb1 Hb2]; subst.
      assert (x = y).
      { assert (Hx : In x (y :: b)) by (eapply Permutation_in; [exact P|left; reflexivity]).
        assert (Hy : In y (x :: a)) by (eapply Permutation_in; [exact (Permutation_sym P)|left; reflexivity]).
        destruct Hx as [Hx|Hx]; [auto|]. destruct Hy as [Hy|Hy]; [auto|].
        rewrite Forall_forall in Ha2, Hb2. specialize (Ha2 _ Hy). specialize (Hb2 _ Hx).
        apply D; [left; reflexivity|right; exact Hy|]. pose proof (o_sym _ O x y) as F.
        destruct (cmp x y), (cmp y x); cbn in F; congruence. }
      subst y. f_equal. apply IH; auto; [eapply Permutation_cons_inv; exact P|].
      intros u v Hu Hv. apply D; right; assumption. }
  apply G; [apply ssort_sorted; exact O|apply ssort_sorted; exact O| |].
  - rewrite !ssort_perm. exact P.
  - intros x y Hx Hy. apply D; (eapply Permutation_in; [apply ssort_perm|eassumption]).
Qed.

Section Ord.
Variables (E : env) (it : ty -> list val -> list val).
Hypothesis W : wf_env E.
Hypothesis Hit : permutes it.
Let E' := set_iter it E.

Section Rec.
Variables (recS recS' : N -> val -> ser) (recW : N -> val -> Prop).
Hypothesis Hrec : forall n v, recW n v -> keeps (recS n v) (recS' n v).
Hypothesis Hinj : forall t x y b, wt_ty E recW t x -> wt_ty E recW t y ->
  ser_bytes (ser_ty E recS t x) = Ok b -> ser_bytes (ser_ty E recS t y) = Ok b -> x = y.

Lemma bulk_iter : forall k l, ser_bulk E' k l = ser_bulk E k l.
Proof. reflexivity. Qed.

Lemma ord_ty : forall t, ordered t = true -> forall v, wt_ty E recW t v -> keeps (ser_ty E recS t v) (ser_ty E' recS' t v).
Proof.
  unfold ordered.
  induction t as [|i| | | | | | | | | |a IHa b IHb|t IH|t IH|n t IH|t IH|a IHa b IHb|t IH|k a IHa b IHb|k t IH|t IH|t IH| | |c m t IH|n];
    cbn [ty_all]; intros Ho v Hw; try (apply andb_prop in Ho; destruct Ho as [Ho1 Ho2]); try discriminate; cbn [ser_ty].
  1-11: destruct v; apply keeps_refl.
  - destruct v; try apply keeps_refl. apply andb_prop in Ho2. destruct Ho2, Hw. apply keeps_sbind; auto.
  - destruct v; try apply keeps_refl. change (e_spec E') with (e_spec E). destruct Hw as (_ & _ & Hw). rewrite Forall_forall in Hw.
    destruct (if e_spec E then bulk_of t else None); [apply keeps_refl|].
    apply keeps_sbind; [apply keeps_refl|]. apply keeps_sconcat. auto.
  - destruct v; try apply keeps_refl. destruct Hw as (_ & Hw). rewrite Forall_forall in Hw.
    apply keeps_sbind; [apply keeps_refl|]. apply keeps_sconcat. auto.
  - destruct v; try apply keeps_refl. destruct Hw as (_ & Hw). rewrite Forall_forall in Hw.
    destruct (Nat.eqb (length l) n); [|apply keeps_refl]. apply keeps_sconcat. auto.
  - destruct v; try apply keeps_refl. destruct k as [|[p|p|]]; try contradiction; destruct l as [|x [|y l]]; try contradiction; try apply keeps_refl.
    apply keeps_sbind; [apply keeps_refl|auto].
  - destruct v; try apply keeps_refl. apply andb_prop in Ho2. destruct Ho2.
    destruct k as [|[p|p|]]; try contradiction; destruct l as [|x [|y l]]; try contradiction; (apply keeps_sbind; [apply keeps_refl|auto]).
  - destruct v; try apply keeps_refl. destruct k as [|[p|[p|p|]|]]; try contradiction; destruct l as [|x [|y l]]; try contradiction; try apply keeps_refl;
      (apply keeps_sbind; [apply keeps_refl|auto]).
  - destruct v; try apply keeps_refl. apply andb_prop in Ho2. destruct Ho2. destruct k; [discriminate|].
    destruct Hw as (_ & Hw & _). rewrite Forall_forall in Hw. cbn [citer].
    apply keeps_sbind; [apply keeps_refl|]. apply keeps_sconcat. intros p Hp. specialize (Hw p Hp).
    destruct p; try contradiction. destruct Hw. cbn [ser_entry]. apply keeps_sbind; auto.
  - destruct v; try apply keeps_refl. destruct k; [discriminate|]. destruct Hw as (_ & Hw & _). rewrite Forall_forall in Hw. cbn [citer].
    apply keeps_sbind; [apply keeps_refl|]. apply keeps_sconcat. auto.
  - destruct v; apply IH; assumption.
  - destruct v; apply keeps_refl.
  - destruct v; apply keeps_refl.
  - assert (Hx : wt_ty E recW t v) by (destruct v; apply Hw). destruct v; apply IH; assumption.
  - assert (Hx : recW n v) by (destruct v; exact Hw). destruct v; apply Hrec; exact Hx.
Qed.

Lemma ord_mode : forall m t v, field_ordered m t = true -> wt_ty E recW t v -> keeps (ser_mode E recS m t v) (ser_mode E' recS' m t v).
Proof.
  intros m t v Ho Hw. destruct m.
  - replace (ser_mode E recS MPlain t v) with (ser_ty E recS t v) by (destruct t, v; reflexivity).
    replace (ser_mode E' recS' MPlain t v) with (ser_ty E' recS' t v) by (destruct t, v; reflexivity).
    apply ord_ty; [|exact Hw]. destruct t; exact Ho.
  - destruct t, v; apply keeps_refl.
  - destruct t, v; try apply keeps_refl.
  - destruct t as [| | | | | | | | | | | | | | | | | |k a b| | | | | | |]; try (destruct v; intros x Hx; discriminate).
    destruct v; try (intros x Hx; discriminate). cbn [field_ordered] in Ho. apply andb_prop in Ho. destruct Ho as [Oa Ob].
    destruct Hw as (_ & Hw & Hs). cbn [ser_mode]. intros ops H. apply rbind_ok in H. destruct H as (ps & Hps & H).
    apply (keeps_rmapM _ _ _ (pre_entry (ser_ty E' recS' a) (ser_ty E' recS' b))) in Hps as Hps'.
    + assert (Pc : Permutation (citer E k (TMap k a b) l) (citer E' k (TMap k a b) l)) by (rewrite (iter_perm E W); symmetry; destruct k; cbn; [apply Hit|reflexivity]).
      destruct (rmapM_perm _ _ _ _ _ _ Pc Hps') as (ps' & Hq & P).
      rewrite Hq. cbn [rbind]. replace (ssort key_cmp ps') with (ssort key_cmp ps); [exact H|].
      apply ssort_keyed; [apply (order_pull _ _ fst bcmp bcmp_order)|exact P|].
      (* distinct keys have distinct bytes *)
      assert (O : order (e_cmp E a)) by (apply cmp_order; exact W).
      destruct (sorted_lt_distinct _ pkey O l Hs) as [Hn Hd].
      assert (F : Forall2 (fun p q => pre_entry (ser_ty E recS a) (ser_ty E recS b) p = Ok q) (citer E k (TMap k a b) l) ps) by (apply rmapM_ok; exact Hps).
      intros x y Hx Hy Hc. unfold key_cmp in Hc. apply bcmp_eq in Hc.
      assert (R : forall q, In q ps -> exists p, In p l /\ pre_entry (ser_ty E recS a) (ser_ty E recS b) p = Ok q).
      { intros q Hq'. clear - F Hq' W. assert (G : exists p, In p (citer E k (TMap k a b) l) /\ pre_entry (ser_ty E recS a) (ser_ty E recS b) p = Ok q).
        { induction F as [|p r u v Hp F IH]; [destruct Hq'|]. destruct Hq' as [<-|Hq']; [exists p; split; [left; reflexivity|exact Hp]|].
          destruct (IH Hq') as (p' & ? & ?). exists p'. split; [right; assumption|assumption]. }
        destruct G as (p & Hp & Hq). exists p. split; [|exact Hq]. eapply Permutation_in; [apply (iter_perm E W)|exact Hp]. }
      destruct (R x Hx) as (p & Hp & Ep). destruct (R y Hy) as (q & Hq' & Eq').
      assert (p = q).
      { rewrite Forall_forall in Hw. pose proof (Hw p Hp) as Wp. pose proof (Hw q Hq') as Wq.
        destruct p as [| | | |pk pv| |], q as [| | | |qk qv| |]; try contradiction. cbn [pre_entry] in Ep, Eq'.
        apply rbind_ok in Ep. destruct Ep as (kb & Hkb & Ep). apply rbind_ok in Ep. destruct Ep as (vb & Hvb & Ep). apply Ok_inj in Ep. subst x.
        apply rbind_ok in Eq'. destruct Eq' as (kb' & Hkb' & Eq'). apply rbind_ok in Eq'. destruct Eq' as (vb' & Hvb' & Eq'). apply Ok_inj in Eq'. subst y.
        cbn [fst] in Hc. subst kb'. destruct Wp as [Wp _]. destruct Wq as [Wq _].
        assert (pk = qk) by (eapply (Hinj a); eassumption). subst qk.
        destruct (vcmp (VPair pk pv) (VPair pk qv)) eqn:Ec; [apply vcmp_is_eq; exact Ec| |];
          exfalso; apply (Hd _ _ Hp Hq'); try (intros He; rewrite He, vcmp_refl in Ec; discriminate); cbn [pkey]; apply o_refl; exact O. }
      subst q. rewrite Ep in Eq'. apply Ok_inj in Eq'. exact Eq'.
    + intros p Hp. rewrite Forall_forall in Hw. assert (Hp' : In p l) by (eapply Permutation_in; [apply (iter_perm E W)|exact Hp]).
      specialize (Hw p Hp'). destruct p; try contradiction. destruct Hw as [Wa Wb]. cbn [pre_entry].
      apply keeps_rbind; [apply keeps_bytes, ord_ty; assumption|]. intros kb. apply keeps_rbind; [apply keeps_bytes, ord_ty; assumption|].
      intros; apply keeps_refl.
  - destruct t, v; try (intros x Hx; discriminate); cbn [ser_mode field_ordered] in *; unfold ordered in Ho; cbn [ty_all] in Ho; try (apply andb_prop in Ho; destruct Ho as [_ Ho]).
    + destruct Hw as (_ & _ & Hw). rewrite Forall_forall in Hw.
      apply keeps_rbind; [|intros; apply keeps_refl]. apply keeps_rmapM. intros x Hx. apply keeps_bytes, ord_ty; auto.
    + destruct Hw as (_ & Hw). rewrite Forall_forall in Hw.
      apply keeps_rbind; [|intros; apply keeps_refl]. apply keeps_rmapM. intros x Hx. apply keeps_bytes, ord_ty; auto.
  - destruct t as [| | | | | | | | | | | | | | | | | | |k a| | | | | |]; try (destruct v; intros x Hx; discriminate).
    destruct v; try (intros x Hx; discriminate). cbn [field_ordered] in Ho.
    destruct Hw as (_ & Hw & Hs). cbn [ser_mode]. intros ops H. apply rbind_ok in H. destruct H as (ps & Hps & H).
    apply (keeps_rmapM _ _ _ (fun x => ser_bytes (ser_ty E' recS' a x))) in Hps as Hps'.
    + assert (Pc : Permutation (citer E k (TSet k a) l) (citer E' k (TSet k a) l)) by (rewrite (iter_perm E W); symmetry; destruct k; cbn; [apply Hit|reflexivity]).
      destruct (rmapM_perm _ _ _ _ _ _ Pc Hps') as (ps' & Hq & P).
      rewrite Hq. cbn [rbind]. replace (ssort bcmp ps') with (ssort bcmp ps); [exact H|].
      apply ssort_keyed; [apply bcmp_order|exact P|]. intros x y _ _ Hc. apply bcmp_eq. exact Hc.
    + intros p Hp. rewrite Forall_forall in Hw. assert (Hp' : In p l) by (eapply Permutation_in; [apply (iter_perm E W)|exact Hp]).
      apply keeps_bytes, ord_ty; auto.
Qed.

Lemma ord_fields : forall opt r fs l, (forall f, In f fs -> falive r f = true -> field_ordered (mode_of opt f) (f_ty f) = true) ->
  wt_fields E recW r fs l -> Forall2 keeps (ser_fields E recS opt r fs l) (ser_fields E' recS' opt r fs l).
Proof.
  intros opt r. unfold wt_fields. induction fs as [|f fs IH]; intros l Ho Hw; cbn [ser_fields filter] in *.
  - destruct l; repeat constructor. apply keeps_refl.
  - destruct (falive r f) eqn:Ef.
    + inversion Hw; subst. constructor; [|apply IH; [intros g Hg; apply Ho; right; exact Hg|assumption]].
      apply ord_mode; [apply Ho; [left; reflexivity|exact Ef]|assumption].
    + apply IH; [intros g Hg; apply Ho; right; exact Hg|exact Hw].
Qed.
Lemma ord_vfields : forall r fs l, (forall f, In f fs -> falive r f = true -> ordered (f_ty f) = true) ->
  wt_fields E recW r fs l -> Forall2 keeps (ser_vfields E recS r fs l) (ser_vfields E' recS' r fs l).
Proof.
  intros r. unfold wt_fields. induction fs as [|f fs IH]; intros l Ho Hw; cbn [ser_vfields filter] in *.
  - destruct l; repeat constructor. apply keeps_refl.
  - destruct (falive r f) eqn:Ef.
    + inversion Hw; subst. constructor; [|apply IH; [intros g Hg; apply Ho; right; exact Hg|assumption]].
      apply ord_ty; [apply Ho; [left; reflexivity|exact Ef]|assumption].
    + apply IH; [intros g Hg; apply Ho; right; exact Hg|exact Hw].
Qed.
End Rec.
End Ord.

Lemma find_name_in : forall k ds vr d, find_name k ds = Some (vr, d) -> In (vr, d) ds /\ v_name vr = k.
Proof.
  intros k ds vr d H. apply find_some in H. destruct H as [H1 H2]. cbn [fst] in H2. apply N.eqb_eq in H2. auto.
Qed.

Section Final.
Variables (E : env) (it : ty -> list val -> list val).
Hypothesis W : wf_env E.
Hypothesis Hh : sizes_honest E.
Hypothesis Hit : permutes it.
Hypothesis Ho : order_free E.
Let E' := set_iter it E.

Lemma inj_ty : forall d t x y b, wt E d t x -> wt E d t y -> to_vec E d t x = Ok b -> to_vec E d t y = Ok b -> x = y.
Proof.
  intros d t x y b Hx Hy Ex Ey.
  pose proof (same0 E d d t x b [] W Hh Hx (le_n _) Ex) as H. pose proof (same0 E d d t y b [] W Hh Hy (le_n _) Ey) as H'.
  rewrite H in H'. inversion H'; subst. reflexivity.
Qed.

Lemma ord_ref : forall d n v, wt_ref E d n v -> keeps (ser_ref E d n v) (ser_ref E' d n v).
Proof.
  induction d as [|d IH]; intros n v Hw; cbn [wt_ref ser_ref] in *; [contradiction|].
  change (e_sch E' n) with (e_sch E n). destruct (e_sch E n) as [s|] eqn:Es; [|contradiction].
  unfold ser_derived. destruct (sent s (scur s)) as [h|] eqn:Eh; [|apply keeps_refl].
  apply keeps_sbind; [apply keeps_refl|]. specialize (Ho n s h Es Eh).
  assert (Hinj : forall t x y b, wt_ty E (wt_ref E d) t x -> wt_ty E (wt_ref E d) t y ->
    ser_bytes (ser_ty E (ser_ref E d) t x) = Ok b -> ser_bytes (ser_ty E (ser_ref E d) t y) = Ok b -> x = y) by (apply inj_ty).
  pose proof (we_sch _ W _ _ Es) as (_ & _ & Wb).
  unfold wt_derived in Hw. destruct (s_body s) as [fs|vs].
  - destruct v; try contradiction. cbn [ser_struct]. destruct (h_opt h) eqn:Eo.
    + unfold ser_struct_opt. apply keeps_rbind; [|intros; apply keeps_refl]. apply keeps_rmapM2.
      eapply ord_fields; eauto.
    + apply keeps_sconcat2. eapply ord_fields; eauto.
  - destruct v; try contradiction. cbn [ser_enum].
    destruct (calc_disc (scur s) vs) as [ds|] eqn:Ed; [|apply keeps_refl].
    destruct (find_name k ds) as [[vr dd]|] eqn:Ef; [|apply keeps_refl].
    destruct Hw as (vr' & Hin' & Hk & Ha & Hw).
    apply find_name_in in Ef. destruct Ef as [Hin Hk'].
    pose proof (calc_disc_fst _ _ _ Ed) as Hfst.
    assert (Hv : In vr (filter (valive (scur s)) vs)) by (rewrite <- Hfst; apply in_map_iff; exists (vr, dd); auto).
    apply filter_In in Hv. destruct Hv as [Hv _].
    assert (vr' = vr) by (eapply NoDup_map_inj; [apply Wb| | |congruence]; assumption).
    subst vr'. destruct (h_opt h) eqn:Eo.
    + unfold ser_variant_opt. change (e_dbg E') with (e_dbg E). destruct (v_size vr) as [[|m|]|]; [apply keeps_refl| | |apply keeps_refl].
      * apply keeps_sbind; [apply keeps_refl|]. apply keeps_rbind; [|intros; apply keeps_refl]. apply keeps_rmapM2.
        apply (ord_vfields E it _ _ _ IH); [|exact Hw]. intros f Hf. apply (Ho vr f Hv Hf).
      * apply keeps_sbind; [apply keeps_refl|]. apply keeps_rbind; [|intros; apply keeps_refl]. apply keeps_rmapM2.
        apply (ord_vfields E it _ _ _ IH); [|exact Hw]. intros f Hf. apply (Ho vr f Hv Hf).
    + apply keeps_sbind; [apply keeps_refl|]. apply keeps_sconcat2.
      eapply ord_fields; eauto.
Qed.
Lemma ord_to_writer : forall d t v, ordered t = true -> wt E d t v -> keeps (to_writer E d t v) (to_writer E' d t v).
Proof. intros d t v Ht Hw. apply (ord_ty E it _ _ _ (ord_ref d)); assumption. Qed.
Lemma ord_field : forall d m t v, field_ordered m t = true -> wt E d t v ->
  keeps (ser_mode E (ser_ref E d) m t v) (ser_mode E' (ser_ref E' d) m t v).
Proof. intros d m t v Hm Hw. apply (ord_mode E it W Hit _ _ (wt_ref E d) (ord_ref d)); [|assumption|assumption]. apply inj_ty. Qed.
End Final.
