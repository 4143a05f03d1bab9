(** Upgrading through an intermediate version.  Proofs. *)

From Verif Require Import Base BaseL Prog ProgL Prim Ty Ser Typed Mig Parts Evol EvolL DiscL SortL RtL RtId RollL Steps.
From Coq Require Import List NArith ZArith Bool Lia Permutation Sorted Setoid.
Import ListNotations.
Open Scope N_scope.

Section Carry.
Variables (E E' : env).
Hypothesis W : wf_env E.
Hypothesis L : same_libraries E E'.
Variables (recW : N -> val -> Prop) (rec : N -> val -> res val).

Lemma lib_cmp : forall t, e_cmp E' t = e_cmp E t.
Proof. intros. destruct L as (-> & _). reflexivity. Qed.

(** Built-in types are not changed. *)
Lemma mig_plain : forall t v, ty_all built_in t = true -> wt_ty E recW t v -> mig_ty E E' rec t v = Ok v.
Proof.
  rewrite (mig_ty_lib E E' rec L).
  induction t as [|i| | | | | | | | | |a IHa b IHb|t IH|t IH|n t IH|t IH|a IHa b IHb|t IH|k a IHa b IHb|k t IH|t IH|t IH| | |c m t IH|n];
    intros v Hb Hw; cbn [ty_all] in Hb; apply andb_prop in Hb; destruct Hb as [Hb0 Hb];
    cbn [mig_ty] in *; try (destruct v; reflexivity).
  - destruct v; cbn in Hw; try contradiction. destruct Hw as (_ & _ & ->). reflexivity.
  - apply andb_prop in Hb. destruct Hb as [B1 B2]. destruct v; cbn in Hw; try contradiction.
    rewrite (IHa _ B1 (proj1 Hw)). cbn. rewrite (IHb _ B2 (proj2 Hw)). reflexivity.
  - destruct v; cbn [wt_ty] in Hw; try contradiction. destruct Hw as (_ & _ & Hf). rewrite Forall_forall in Hf.
    rewrite rmapM_id; [reflexivity|]. intros x Hx. auto.
  - destruct v; cbn [wt_ty] in Hw; try contradiction. destruct Hw as (_ & Hf). rewrite Forall_forall in Hf.
    rewrite rmapM_id; [reflexivity|]. intros x Hx. auto.
  - destruct v; cbn [wt_ty] in Hw; try contradiction. destruct Hw as (_ & Hf). rewrite Forall_forall in Hf.
    rewrite rmapM_id; [reflexivity|]. intros x Hx. auto.
  - destruct v as [| | | | | |k l]; cbn [wt_ty] in Hw; try contradiction.
    destruct k as [|[p|p|]]; try contradiction; destruct l as [|x [|y l]]; try contradiction; [reflexivity|].
    cbn [rmapM]. rewrite (IH _ Hb Hw). reflexivity.
  - apply andb_prop in Hb. destruct Hb as [B1 B2]. destruct v as [| | | | | |k l]; cbn [wt_ty] in Hw; try contradiction.
    destruct k as [|[p|p|]]; try contradiction; destruct l as [|x [|y l]]; try contradiction.
    + cbn [rmapM]. change (0 =? 0) with true. cbv iota. rewrite (IHa _ B1 Hw). reflexivity.
    + cbn [rmapM]. change (1 =? 0) with false. cbv iota. rewrite (IHb _ B2 Hw). reflexivity.
  - destruct v as [| | | | | |k l]; cbn [wt_ty] in Hw; try contradiction.
    destruct k as [|[p|[p|p|]|]]; try contradiction; destruct l as [|x [|y l]]; try contradiction; [reflexivity| |];
    (cbn [rmapM]; rewrite (IH _ Hb Hw); reflexivity).
  - apply andb_prop in Hb. destruct Hb as [B1 B2]. destruct v; cbn [wt_ty] in Hw; try contradiction. destruct Hw as (_ & Hf & Hsort).
    pose proof (iter_perm E W k (TMap k a b) l) as P. rewrite rmapM_id.
    + cbn [rbind]. do 2 f_equal. apply cbuild_perm; [apply cmp_order; exact W|assumption|assumption].
    + intros p Hp. apply (Permutation_in _ P) in Hp. rewrite Forall_forall in Hf. specialize (Hf p Hp).
      destruct p; try contradiction. cbn [mig_entry]. rewrite (IHa _ B1 (proj1 Hf)). cbn. rewrite (IHb _ B2 (proj2 Hf)). reflexivity.
  - destruct v; cbn [wt_ty] in Hw; try contradiction. destruct Hw as (_ & Hf & Hsort).
    pose proof (iter_perm E W k (TSet k t) l) as P. rewrite rmapM_id.
    + cbn [rbind]. do 2 f_equal. apply cbuild_perm; [apply cmp_order; exact W|assumption|assumption].
    + intros p Hp. apply (Permutation_in _ P) in Hp. rewrite Forall_forall in Hf. auto.
  - destruct v; cbn [wt_ty] in Hw; try contradiction. destruct Hw as (_ & Hf & Hsort).
    pose proof (we_iter _ W (THeap t) l) as P. rewrite rmapM_id.
    + cbn [rbind]. do 2 f_equal. apply ssort_unique; [apply vcmp_order|intros x y; apply vcmp_is_eq|assumption|assumption].
    + intros p Hp. apply (Permutation_in _ P) in Hp. rewrite Forall_forall in Hf. auto.
  - destruct v; eapply IH; eauto.
  - destruct v as [| | | |x y| |]; cbn in Hw; try contradiction. destruct x; try contradiction. destruct y; try contradiction.
    destruct Hw as [Hw _]. apply Z.leb_le in Hw. rewrite Hw. reflexivity.
  - assert (Hx : wt_ty E recW t v /\ e_ext E c v = Some v) by (destruct v; exact Hw).
    destruct Hx as [Hx1 Hx2]. assert (Hz := IH _ Hb Hx1). destruct v; rewrite Hz; cbn; rewrite Hx2; reflexivity.
  - discriminate.
Qed.

Notation Ro := (fun n x y => rec n x = Ok y).
Notation entry b := (fun p q => match p, q with VPair k x, VPair k' y => k' = k /\ carried Ro b x y | _, _ => False end).

Lemma perm_forall2 : forall A B (R : A -> B -> Prop) l l', Permutation l l' -> forall m, Forall2 R l m ->
  exists m', Permutation m m' /\ Forall2 R l' m'.
Proof.
  intros A B R l l' P. induction P as [|x l l' P IH|x y l|l l' l'' P1 IH1 P2 IH2]; intros m H.
  - inversion H; subst. exists []. auto.
  - inversion H as [|? y ? m0 Hx Hm]; subst. destruct (IH _ Hm) as (m' & P' & H'). exists (y :: m'). split; [constructor; exact P'|constructor; auto].
  - inversion H as [|? a ? m0 Hx Hm]; subst. inversion Hm as [|? b ? m1 Hy Hm1]; subst. exists (b :: a :: m1). split; [apply perm_swap|]. repeat constructor; auto.
  - destruct (IH1 _ H) as (m1 & Q1 & H1). destruct (IH2 _ H1) as (m2 & Q2 & H2). exists m2. split; [etransitivity; eassumption|exact H2].
Qed.
(** Equal keys: the images of a sorted list are sorted. *)
Lemma keys_sorted : forall (c : val -> val -> comparison) (R : val -> val -> Prop) l l',
  (forall p q, R p q -> pkey q = pkey p) -> Forall2 R l l' ->
  StronglySorted (fun p q => c (pkey p) (pkey q) = Lt) l -> StronglySorted (fun p q => c (pkey p) (pkey q) = Lt) l'.
Proof.
  intros c R l l' HR H. induction H as [|p q l l' Hp H IH]; intros S; [constructor|].
  inversion S as [|? ? S1 S2]; subst. constructor; [apply IH; exact S1|]. rewrite (HR _ _ Hp). clear - S2 H HR.
  induction H as [|p0 q0 l l' Hp H IH]; [constructor|]. inversion S2; subst. constructor; [rewrite (HR _ _ Hp); assumption|auto].
Qed.
Lemma entry_key : forall b p q, entry b p q -> pkey q = pkey p.
Proof. intros b [] [] H; cbn in *; try contradiction. apply H. Qed.

(** Maps, in whatever order the entries [es] are visited. *)
Lemma map_out : forall a b upd l es es', Forall (fun p => match p with VPair x y => wt_ty E recW a x /\ wt_ty E recW b y | _ => False end) l ->
  StronglySorted (fun p q => e_cmp E a (pkey p) (pkey q) = Lt) l -> Permutation es l -> Forall2 (entry b) es es' ->
  Forall2 (entry b) l (cbuild (e_cmp E' a) pkey upd es').
Proof.
  intros a b upd l es es' Hf Hs P H. destruct (perm_forall2 _ _ _ _ _ P _ H) as (l' & P' & H').
  rewrite lib_cmp, (cbuild_perm (e_cmp E a) pkey upd (cmp_order E W a) l' es'); [exact H'| |exact P'].
  eapply keys_sorted; [|exact H'|exact Hs]. apply entry_key.
Qed.
Lemma map_in : forall a b upd l es l', StronglySorted (fun p q => e_cmp E a (pkey p) (pkey q) = Lt) l -> Permutation es l ->
  Forall2 (entry b) l l' -> exists es', Forall2 (entry b) es es' /\ cbuild (e_cmp E' a) pkey upd es' = l'.
Proof.
  intros a b upd l es l' Hs P H. destruct (perm_forall2 _ _ _ _ _ (Permutation_sym P) _ H) as (es' & P' & H').
  exists es'. split; [exact H'|]. rewrite lib_cmp. apply (cbuild_perm (e_cmp E a) pkey upd (cmp_order E W a) l' es').
  - eapply keys_sorted; [|exact H|exact Hs]. apply entry_key.
  - apply Permutation_sym. exact P'.
Qed.

Lemma forall2_iff : forall A B (P Q : A -> B -> Prop) l m, (forall x y, In x l -> (P x y <-> Q x y)) -> (Forall2 P l m <-> Forall2 Q l m).
Proof.
  intros A B P Q l m H. split; intros F; revert H; induction F as [|x y l m Hx F IH]; intros H; constructor; try (apply H; [left; reflexivity|assumption]);
    apply IH; intros; apply H; right; assumption.
Qed.
Lemma seq_iff : forall t l (R : val -> val -> Prop) v', (forall x y, In x l -> (mig_ty E E' rec t x = Ok y <-> R x y)) ->
  (rbind (rmapM (mig_ty E E' rec t) l) (fun l' => Ok (VSeq l')) = Ok v' <-> exists l', v' = VSeq l' /\ Forall2 R l l').
Proof.
  intros t l R v' H. split.
  - intros Hm. apply rbind_ok in Hm. destruct Hm as (l' & Hm & Hv). apply Ok_inj in Hv. exists l'. split; [auto|].
    apply rmapM_ok in Hm. eapply forall2_iff; [|exact Hm]. intros; symmetry; auto.
  - intros (l' & -> & F). replace (rmapM (mig_ty E E' rec t) l) with (Ok l'); [reflexivity|]. symmetry. apply rmapM_ok.
    eapply forall2_iff; [|exact F]. auto.
Qed.
Lemma one_iff : forall (mg : val -> res val) (R : val -> val -> Prop) k x v', (forall y, mg x = Ok y <-> R x y) ->
  (rbind (rmapM mg [x]) (fun l' => Ok (VVar k l')) = Ok v' <-> exists y, v' = VVar k [y] /\ R x y)
  /\ (rbind (rewrap (rmapM mg [x])) (fun l' => Ok (VVar k l')) = Ok v' <-> exists y, v' = VVar k [y] /\ R x y).
Proof.
  intros mg R k x v' H. cbn [rmapM]. split.
  - split.
    + intros Hm. destruct (mg x) as [y|e|p] eqn:Ey; cbn in Hm; try discriminate. apply Ok_inj in Hm. exists y. split; [auto|]. apply H. reflexivity.
    + intros (y & -> & Hy). apply H in Hy. rewrite Hy. reflexivity.
  - split.
    + intros Hm. destruct (mg x) as [y|e|p] eqn:Ey; cbn in Hm; try discriminate. apply Ok_inj in Hm. exists y. split; [auto|]. apply H. reflexivity.
    + intros (y & -> & Hy). apply H in Hy. rewrite Hy. reflexivity.
Qed.
Lemma entry_iff : forall a b x y q, ty_all built_in a = true -> wt_ty E recW a x ->
  (forall y', mig_ty E E' rec b y = Ok y' <-> carried Ro b y y') ->
  (mig_entry (mig_ty E E' rec a) (mig_ty E E' rec b) (VPair x y) = Ok q <-> entry b (VPair x y) q).
Proof.
  intros a b x y q Ha Hx Hb. cbn [mig_entry]. rewrite (mig_plain a x Ha Hx). cbn [rbind]. split.
  - intros H. apply rbind_ok in H. destruct H as (y' & Hy & H). apply Ok_inj in H. subst q. split; [reflexivity|]. apply Hb. exact Hy.
  - destruct q; try contradiction. intros [-> H]. apply Hb in H. rewrite H. reflexivity.
Qed.

Lemma mig_carried : forall t v v', plain_keys t = true -> wt_ty E recW t v -> (mig_ty E E' rec t v = Ok v' <-> carried Ro t v v').
Proof.
  assert (PL : forall t v v', ty_all built_in t = true -> wt_ty E recW t v -> (mig_ty E E' rec t v = Ok v' <-> v' = v)).
  { intros t v v' Hb Hw. rewrite (mig_plain t v Hb Hw). split; [intros H; apply Ok_inj in H; auto|intros ->; reflexivity]. }
  assert (SEQ : forall (R : val -> val -> Prop) l v', (exists l', v' = VSeq l' /\ Forall2 R l l') <->
            match v' with VSeq l' => Forall2 R l l' | _ => v' = VSeq l end).
  { intros R l v'. split; [intros (l' & -> & F); exact F|]. destruct v'; try discriminate. eauto. }
  induction t as [|i| | | | | | | | | |a IHa b IHb|t IH|t IH|n t IH|t IH|a IHa b IHb|t IH|k a IHa b IHb|k t IH|t IH|t IH| | |c m t IH|n];
    intros v v' Hb Hw; try (pose proof (fun h => PL _ v v' h Hw) as PL'; rewrite (PL' eq_refl); destruct v; cbn [carried]; reflexivity); cbn [plain_keys] in Hb.
  - apply andb_prop in Hb. destruct Hb as [B1 B2]. destruct v as [| | | |x y| |]; cbn in Hw; try contradiction. cbn [mig_ty]. split.
    + intros H. apply rbind_ok in H. destruct H as (x' & Hx & H). apply rbind_ok in H. destruct H as (y' & Hy & H). apply Ok_inj in H. subst v'.
      split; [apply IHa; tauto|apply IHb; tauto].
    + destruct v' as [| | | |x' y'| |]; cbn [carried]; try discriminate. intros [Hx Hy]. apply IHa in Hx; try tauto. apply IHb in Hy; try tauto.
      rewrite Hx. cbn [rbind]. rewrite Hy. reflexivity.
  - destruct v as [| | | | |l|]; cbn [wt_ty] in Hw; try contradiction. destruct Hw as (_ & _ & Hf). rewrite Forall_forall in Hf.
    cbn [mig_ty]. rewrite (seq_iff t l (carried Ro t)) by (intros; apply IH; auto). rewrite SEQ. destruct v'; reflexivity.
  - destruct v as [| | | | |l|]; cbn [wt_ty] in Hw; try contradiction. destruct Hw as (_ & Hf). rewrite Forall_forall in Hf.
    cbn [mig_ty]. rewrite (seq_iff t l (carried Ro t)) by (intros; apply IH; auto). rewrite SEQ. destruct v'; reflexivity.
  - destruct v as [| | | | |l|]; cbn [wt_ty] in Hw; try contradiction. destruct Hw as (_ & Hf). rewrite Forall_forall in Hf.
    cbn [mig_ty]. rewrite (seq_iff t l (carried Ro t)) by (intros; apply IH; auto). rewrite SEQ. destruct v'; reflexivity.
  - assert (V0 : forall k, rbind (rmapM (mig_ty E E' rec t) []) (fun l' => Ok (VVar k l')) = Ok v' <-> match v' with VVar k' l' => k' = k /\ Forall2 (carried Ro t) [] l' | _ => v' = VVar k [] end).
    { intros k. cbn [rmapM rbind]. split; [intros H; apply Ok_inj in H; subst v'; auto|].
      destruct v'; try discriminate. intros [-> H]. inversion H; subst. reflexivity. }
    assert (V1 : forall k x, (exists y, v' = VVar k [y] /\ carried Ro t x y) <-> match v' with VVar k' l' => k' = k /\ Forall2 (carried Ro t) [x] l' | _ => v' = VVar k [x] end).
    { intros k x. split; [intros (y & -> & H); auto|]. destruct v' as [| | | | | |k' l']; try discriminate. intros [-> H].
      inversion H as [|? y ? m Hx Hm]; subst. inversion Hm; subst. eauto. }
    destruct v as [| | | | | |k l]; cbn [wt_ty] in Hw; try contradiction. cbn [mig_ty carried].
    destruct k as [|[p|p|]]; try contradiction; destruct l as [|x [|y l]]; try contradiction; [apply V0|].
    rewrite (proj1 (one_iff (mig_ty E E' rec t) (carried Ro t) 1 x v' (fun y => IH x y Hb Hw))). apply V1.
  - apply andb_prop in Hb. destruct Hb as [B1 B2].
    assert (V1 : forall (R : val -> val -> Prop) k x, (exists y, v' = VVar k [y] /\ R x y) <-> match v' with VVar k' l' => k' = k /\ Forall2 R [x] l' | _ => v' = VVar k [x] end).
    { intros R k x. split; [intros (y & -> & H); auto|]. destruct v' as [| | | | | |k' l']; try discriminate. intros [-> H].
      inversion H as [|? y ? m Hx Hm]; subst. inversion Hm; subst. eauto. }
    destruct v as [| | | | | |k l]; cbn [wt_ty] in Hw; try contradiction. cbn [mig_ty carried].
    destruct k as [|[p|p|]]; try contradiction; destruct l as [|x [|y l]]; try contradiction.
    + rewrite (proj2 (one_iff (fun x => if 0 =? 0 then mig_ty E E' rec a x else mig_ty E E' rec b x) (fun x y => if 0 =? 0 then carried Ro a x y else carried Ro b x y) 0 x v' (fun y => IHa x y B1 Hw))). apply V1.
    + rewrite (proj2 (one_iff (fun x => if 1 =? 0 then mig_ty E E' rec a x else mig_ty E E' rec b x) (fun x y => if 1 =? 0 then carried Ro a x y else carried Ro b x y) 1 x v' (fun y => IHb x y B2 Hw))). apply V1.
  - assert (V0 : forall k, rbind (rewrap (rmapM (mig_ty E E' rec t) [])) (fun l' => Ok (VVar k l')) = Ok v' <-> match v' with VVar k' l' => k' = k /\ Forall2 (carried Ro t) [] l' | _ => v' = VVar k [] end).
    { intros k. cbn [rmapM rewrap rbind]. split; [intros H; apply Ok_inj in H; subst v'; auto|].
      destruct v'; try discriminate. intros [-> H]. inversion H; subst. reflexivity. }
    assert (V1 : forall k x, (exists y, v' = VVar k [y] /\ carried Ro t x y) <-> match v' with VVar k' l' => k' = k /\ Forall2 (carried Ro t) [x] l' | _ => v' = VVar k [x] end).
    { intros k x. split; [intros (y & -> & H); auto|]. destruct v' as [| | | | | |k' l']; try discriminate. intros [-> H].
      inversion H as [|? y ? m Hx Hm]; subst. inversion Hm; subst. eauto. }
    destruct v as [| | | | | |k l]; cbn [wt_ty] in Hw; try contradiction. cbn [mig_ty carried].
    destruct k as [|[p|[p|p|]|]]; try contradiction; destruct l as [|x [|y l]]; try contradiction; [apply V0| |].
    + rewrite (proj2 (one_iff (mig_ty E E' rec t) (carried Ro t) 2 x v' (fun y => IH x y Hb Hw))). apply V1.
    + rewrite (proj2 (one_iff (mig_ty E E' rec t) (carried Ro t) 1 x v' (fun y => IH x y Hb Hw))). apply V1.
  - apply andb_prop in Hb. destruct Hb as [B1 B2]. destruct v as [| | | | |l|]; cbn [wt_ty] in Hw; try contradiction. destruct Hw as (_ & Hf & Hsort).
    pose proof (iter_perm E W k (TMap k a b) l) as P.
    assert (EN : forall p q, In p (citer E k (TMap k a b) l) -> (mig_entry (mig_ty E E' rec a) (mig_ty E E' rec b) p = Ok q <-> entry b p q)).
    { intros p q Hp. apply (Permutation_in _ P) in Hp. pose proof Hf as Hf'. rewrite Forall_forall in Hf'. specialize (Hf' p Hp). destruct p; try contradiction.
      apply entry_iff; try tauto. intros; apply IHb; tauto. }
    cbn [mig_ty]. split.
    + intros H. apply rbind_ok in H. destruct H as (es' & H & Hv). apply Ok_inj in Hv. subst v'. cbn [carried].
      apply rmapM_ok in H. eapply map_out; [exact Hf|exact Hsort|exact P|]. eapply forall2_iff; [|exact H]. intros; symmetry; auto.
    + destruct v' as [| | | | |l'|]; cbn [carried]; try discriminate. intros H.
      destruct (map_in a b (match k with KHash => upd_insert | KOrd => upd_last end) l (citer E k (TMap k a b) l) l' Hsort P H) as (es' & He & Hc).
      replace (rmapM (mig_entry (mig_ty E E' rec a) (mig_ty E E' rec b)) (citer E k (TMap k a b) l)) with (Ok es').
      * cbn [rbind]. rewrite Hc. reflexivity.
      * symmetry. apply rmapM_ok. eapply forall2_iff; [|exact He]. auto.
  - assert (Hp : ty_all built_in (TSet k t) = true) by exact Hb. rewrite (PL _ v v' Hp Hw). destruct v; cbn [carried]; reflexivity.
  - assert (Hp : ty_all built_in (THeap t) = true) by exact Hb. rewrite (PL _ v v' Hp Hw). destruct v; cbn [carried]; reflexivity.
  - specialize (IH v v' Hb). destruct v; apply IH; exact Hw.
  - assert (Hp : ty_all built_in (TExt c m t) = true) by exact Hb. rewrite (PL _ v v' Hp Hw). destruct v; cbn [carried]; reflexivity.
  - destruct v; reflexivity.
Qed.

Variable se : ty -> val -> ser.
Lemma table_iff : forall (es es' : list val) (f g : val -> res val),
  (forall p, In p es -> exists x y, p = VPair x y) ->
  (rmapM (mig_entry f g) es = Ok es' <->
   rbind (rmapM (fun p => f (pkey p)) es) (fun ks => rbind (rmapM (fun p => g (pval p)) es) (fun vs =>
     Ok (map (fun p => VPair (fst p) (snd p)) (combine ks vs)))) = Ok es').
Proof.
  intros es es' f g. revert es'. induction es as [|p es IH]; intros es' H; cbn [rmapM rbind]; [reflexivity|].
  destruct (H p (or_introl eq_refl)) as (x & y & ->). assert (IH' := fun e => IH e (fun q Hq => H q (or_intror Hq))). clear IH H. cbn [pkey pval mig_entry].
  destruct (f x) as [x'|e|z]; cbn [rbind]; [|split; discriminate|split; discriminate]. split.
  - intros H. apply rbind_ok in H. destruct H as (p & Hp & H). apply rbind_ok in H. destruct H as (m & Hm & H). apply Ok_inj in H. subst es'.
    apply rbind_ok in Hp. destruct Hp as (y' & Hy & Hp). apply Ok_inj in Hp. subst p. rewrite Hy. apply IH' in Hm.
    apply rbind_ok in Hm. destruct Hm as (ks & Hk & Hm). apply rbind_ok in Hm. destruct Hm as (vs & Hv & Hm). apply Ok_inj in Hm. subst m.
    rewrite Hk. cbn [rbind]. rewrite Hv. reflexivity.
  - intros H. apply rbind_ok in H. destruct H as (ks0 & Hk & H). apply rbind_ok in Hk. destruct Hk as (ks & Hk & Hk0). apply Ok_inj in Hk0. subst ks0.
    apply rbind_ok in H. destruct H as (vs0 & Hv & H). destruct (g y) as [y'|e|z]; cbn [rbind] in Hv; try discriminate.
    apply rbind_ok in Hv. destruct Hv as (vs & Hv & Hv0). apply Ok_inj in Hv0. subst vs0. apply Ok_inj in H. subst es'. cbn [rbind].
    specialize (IH' (map (fun p => VPair (fst p) (snd p)) (combine ks vs))). rewrite Hk in IH'. cbn [rbind] in IH'. rewrite Hv in IH'. cbn [rbind] in IH'.
    rewrite (proj2 IH' eq_refl). reflexivity.
Qed.
Lemma mig_mode_plain : forall m t v, m <> MIdxMap -> m <> MIdxSet -> mig_mode E E' rec se m t v = mig_ty E E' rec t v.
Proof. intros m t v H1 H2. unfold mig_mode. destruct m; try contradiction; destruct t, v; reflexivity. Qed.
(** The encoded keys put the entries of indexed maps and sets in some order. *)
Definition ordered (m : fmode) (t : ty) (v : val) : Prop :=
  match m, t, v with
  | MIdxMap, TMap k a b, VSeq l => exists es, by_bytes (fun p => ser_bytes (se a (pkey p))) (citer E k t l) = Ok es
  | MIdxSet, TSet k t', VSeq l => exists es, by_bytes (fun x => ser_bytes (se t' x)) (citer E k t l) = Ok es
  | _, _, _ => True
  end.
Lemma mode_carried : forall m t v v', plain_keys t = true -> wt_ty E recW t v ->
  (mig_mode E E' rec se m t v = Ok v' <-> ordered m t v /\ carried Ro t v v').
Proof.
  intros m t v v' Hb Hw.
  assert (PLAIN : m <> MIdxMap -> m <> MIdxSet -> (mig_mode E E' rec se m t v = Ok v' <-> ordered m t v /\ carried Ro t v v')).
  { intros H1 H2. rewrite (mig_mode_plain m t v H1 H2), (mig_carried t v v' Hb Hw). unfold ordered. destruct m; tauto. }
  destruct m; try (apply PLAIN; discriminate); clear PLAIN.
  - assert (NM : (forall k a b, t <> TMap k a b) -> (mig_mode E E' rec se MIdxMap t v = Ok v' <-> ordered MIdxMap t v /\ carried Ro t v v')).
    { intros HN. replace (mig_mode E E' rec se MIdxMap t v) with (mig_ty E E' rec t v) by (destruct t, v; try reflexivity; elim (HN _ _ _ eq_refl)).
      rewrite (mig_carried t v v' Hb Hw). assert (ordered MIdxMap t v) by (destruct t; try exact I; elim (HN _ _ _ eq_refl)). tauto. }
    destruct t as [| | | | | | | | | | | | | | | | | |k a b| | | | | | |]; try (apply NM; discriminate). clear NM.
    destruct v as [| | | | |l|]; try contradiction. cbn [plain_keys] in Hb. apply andb_prop in Hb. destruct Hb as [B1 B2].
    cbn [wt_ty] in Hw. destruct Hw as (_ & Hf & Hsort). cbn [mig_mode ordered].
    assert (P0 := iter_perm E W k (TMap k a b) l).
    destruct (by_bytes (fun p => ser_bytes (se a (pkey p))) (citer E k (TMap k a b) l)) as [es|e|x] eqn:Eb; cbn [rbind];
      [|split; [discriminate|intros [[es H] _]; discriminate]|split; [discriminate|intros [[es H] _]; discriminate]].
    assert (P : Permutation es l) by (rewrite (by_bytes_perm _ _ _ Eb); exact P0). clear P0 Eb.
    assert (HP : forall p, In p es -> exists x y, p = VPair x y /\ wt_ty E recW a x /\ wt_ty E recW b y).
    { intros p Hp. apply (Permutation_in _ P) in Hp. rewrite Forall_forall in Hf. specialize (Hf p Hp). destruct p; try contradiction. eauto. }
    assert (EN : forall p q, In p es -> (mig_entry (mig_ty E E' rec a) (mig_ty E E' rec b) p = Ok q <-> entry b p q)).
    { intros p q Hp. destruct (HP p Hp) as (x & y & -> & Hx & Hy). apply entry_iff; try tauto. intros; apply mig_carried; tauto. }
    assert (ES : forall es', (if len l <? OFFSET_TABLE_MIN_LEN then rmapM (mig_entry (mig_ty E E' rec a) (mig_ty E E' rec b)) es
             else rbind (rmapM (fun p => mig_ty E E' rec a (pkey p)) es) (fun ks =>
                  rbind (rmapM (fun p => mig_ty E E' rec b (pval p)) es) (fun vs =>
                  Ok (map (fun p => VPair (fst p) (snd p)) (combine ks vs))))) = Ok es' <-> Forall2 (entry b) es es').
    { intros es'. transitivity (rmapM (mig_entry (mig_ty E E' rec a) (mig_ty E E' rec b)) es = Ok es').
      - destruct (len l <? OFFSET_TABLE_MIN_LEN); [reflexivity|]. symmetry. apply table_iff. intros p Hp. destruct (HP p Hp) as (x & y & -> & _). eauto.
      - rewrite rmapM_ok. apply forall2_iff. exact EN. }
    split.
    + intros H. apply rbind_ok in H. destruct H as (es' & H & Hv). apply Ok_inj in Hv. subst v'. split; [eauto|]. cbn [carried].
      apply ES in H. eapply map_out; [exact Hf|exact Hsort|exact P|exact H].
    + intros [_ H]. destruct v' as [| | | | |l'|]; cbn [carried] in H; try discriminate.
      destruct (map_in a b upd_insert l es l' Hsort P H) as (es' & He & Hc). apply ES in He. rewrite He. cbn [rbind]. rewrite Hc. reflexivity.
  - assert (NM : (forall k a, t <> TSet k a) -> (mig_mode E E' rec se MIdxSet t v = Ok v' <-> ordered MIdxSet t v /\ carried Ro t v v')).
    { intros HN. replace (mig_mode E E' rec se MIdxSet t v) with (mig_ty E E' rec t v) by (destruct t, v; try reflexivity; elim (HN _ _ eq_refl)).
      rewrite (mig_carried t v v' Hb Hw). assert (ordered MIdxSet t v) by (destruct t; try exact I; elim (HN _ _ eq_refl)). tauto. }
    destruct t as [| | | | | | | | | | | | | | | | | | |k t| | | | | |]; try (apply NM; discriminate). clear NM.
    destruct v as [| | | | |l|]; try contradiction. cbn [plain_keys] in Hb.
    cbn [wt_ty] in Hw. destruct Hw as (_ & Hf & Hsort). cbn [mig_mode ordered].
    assert (P0 := iter_perm E W k (TSet k t) l).
    destruct (by_bytes (fun x => ser_bytes (se t x)) (citer E k (TSet k t) l)) as [es|e|x] eqn:Eb; cbn [rbind];
      [|split; [discriminate|intros [[es H] _]; discriminate]|split; [discriminate|intros [[es H] _]; discriminate]].
    assert (P : Permutation es l) by (rewrite (by_bytes_perm _ _ _ Eb); exact P0). clear P0 Eb.
    rewrite rmapM_id.
    + cbn [rbind]. rewrite lib_cmp, (cbuild_perm _ _ _ (cmp_order E W t) l es Hsort P).
      split; [intros H; apply Ok_inj in H; subst v'; cbn; eauto|]. intros [_ H]. cbn [carried] in H. subst v'. reflexivity.
    + intros x Hx. apply (Permutation_in _ P) in Hx. rewrite Forall_forall in Hf. apply mig_plain; auto.
Qed.
End Carry.

(** ** Two steps *)

Lemma carried_trans : forall E1 E2 W1 W2 (R12 R23 R13 : N -> val -> val -> Prop),
  (forall n x y z, (W1 n x : Prop) -> (W2 n y : Prop) -> R12 n x y -> R23 n y z -> R13 n x z) ->
  forall t v1 v2 v3, wt_ty E1 W1 t v1 -> wt_ty E2 W2 t v2 -> carried R12 t v1 v2 -> carried R23 t v2 v3 -> carried R13 t v1 v3.
Proof.
  intros E1 E2 W1 W2 R12 R23 R13 HR.
  assert (FF : forall (P Q S : val -> val -> Prop) (X Y : val -> Prop) l m n, (forall x y z, X x -> Y y -> P x y -> Q y z -> S x z) ->
     Forall X l -> Forall Y m -> Forall2 P l m -> Forall2 Q m n -> Forall2 S l n).
  { intros P Q S X Y l m n H HX HY HP. revert n HX HY. induction HP as [|x y l m Hp HP IH]; intros n HX HY HQ; inversion HQ; subst; constructor.
    - inversion HX; inversion HY; subst. eauto.
    - inversion HX; inversion HY; subst. auto. }
  induction t as [|i| | | | | | | | | |a IHa b IHb|t IH|t IH|n t IH|t IH|a IHa b IHb|t IH|k a IHa b IHb|k t IH|t IH|t IH| | |c m t IH|n];
    intros v1 v2 v3 H1 H2 C1 C2;
    try (destruct v1; cbn [wt_ty] in H1; try contradiction; cbn [carried] in C1; subst v2; cbn [carried] in *; assumption).
  - destruct v1; try contradiction. destruct v2; try contradiction. destruct v3; cbn [carried] in *; try discriminate.
    destruct H1, H2, C1, C2. split; eauto.
  - destruct v1; try contradiction. destruct v2; try contradiction. destruct v3; cbn [carried] in *; try discriminate.
    destruct H1 as (_ & _ & H1). destruct H2 as (_ & _ & H2). exact (FF _ _ _ _ _ _ _ _ IH H1 H2 C1 C2).
  - destruct v1; try contradiction. destruct v2; try contradiction. destruct v3; cbn [carried] in *; try discriminate.
    destruct H1 as (_ & H1). destruct H2 as (_ & H2). exact (FF _ _ _ _ _ _ _ _ IH H1 H2 C1 C2).
  - destruct v1; try contradiction. destruct v2; try contradiction. destruct v3; cbn [carried] in *; try discriminate.
    destruct H1 as (_ & H1). destruct H2 as (_ & H2). exact (FF _ _ _ _ _ _ _ _ IH H1 H2 C1 C2).
  - destruct v1 as [| | | | | |k l]; try contradiction. destruct v2 as [| | | | | |k2 l2]; try contradiction. destruct v3; cbn [carried] in *; try (destruct C1; discriminate); try discriminate.
    destruct C1 as [-> C1]. destruct C2 as [-> C2]. split; [reflexivity|].
    assert (Forall (wt_ty E1 W1 t) l /\ Forall (wt_ty E2 W2 t) l2) as [F1 F2].
    { cbn [wt_ty] in H1, H2. destruct k as [|[p|p|]]; try contradiction; destruct l as [|x [|y l]]; try contradiction; destruct l2 as [|x2 [|y2 l2]]; try contradiction; auto. }
    exact (FF _ _ _ _ _ _ _ _ IH F1 F2 C1 C2).
  - destruct v1 as [| | | | | |k l]; try contradiction. destruct v2 as [| | | | | |k2 l2]; try contradiction. destruct v3; cbn [carried] in *; try discriminate.
    destruct C1 as [-> C1]. destruct C2 as [-> C2]. split; [reflexivity|].
    cbn [wt_ty] in H1, H2. destruct k as [|[p|p|]]; try contradiction; destruct l as [|x [|y l]]; try contradiction; destruct l2 as [|x2 [|y2 l2]]; try contradiction.
    + exact (FF _ _ _ _ _ _ _ _ IHa (Forall_cons _ H1 (Forall_nil _)) (Forall_cons _ H2 (Forall_nil _)) C1 C2).
    + exact (FF _ _ _ _ _ _ _ _ IHb (Forall_cons _ H1 (Forall_nil _)) (Forall_cons _ H2 (Forall_nil _)) C1 C2).
  - destruct v1 as [| | | | | |k l]; try contradiction. destruct v2 as [| | | | | |k2 l2]; try contradiction. destruct v3; cbn [carried] in *; try discriminate.
    destruct C1 as [-> C1]. destruct C2 as [-> C2]. split; [reflexivity|].
    assert (Forall (wt_ty E1 W1 t) l /\ Forall (wt_ty E2 W2 t) l2) as [F1 F2].
    { cbn [wt_ty] in H1, H2. destruct k as [|[p|[p|p|]|]]; try contradiction; destruct l as [|x [|y l]]; try contradiction; destruct l2 as [|x2 [|y2 l2]]; try contradiction; auto. }
    exact (FF _ _ _ _ _ _ _ _ IH F1 F2 C1 C2).
  - destruct v1; try contradiction. destruct v2; try contradiction. destruct v3; cbn [carried] in *; try discriminate.
    destruct H1 as (_ & H1 & _). destruct H2 as (_ & H2 & _). refine (FF _ _ _ _ _ _ _ _ _ H1 H2 C1 C2).
    intros p q r Hp Hq Hpq Hqr. destruct p; try contradiction. destruct q; try contradiction. destruct r; try contradiction.
    destruct Hpq as [-> Hpq]. destruct Hqr as [-> Hqr]. split; [reflexivity|]. destruct Hp, Hq. eauto.
  - assert (H1' : wt_ty E1 W1 t v1) by (destruct v1; exact H1). assert (H2' : wt_ty E2 W2 t v2) by (destruct v2; exact H2).
    assert (C1' : carried R12 t v1 v2) by (destruct v1; exact C1). assert (C2' : carried R23 t v2 v3) by (destruct v2; exact C2).
    specialize (IH _ _ _ H1' H2' C1' C2'). destruct v1; exact IH.
  - assert (H1' : W1 n v1) by (destruct v1; exact H1). assert (H2' : W2 n v2) by (destruct v2; exact H2).
    assert (C1' : R12 n v1 v2) by (destruct v1; exact C1). assert (C2' : R23 n v2 v3) by (destruct v2; exact C2).
    assert (C3 := HR n _ _ _ H1' H2' C1' C2'). destruct v1; exact C3.
Qed.

Section Steps.
Variables (E1 E2 E3 : env).
Hypothesis HW1 : wf_env E1.
Hypothesis HW2 : wf_env E2.
Hypothesis HW3 : wf_env E3.
Hypothesis L12 : same_libraries E1 E2.
Hypothesis L23 : same_libraries E2 E3.

Lemma L13 : same_libraries E1 E3.
Proof. destruct L12 as (A & B & C & D), L23 as (A' & B' & C' & D'). repeat split; congruence. Qed.

Section Rec.
Variables (W1 W2 : N -> val -> Prop) (r12 r13 : N -> val -> res val) (d2 : nat) (se1 se2 : ty -> val -> ser).
Hypothesis HR : forall n x y z, W1 n x -> W2 n y -> r12 n x = Ok y -> mig_ref E2 E3 d2 n y = Ok z -> r13 n x = Ok z.
Notation r23 := (mig_ref E2 E3 d2).
Notation mig := (fun t x y => exists d, migrate E2 E3 d t x = Ok y).

Lemma mode_steps : forall m m2 t v v2 v3, plain_keys t = true -> wt_ty E1 W1 t v -> wt_ty E2 W2 t v2 ->
  mig_mode E1 E2 r12 se1 m t v = Ok v2 -> mig_mode E2 E3 r23 se2 m2 t v2 = Ok v3 -> mig_mode E1 E3 r13 se1 m t v = Ok v3.
Proof.
  intros m m2 t v v2 v3 Hk H1 H2 M1 M2.
  apply (mode_carried E1 E2 HW1 L12 W1 r12 se1 m t v v2 Hk H1) in M1. destruct M1 as [O1 C1].
  apply (mode_carried E2 E3 HW2 L23 W2 r23 se2 m2 t v2 v3 Hk H2) in M2. destruct M2 as [_ C2].
  apply (mode_carried E1 E3 HW1 L13 W1 r13 se1 m t v v3 Hk H1). split; [exact O1|].
  exact (carried_trans E1 E2 W1 W2 _ _ _ HR t v v2 v3 H1 H2 C1 C2).
Qed.

Lemma none_removed : forall E E' rec se opt cur tgt fs vs p, (forall f, In f fs -> falive cur f = true -> falive tgt f = true) ->
  mig_fields E E' rec se opt cur tgt fs vs = Ok p -> snd p = [].
Proof.
  intros E E' rec se opt cur tgt. induction fs as [|f fs IH]; intros vs p Ha H; cbn [mig_fields] in H.
  - destruct vs; [|discriminate]. apply Ok_inj in H. subst p. reflexivity.
  - assert (IH' := fun vs p => IH vs p (fun g Hg => Ha g (or_intror Hg))). specialize (Ha f (or_introl eq_refl)).
    destruct (falive cur f).
    + destruct vs as [|v vs]; [discriminate|]. apply rbind_ok in H. destruct H as (v' & _ & H). apply rbind_ok in H. destruct H as (q & Hq & H).
      rewrite (Ha eq_refl) in H. apply Ok_inj in H. subst p. cbn [snd]. eapply IH'; exact Hq.
    + destruct (falive tgt f).
      * apply rbind_ok in H. destruct H as (v' & _ & H). apply rbind_ok in H. destruct H as (q & Hq & H). apply Ok_inj in H. subst p. cbn [snd]. eapply IH'; exact Hq.
      * eapply IH'; exact H.
Qed.

Lemma fields_steps : forall opt opt2 q1 q2 q3 fs2 fs3, settled mig q1 q2 fs2 fs3 -> q1 <= q2 ->
  (forall f, In f fs2 -> falive q1 f = true -> falive q2 f = true) ->
  (forall f, In f fs3 -> falive q2 f = true -> falive q3 f = true) ->
  (forall f, In f fs2 -> plain_keys (f_ty f) = true) ->
  forall vs this2 this3, wt_fields E1 W1 q1 fs2 vs -> wt_fields E2 W2 q2 fs2 this2 ->
  mig_fields E1 E2 r12 se1 opt q1 q2 fs2 vs = Ok (this2, []) ->
  mig_fields E2 E3 r23 se2 opt2 q2 q3 fs3 this2 = Ok (this3, []) ->
  mig_fields E1 E3 r13 se1 opt q1 q3 fs3 vs = Ok (this3, []).
Proof.
  intros opt opt2 q1 q2 q3 fs2 fs3 S Hq.
  induction S as [|f f' fs fs' Hf D2 D3 S IH|f' fs fs' Hf D3 S IH]; intros A2 A3 K vs this2 this3 H1 H2 M1 M2.
  - cbn [mig_fields] in *. destruct vs; [|discriminate]. apply Ok_inj in M1. inversion M1; subst. exact M2.
  - assert (IH' := IH (fun g Hg => A2 g (or_intror Hg)) (fun g Hg => A3 g (or_intror Hg)) (fun g Hg => K g (or_intror Hg))). clear IH.
    assert (B2 := A2 f (or_introl eq_refl)). assert (B3 := A3 f' (or_introl eq_refl)). assert (Bk := K f (or_introl eq_refl)). clear A2 A3 K.
    assert (Hm : forall o, mode_of o f' = mode_of o f /\ f_ty f' = f_ty f).
    { intros o. destruct Hf as (F1 & F2 & F3 & F4 & F5 & _). split; [|exact F1]. unfold mode_of, mode_opt, mode_legacy. rewrite F3, F4, F5. reflexivity. }
    assert (Hl : forall x, x <= q2 -> falive x f' = falive x f).
    { intros x Hx. destruct Hf as (_ & F2 & _ & _ & _ & F6). unfold falive. rewrite F2. eapply exists_at_end; [exact F6|exact Hx]. }
    rewrite (Hl q2 (N.le_refl _)) in B3.
    cbn [mig_fields] in M1, M2 |- *. rewrite (Hl q2 (N.le_refl _)) in M2. rewrite (Hl q1 Hq).
    unfold wt_fields in H1, H2. cbn [filter] in H1, H2.
    destruct (falive q1 f) eqn:A1.
    + rewrite (B2 eq_refl) in *. rewrite (B3 eq_refl) in *.
      destruct vs as [|v vs]; [discriminate|]. inversion H1 as [|? ? ? ? Hv H1']; subst.
      apply rbind_ok in M1. destruct M1 as (v2 & Mv & M1). apply rbind_ok in M1. destruct M1 as ([t2 g2] & M1 & Me). apply Ok_inj in Me. inversion Me; subst. clear Me.
      inversion H2 as [|? ? ? ? Hv2 H2']; subst.
      apply rbind_ok in M2. destruct M2 as (v3 & Mv2 & M2). apply rbind_ok in M2. destruct M2 as ([t3 g3] & M2 & Me). apply Ok_inj in Me. inversion Me; subst. clear Me.
      cbn [fst snd] in *. subst.
      destruct (Hm opt) as [Hmo Hty]. destruct (Hm opt2) as [Hmo2 _]. rewrite Hmo, Hty. rewrite Hmo2, Hty in Mv2.
      rewrite (mode_steps _ _ _ _ _ _ Bk Hv Hv2 Mv Mv2). cbn [rbind].
      match goal with M2' : mig_fields E2 E3 _ _ _ _ _ _ t2 = Ok (t3, ?g), M1' : mig_fields E1 E2 _ _ _ _ _ _ vs = Ok (t2, ?g') |- _ => rewrite (IH' _ _ _ H1' H2' M1' M2') end.
      reflexivity.
    + destruct (falive q2 f) eqn:A2.
      * rewrite (B3 eq_refl) in *. apply rbind_ok in M1. destruct M1 as (v2 & Mv & M1). apply rbind_ok in M1. destruct M1 as ([t2 g2] & M1 & Me). apply Ok_inj in Me. inversion Me; subst. clear Me.
        inversion H2 as [|? ? ? ? Hv2 H2']; subst.
        apply rbind_ok in M2. destruct M2 as (v3 & Mv2 & M2). apply rbind_ok in M2. destruct M2 as ([t3 g3] & M2 & Me). apply Ok_inj in Me. inversion Me; subst. clear Me.
        cbn [fst snd] in *. subst.
        destruct (Hm opt2) as [Hmo2 Hty]. rewrite Hmo2, Hty in Mv2.
        apply (mode_carried E2 E3 HW2 L23 W2 r23 se2 (mode_of opt2 f) (f_ty f) v2 v3 Bk Hv2) in Mv2. destruct Mv2 as [_ Mv2].
        apply (mig_carried E2 E3 HW2 L23 W2 r23 (f_ty f) v2 v3 Bk Hv2) in Mv2.
        rewrite (D2 eq_refl eq_refl v2 v3 Mv (ex_intro _ d2 Mv2)). cbn [rbind].
        match goal with M2' : mig_fields E2 E3 _ _ _ _ _ _ t2 = Ok (t3, ?g), M1' : mig_fields E1 E2 _ _ _ _ _ _ vs = Ok (t2, ?g') |- _ => rewrite (IH' _ _ _ H1 H2' M1' M2') end.
        reflexivity.
      * destruct (falive q3 f').
        -- apply rbind_ok in M2. destruct M2 as (v3 & Mv2 & M2). apply rbind_ok in M2. destruct M2 as ([t3 g3] & M2 & Me). apply Ok_inj in Me. inversion Me; subst. clear Me.
           cbn [fst snd] in *. subst. rewrite (D3 eq_refl), Mv2. cbn [rbind]. rewrite (IH' _ _ _ H1 H2 M1 M2). reflexivity.
        -- exact (IH' _ _ _ H1 H2 M1 M2).
  - assert (IH' := IH A2 (fun g Hg => A3 g (or_intror Hg)) K). clear IH.
    assert (Hl : forall x, x <= q2 -> falive x f' = false) by (intros x Hx; apply exists_at_new; lia).
    cbn [mig_fields] in M2 |- *. rewrite (Hl q2 (N.le_refl _)) in M2. rewrite (Hl q1 Hq).
    destruct (falive q3 f').
    + apply rbind_ok in M2. destruct M2 as (v3 & Mv2 & M2). apply rbind_ok in M2. destruct M2 as ([t3 g3] & M2 & Me). apply Ok_inj in Me. inversion Me; subst. clear Me.
      cbn [fst snd] in *. subst. rewrite D3, Mv2. cbn [rbind]. rewrite (IH' _ _ _ H1 H2 M1 M2). reflexivity.
    + exact (IH' _ _ _ H1 H2 M1 M2).
Qed.

Lemma body_out : forall E E' rec se opt cur tgt fs vs l, (forall f, In f fs -> falive cur f = true -> falive tgt f = true) ->
  mig_body E E' rec se opt cur tgt fs vs = Ok l -> mig_fields E E' rec se opt cur tgt fs vs = Ok (l, []).
Proof.
  intros E E' rec se opt cur tgt fs vs l Ha H. unfold mig_body in H. apply rbind_ok in H. destruct H as ([t g] & Hm & H).
  pose proof (none_removed _ _ _ _ _ _ _ _ _ _ Ha Hm) as Hg. cbn [fst snd] in *. subst g. cbn [mig_converts] in H. apply Ok_inj in H. subst t. exact Hm.
Qed.
Lemma hist_le : forall s s', edit_schema s s' -> scur s <= scur s'.
Proof. intros s s' [(more & H) _]. unfold scur, len. rewrite H, app_length. lia. Qed.
Lemma edit_tys : forall r fs fs', edit_fields r fs fs' -> map f_ty (filter (falive r) fs) = map f_ty (filter (falive r) fs').
Proof.
  intros r fs fs' H. symmetry. pose proof (edit_wire_fields (fun f => (f_ty f, MPlain)) r fs fs') as G. apply plain_tys. apply G; [|exact H].
  intros f f' (-> & _). reflexivity.
Qed.
Lemma edit_variant_in : forall r vs vs' v, edit_variants r vs vs' -> In v vs -> exists v', In v' vs' /\ edit_variant r v v'.
Proof.
  intros r vs vs' v H. induction H as [|x x' vs vs' Hx H IH|x' vs vs' Hx H IH]; intros Hi; [destruct Hi| |].
  - destruct Hi as [->|Hi]; [exists x'; split; [left; reflexivity|exact Hx]|]. destruct (IH Hi) as (v' & H1 & H2). exists v'. split; [right; exact H1|exact H2].
  - destruct (IH Hi) as (v' & H1 & H2). exists v'. split; [right; exact H1|exact H2].
Qed.
Lemma settled_variant_in : forall m r1 r2 vs vs' v, settled_variants m r1 r2 vs vs' -> In v vs ->
  exists v', In v' vs' /\ edit_variant r2 v v' /\ settled m r1 r2 (v_fields v) (v_fields v').
Proof.
  intros m r1 r2 vs vs' v H. induction H as [|x x' vs vs' Hx Hs H IH|x' vs vs' Hx H IH]; intros Hi; [destruct Hi| |].
  - destruct Hi as [->|Hi]; [exists x'; split; [left; reflexivity|auto]|]. destruct (IH Hi) as (v' & H1 & H2). exists v'. split; [right; exact H1|exact H2].
  - destruct (IH Hi) as (v' & H1 & H2). exists v'. split; [right; exact H1|exact H2].
Qed.
Lemma find_by_name : forall vs vr, NoDup (map v_name vs) -> In vr vs -> find (fun x => v_name x =? v_name vr) vs = Some vr.
Proof.
  intros vs vr Hn Hi. apply find_some_uniq; [exact Hi|apply N.eqb_refl|]. intros y Hy Hk. apply N.eqb_eq in Hk.
  eapply NoDup_map_inj; [exact Hn|assumption|assumption|congruence].
Qed.

Definition lasts (s s' : schema) : Prop :=
  match s_body s' with
  | SStruct fs => forall f, In f fs -> falive (scur s) f = true -> falive (scur s') f = true
  | SEnum vs => forall v, In v vs -> valive (scur s) v = true ->
      valive (scur s') v = true /\ forall f, In f (v_fields v) -> falive (scur s) f = true -> falive (scur s') f = true
  end.
Lemma derived_steps : forall o1 o2 s1 s2 s3 v v2 v3,
  wf_schema s1 -> wf_schema s2 -> wf_schema s3 -> edit_schema s1 s2 -> lasts s1 s2 -> lasts s2 s3 ->
  fields_all (fun f => plain_keys (f_ty f)) s2 = true ->
  match s_body s2, s_body s3 with
  | SStruct fs, SStruct fs' => settled mig (scur s1) (scur s2) fs fs'
  | SEnum vs, SEnum vs' => settled_variants mig (scur s1) (scur s2) vs vs'
  | _, _ => False
  end ->
  wt_derived E1 W1 s1 v -> wt_derived E2 W2 s2 v2 ->
  mig_derived E1 E2 r12 se1 s2 (scur s1) o1 v = Ok v2 -> mig_derived E2 E3 r23 se2 s3 (scur s2) o2 v2 = Ok v3 ->
  mig_derived E1 E3 r13 se1 s3 (scur s1) o1 v = Ok v3.
Proof.
  intros o1 o2 s1 s2 s3 v v2 v3 F1 F2 F3 Hed T12 T23 Hk Hs H1 H2 M1 M2. pose proof (hist_le _ _ Hed) as Hle. destruct Hed as [_ Hed].
  unfold mig_derived, wt_derived, lasts, fields_all, edit_body in *.
  destruct F1 as (_ & _ & F1). destruct F2 as (_ & _ & F2). destruct F3 as (_ & _ & F3).
  destruct (s_body s2) as [fs2|vs2]; destruct (s_body s3) as [fs3|vs3]; try contradiction; destruct (s_body s1) as [fs1|vs1]; try contradiction.
  - destruct v as [| | | | |l|]; try contradiction. destruct v2 as [| | | | |l2|]; try contradiction.
    apply rbind_ok in M1. destruct M1 as (x2 & M1 & Me). apply Ok_inj in Me. inversion Me; subst x2. clear Me.
    apply rbind_ok in M2. destruct M2 as (l3 & M2 & Me). apply Ok_inj in Me. subst v3.
    apply body_out in M1; [|exact T12]. apply body_out in M2; [|exact T23].
    rewrite forallb_forall in Hk.
    assert (M3 := fields_steps o1 o2 _ _ _ _ _ Hs Hle T12 T23 Hk l l2 l3 (wire_wt _ _ _ _ _ _ (edit_tys _ _ _ Hed) H1) H2 M1 M2).
    unfold mig_body. rewrite M3. reflexivity.
  - destruct v as [| | | | | |k l]; try contradiction. destruct v2 as [| | | | | |k2 l2]; try contradiction.
    destruct H1 as (vr1 & I1 & N1 & A1 & H1). destruct F1 as (U1 & _). destruct F2 as (U2 & _). destruct F3 as (U3 & _).
    destruct (edit_variant_in _ _ _ _ Hed I1) as (vr2 & I2 & Ed12). pose proof Ed12 as (N2 & _ & _ & _ & _ & Ef12).
    assert (K2 : v_name vr2 = k) by congruence. clear N1 N2. subst k.
    rewrite (find_by_name _ _ U2 I2) in M1.
    assert (A2 : valive (scur s1) vr2 = true) by (rewrite (edit_valive _ _ _ Ed12); exact A1).
    destruct (T12 vr2 I2 A2) as [A22 T12']. rewrite A22 in M1.
    apply rbind_ok in M1. destruct M1 as (x2 & M1 & Me). apply Ok_inj in Me. inversion Me; subst x2. clear Me. subst k2.
    destruct H2 as (vr2' & I2' & N2' & _ & H2). assert (vr2' = vr2) by (apply (NoDup_map_inj _ _ v_name vs2); [exact U2|exact I2'|exact I2|congruence]). subst vr2'.
    destruct (settled_variant_in _ _ _ _ _ _ Hs I2) as (vr3 & I3 & Ed23 & S3). pose proof Ed23 as (N3 & _).
    assert (Ff : find (fun vr => v_name vr =? v_name vr2) vs3 = Some vr3) by (rewrite <- N3; apply find_by_name; assumption).
    rewrite Ff in M2 |- *. assert (A3 : valive (scur s2) vr3 = true) by (rewrite (edit_valive _ _ _ Ed23); exact A22).
    destruct (T23 vr3 I3 A3) as [A33 T23']. rewrite A33 in M2 |- *.
    apply rbind_ok in M2. destruct M2 as (l3 & M2 & Me). apply Ok_inj in Me. subst v3.
    apply body_out in M1; [|exact T12']. apply body_out in M2; [|exact T23'].
    rewrite forallb_forall in Hk. specialize (Hk vr2 I2). rewrite forallb_forall in Hk.
    assert (M3 := fields_steps false false _ _ _ _ _ S3 Hle T12' T23' Hk l l2 l3 (wire_wt _ _ _ _ _ _ (edit_tys _ _ _ Ef12) H1) H2 M1 M2).
    unfold mig_body. rewrite M3. reflexivity.
Qed.
End Rec.

Hypothesis C12 : edit_program E1 E2.
Hypothesis C23 : edit_program E2 E3.
Hypothesis T12 : nothing_removed E1 E2.
Hypothesis T23 : nothing_removed E2 E3.
Hypothesis HK : env_all (fun f => plain_keys (f_ty f)) E2.
Hypothesis HS : defaults_settled E1 E2 E3.

Lemma ref_steps : forall d d2 n x y z, wt_ref E1 d n x -> wt_ref E2 d2 n y ->
  mig_ref E1 E2 d n x = Ok y -> mig_ref E2 E3 d2 n y = Ok z -> mig_ref E1 E3 d n x = Ok z.
Proof.
  induction d as [|d IH]; intros [|d2] n x y z H1 H2 M1 M2; cbn [wt_ref mig_ref] in *; try contradiction; try discriminate.
  destruct (e_sch E1 n) as [s1|] eqn:S1; [|contradiction]. destruct (e_sch E2 n) as [s2|] eqn:S2; [|contradiction].
  destruct (e_sch E3 n) as [s3|] eqn:S3; [|discriminate].
  destruct (sent s1 (scur s1)) as [h1|]; [|discriminate]. destruct (sent s2 (scur s2)) as [h2|]; [|discriminate].
  destruct C12 as (_ & _ & _ & C12'). destruct (C12' n s1 S1) as (s2' & S2' & Ed). assert (s2' = s2) by congruence. subst s2'.
  eapply (derived_steps (wt_ref E1 d) (wt_ref E2 d2) (mig_ref E1 E2 d) (mig_ref E1 E3 d) d2 (ser_ty E1 (ser_ref E1 d)) (ser_ty E2 (ser_ref E2 d2)) (fun n x y z => IH d2 n x y z)
    (h_opt h1) (h_opt h2) s1 s2 s3 x y z (we_sch _ HW1 _ _ S1) (we_sch _ HW2 _ _ S2) (we_sch _ HW3 _ _ S3) Ed); try assumption.
  - exact (T12 n s1 s2 S1 S2).
  - exact (T23 n s2 s3 S2 S3).
  - exact (HK n s2 S2).
  - exact (HS n s1 s2 s3 S1 S2 S3).
Qed.
Lemma migrate_steps : forall d d2 t v v2 v3, plain_keys t = true -> wt E1 d t v -> wt E2 d2 t v2 ->
  migrate E1 E2 d t v = Ok v2 -> migrate E2 E3 d2 t v2 = Ok v3 -> migrate E1 E3 d t v = Ok v3.
Proof.
  intros d d2 t v v2 v3 Hk H1 H2 M1 M2.
  apply (mig_carried E1 E2 HW1 L12 _ _ t v v2 Hk H1) in M1. apply (mig_carried E2 E3 HW2 L23 _ _ t v2 v3 Hk H2) in M2.
  apply (mig_carried E1 E3 HW1 L13 (wt_ref E1 d) _ t v v3 Hk H1).
  exact (carried_trans E1 E2 _ _ _ _ _ (ref_steps d d2) t v v2 v3 H1 H2 M1 M2).
Qed.
End Steps.
