(** C64: walkers depend on the declarations in use only. *)

From Verif Require Import Base BaseL Prog ProgL Prim PrimL Utf8 Tag Ty Ser De SliceReader Skip SkipIdx SkipL Typed Agree Transp TranspL Spec Ex Local LocalL PropLocal Walk WalkL.
From Coq Require Import List NArith ZArith Bool Lia.
Import ListNotations.
Open Scope N_scope.

Definition sme {A} (m m' : sm A) : Prop := forall s, m s = m' s.
Lemma sme_refl : forall A (m : sm A), sme m m.  Proof. intros A m s. reflexivity. Qed.
Lemma sme_post : forall A B (Q : A -> Prop) (m m' : sm A) (f f' : A -> sm B), sme m m' -> (forall s a s', m' s = Ok (a, s') -> Q a) ->
  (forall a, Q a -> sme (f a) (f' a)) -> sme (sm_bind m f) (sm_bind m' f').
Proof.
  intros A B Q m m' f f' Hm HQ Hf s. unfold sm_bind. rewrite (Hm s). destruct (m' s) as [[a s']| |] eqn:E; [|reflexivity|reflexivity]. apply Hf, (HQ s a s' E).
Qed.
Lemma sme_bind : forall A B (m m' : sm A) (f f' : A -> sm B), sme m m' -> (forall a, sme (f a) (f' a)) -> sme (sm_bind m f) (sm_bind m' f').
Proof. intros A B m m' f f' Hm Hf. apply (sme_post A B (fun _ => True)); auto. Qed.
Lemma sme_map : forall A B (g : A -> B) (m m' : sm A), sme m m' -> sme (sm_map g m) (sm_map g m').
Proof. intros A B g m m' H. apply sme_bind; [exact H|intros a; apply sme_refl]. Qed.
Lemma sme_run : forall A (p q : prog A), eqr p q -> sme (sr_run p) (sr_run q).
Proof. intros A p q H s. rewrite !sr_run_run, (H (sr_inner s)). reflexivity. Qed.
Lemma sme_rep : forall n m m', sme m m' -> sme (sm_rep n m) (sm_rep n m').
Proof. induction n; intros m m' H; cbn [sm_rep]; [apply sme_refl|]. apply sme_bind; [exact H|intros; apply IHn, H]. Qed.
Lemma sme_slice : forall A (p q : prog A) b c, eqr p q -> sme (on_slice p b c) (on_slice q b c).
Proof. intros A p q b c H s. unfold on_slice. destruct (split_at c b) as [[x y]|]; [|reflexivity]. rewrite (H y). reflexivity. Qed.
Lemma sme_consumed : forall m m', sme m m' -> sme (sm_consumed m) (sm_consumed m').
Proof. intros m m' H s. unfold sm_consumed. rewrite (H s). reflexivity. Qed.

(* syntactic only: unfolding here is slow *)
Ltac same := match goal with |- sme ?x ?y => constr_eq x y; apply sme_refl end.

Section W.
Variables (E : env) (S : N -> option schema) (U : N -> Prop) (D : nat).
Hypothesis HU : forall n s f m, U n -> e_sch E n = Some s -> has_field s f -> In m (names (f_ty f)) -> U m.
Hypothesis HS : forall n, U n -> S n = e_sch E n.
Notation E' := (set_sch E S).
Definition used (t : ty) : Prop := forall n, In n (names t) -> U n.
Definition all_used (fs : list field) : Prop := forall f, In f fs -> used (f_ty f).
Definition var_used (vs : list variant) : Prop := forall v, In v vs -> all_used (v_fields v).
Definition good_ctx (c : ctx) : Prop :=
  match c with
  | CPos t | COpt t _ | CSeq t _ => used t
  | CRes a b _ | CMap a b _ => used a /\ used b
  | CStruct _ _ fs => all_used fs
  | CEnum _ _ vs => var_used vs
  end.

Lemma w_de : forall d t, used t -> eqr (deserialize E' d t) (deserialize E d t).
Proof.
  intros d t H. unfold deserialize. change (de_ty E') with (de_ty E). apply loc_de_ty. intros n Hn. apply (loc_de_ref E S U HU HS), H, Hn.
Qed.
Lemma w_sk : forall d t, used t -> eqr (skip E' d t) (skip E d t).
Proof.
  intros d t H. unfold skip. change (sk_ty E') with (sk_ty E). apply loc_sk_ty; intros n Hn; [apply (loc_de_ref E S U HU HS)|apply (loc_sk_ref E S U HU HS)]; apply H, Hn.
Qed.
Lemma w_ser : forall t v, used t -> ser_ty E' (ser_ref E' D) t v = ser_ty E (ser_ref E D) t v.
Proof. intros t v H. change (ser_ty E') with (ser_ty E). apply loc_ser_ty. intros n Hn w. apply (loc_ser_ref E S U HU HS), H, Hn. Qed.
Lemma w_ser_mode : forall m t v, used t -> ser_mode E' (ser_ref E' D) m t v = ser_mode E (ser_ref E D) m t v.
Proof. intros m t v H. change (ser_mode E') with (ser_mode E). apply loc_ser_mode. intros n Hn w. apply (loc_ser_ref E S U HU HS), H, Hn. Qed.
Lemma w_mode : forall d m t, used t -> eqr (de_mode E' (de_ref E' d) m t) (de_mode E (de_ref E d) m t).
Proof. intros d m t H. change (de_mode E') with (de_mode E). apply loc_de_mode. intros n Hn. apply (loc_de_ref E S U HU HS), H, Hn. Qed.
Lemma used_pair : forall a b, used (TPair a b) -> used a /\ used b.
Proof. intros a b H. split; intros n Hn; apply H; cbn [names]; apply in_or_app; auto. Qed.

Lemma w_materialise : forall d n s rev, U n -> e_sch E n = Some s -> sme (materialise E' D d s rev) (materialise E D d s rev).
Proof.
  intros d n s rev Hn Es. assert (Hf : forall f, has_field s f -> used (f_ty f)) by (intros f Hf m Hm; exact (HU n s f m Hn Es Hf Hm)).
  unfold materialise. apply sme_bind.
  - apply sme_run. change (de_body E') with (de_body E). apply loc_de_body. intros f Hff m Hm. apply (loc_de_ref E S U HU HS), (Hf f Hff m Hm).
  - intros v. change (ser_derived E') with (ser_derived E). rewrite (loc_ser_derived E (ser_ref E' D) (ser_ref E D)); [apply sme_refl|].
    intros f Hff m Hm w. apply (loc_ser_ref E S U HU HS), (Hf f Hff m Hm).
Qed.
Lemma w_enter_derived : forall d n s, U n -> e_sch E n = Some s -> sme (enter_derived E' D d s) (enter_derived E D d s).
Proof.
  intros d n s Hn Es. unfold enter_derived. apply sme_bind; [apply sme_refl|]. intros rev. destruct ((rev =? 0) || (scur s <? rev)); [apply sme_refl|].
  destruct (s_body s); [unfold enter_struct|unfold enter_enum]; (destruct (has_convert s && negb (rev =? scur s)); [|apply sme_refl]);
    (apply sme_bind; [apply (w_materialise d n s rev Hn Es)|intros p; apply sme_refl]).
Qed.
Lemma bind_inv : forall A B (m : sm A) (f : A -> sm B) s b s', sm_bind m f s = Ok (b, s') -> exists a s1, m s = Ok (a, s1) /\ f a s1 = Ok (b, s').
Proof. intros A B m f s b s' H. unfold sm_bind in H. destruct (m s) as [[a s1]| |]; try discriminate. eauto. Qed.
Ltac inv H := repeat (let a := fresh "a" in let s1 := fresh "s" in let H1 := fresh "H" in
  apply bind_inv in H; destruct H as (a & s1 & H1 & H)).
Lemma filter_used : forall p fs, all_used fs -> all_used (filter p fs).
Proof. intros p fs H f Hf. apply filter_In in Hf. apply H, Hf. Qed.
Lemma w_derived_good : forall d n s x c x', U n -> e_sch E n = Some s -> enter_derived E D d s x = Ok (c, x') -> good_ctx c.
Proof.
  intros d n s x c x' Hn Es H. assert (Hf : forall f, has_field s f -> used (f_ty f)) by (intros f Hf m Hm; exact (HU n s f m Hn Es Hf Hm)).
  unfold has_field in Hf. unfold enter_derived in H. apply bind_inv in H. destruct H as (rev & s1 & _ & H).
  destruct ((rev =? 0) || (scur s <? rev)); [discriminate H|]. destruct (s_body s) as [fs|vs].
  - assert (Ha : all_used (filter (falive (scur s)) fs)) by (apply filter_used; exact Hf).
    assert (K : forall r y z, sm_ret (CStruct r 0 (filter (falive (scur s)) fs)) y = Ok (c, z) -> good_ctx c) by (intros r y z Hk; inversion Hk; subst; exact Ha).
    unfold enter_struct in H. destruct (has_convert s && negb (rev =? scur s)).
    + inv H. eapply K, H.
    + destruct (sent s rev) as [h|]; [|discriminate H]. destruct (h_opt h); [|eapply K, H]. destruct (h_idx h); inv H; eapply K, H.
  - assert (Ha : var_used vs) by (intros v Hv f Hff; apply Hf; eauto).
    assert (K : forall r y z, sm_ret (CEnum r s vs) y = Ok (c, z) -> good_ctx c) by (intros r y z Hk; inversion Hk; subst; exact Ha).
    unfold enter_enum in H. destruct (has_convert s && negb (rev =? scur s)).
    + inv H. eapply K, H.
    + destruct (sent s rev) as [h|]; [|discriminate H]. destruct (h_opt h); [|inv H; eapply K, H].
      destruct (calc_disc rev vs) as [ds|]; [|discriminate H]. apply bind_inv in H. destruct H as (tg & y1 & _ & H). apply bind_inv in H. destruct H as (c0 & y2 & _ & H). destruct (class_at ds (variant_id tg)) as [cl|]; [|discriminate H].
      destruct (sclass_eqb c0 cl); [|discriminate H]. apply bind_inv in H. destruct H as (pp & y4 & _ & H). eapply K, H.
Qed.
Lemma w_enter : forall t d, used t -> sme (enter E' D d t) (enter E D d t).
Proof.
  induction t; intros d Hu; cbn [enter]; change (de_len E') with (de_len E); change (e_fw E') with (e_fw E); change (vec_uses_bulk E') with (vec_uses_bulk E); try same; try (apply IHt; exact Hu).
  destruct d as [|d]; [apply sme_refl|]. change (e_sch E' n) with (S n). assert (Hn : U n) by (apply Hu; left; reflexivity). rewrite (HS n Hn).
  destruct (e_sch E n) as [s|] eqn:Es; [|apply sme_refl]. apply sme_map, (w_enter_derived d n s Hn Es).
Qed.
Lemma w_enter_good : forall t d x p x', used t -> enter E D d t x = Ok (p, x') -> good_ctx (snd p).
Proof.
  induction t; intros d x p x' Hu H; cbn [enter] in H; try (inversion H; subst; exact Hu).
  - destruct (vec_uses_bulk E t); [discriminate H|]. inv H. inversion H; subst. exact Hu.
  - inv H. inversion H; subst. exact Hu.
  - apply bind_inv in H; destruct H as (tg & y & _ & H). destruct ((tg =? 0) || (tg =? 1)); inversion H; subst. exact Hu.
  - apply bind_inv in H; destruct H as (tg & y & _ & H). destruct ((tg =? 0) || (tg =? 1)); inversion H; subst. apply used_pair. exact Hu.
  - inv H. inversion H; subst. apply used_pair. exact Hu.
  - inv H. inversion H; subst. exact Hu.
  - inv H. inversion H; subst. exact Hu.
  - eapply IHt; [exact Hu|exact H].
  - destruct mirror, t; inversion H; subst; exact Hu.
  - destruct d as [|d]; [discriminate H|]. assert (Hn : U n) by (apply Hu; left; reflexivity).
    destruct (e_sch E n) as [s|] eqn:Es; [|discriminate H]. unfold sm_map in H. apply bind_inv in H. destruct H as (c & s1 & H1 & H2).
    inversion H2; subst. exact (w_derived_good d n s x c x' Hn Es H1).
Qed.

Lemma w_skip_idx : forall d t, used t -> sme (skip_idx E' d t) (skip_idx E d t).
Proof.
  assert (K : forall d a, used a -> sme (skip_indexed_seq E' d a) (skip_indexed_seq E d a)).
  { intros d a Ha. unfold skip_indexed_seq. change (read_varint E') with (read_varint E). change (e_ub E') with (e_ub E).
    apply sme_bind; [apply sme_refl|]. intros f. apply sme_bind; [apply sme_refl|]. intros n.
    destruct (N.land f 1 =? 0); [apply sme_rep, sme_run, w_sk, Ha|]. destruct (n =? 0); [apply sme_refl|]. destruct (n * 4 <? 2 ^ e_ub E); [|apply sme_refl].
    apply sme_bind; [apply sme_refl|]. intros tb. apply sme_bind; [apply sme_refl|]. intros []. apply sme_bind; [apply sme_refl|]. intros []. apply sme_run, w_sk, Ha. }
  intros d t Hu. destruct t; cbn [skip_idx]; try same; try (apply K; exact Hu).
  apply used_pair in Hu. destruct Hu as [Ha Hb]. unfold skip_indexed_map. change (read_varint E') with (read_varint E). change (e_ub E') with (e_ub E).
  apply sme_bind; [apply sme_refl|]. intros f. apply sme_bind; [apply sme_refl|]. intros n.
  destruct (N.land f 1 =? 0); [|apply sme_refl]. apply sme_rep, sme_bind; [apply sme_run, w_sk, Ha|intros; apply sme_run, w_sk, Hb].
Qed.
Lemma w_field_decode : forall d r i f, used (f_ty f) -> sme (field_decode E' D d r i f) (field_decode E D d r i f).
Proof.
  intros d r i f H. unfold field_decode. destruct r.
  - destruct (f_start f <=? rev); [|apply sme_refl]. apply sme_map, sme_run, w_mode, H.
  - apply sme_bind; [apply sme_refl|]. intros x. apply sme_map, sme_slice, w_de, H.
  - apply sme_map, sme_slice, w_de, H.
Qed.
Lemma w_wire_skip : forall d f, used (f_ty f) -> sme (wire_skip E' d f) (wire_skip E d f).
Proof. intros d f H. unfold wire_skip. destruct (is_idx f); [apply w_skip_idx, H|apply sme_run, w_sk, H]. Qed.
Lemma w_field_skip : forall d r f, used (f_ty f) -> sme (field_skip E' D d r f) (field_skip E D d r f).
Proof.
  intros d r f H. unfold field_skip. destruct r.
  - destruct (f_start f <=? rev); [|apply sme_refl]. apply sme_map, w_wire_skip, H.
  - apply sme_refl.
  - apply sme_map, sme_slice, w_sk, H.
Qed.
Lemma w_field_view : forall d r i f, used (f_ty f) -> sme (field_view E' D d r i f) (field_view E D d r i f).
Proof.
  intros d r i f H. unfold field_view. destruct r.
  - apply sme_map, sme_consumed, w_skip_idx, H.
  - apply sme_refl.
  - apply sme_bind; [apply sme_slice, w_de, H|]. intros p. unfold ser_idx. rewrite (w_ser_mode _ _ _ H). apply sme_refl.
Qed.
Lemma w_field_bytes : forall d r i f, used (f_ty f) -> sme (field_bytes E' D d r i f) (field_bytes E D d r i f).
Proof.
  intros d r i f H. unfold field_bytes. destruct r.
  - destruct (f_start f <=? rev); [|apply sme_refl]. apply sme_map, sme_consumed, w_wire_skip, H.
  - apply sme_refl.
  - apply sme_bind; [apply sme_slice, w_de, H|]. intros p. rewrite (w_ser _ _ H). apply sme_refl.
Qed.
Lemma w_skip_fields : forall fs d r, all_used fs -> sme (skip_fields E' D d r fs) (skip_fields E D d r fs).
Proof.
  induction fs as [|f fs IH]; intros d r H; cbn [skip_fields]; [apply sme_refl|]. apply sme_bind; [apply w_field_skip, H; left; reflexivity|].
  intros p. apply IH. intros g Hg. apply H. right. exact Hg.
Qed.
Lemma cur_used : forall s vs k fs, var_used vs -> cur_variant s vs k = Some fs -> all_used fs.
Proof.
  intros s vs k fs H Hc. unfold cur_variant in Hc. destruct (find _ vs) as [v|] eqn:Ef; [|discriminate]. inversion Hc; subst.
  apply filter_used, H. apply find_some in Ef. apply Ef.
Qed.
Lemma w_variant_decode : forall d r s vs k, var_used vs -> sme (variant_decode E' D d r s vs k) (variant_decode E D d r s vs k).
Proof.
  intros d r s vs k H. unfold variant_decode. destruct (cur_variant s vs k) as [fs|] eqn:Ec; [|apply sme_refl]. pose proof (cur_used s vs k fs H Ec) as Hf.
  destruct fs as [|f [|g fs]]; try same. assert (Hu : used (f_ty f)) by (apply Hf; left; reflexivity). destruct (is_variant r s vs k); [|apply sme_refl].
  destruct r; [apply sme_map, sme_run, w_de, Hu| |]; (apply sme_bind; [apply sme_refl|]; intros b; apply sme_map, sme_slice, w_de, Hu).
Qed.
Lemma w_variant_view : forall d r s vs k, var_used vs -> sme (variant_view E' D d r s vs k) (variant_view E D d r s vs k).
Proof.
  intros d r s vs k H. unfold variant_view. destruct (cur_variant s vs k) as [fs|] eqn:Ec; [|apply sme_refl]. pose proof (cur_used s vs k fs H Ec) as Hf.
  destruct fs as [|f [|g fs]]; try same. assert (Hu : used (f_ty f)) by (apply Hf; left; reflexivity). destruct (is_variant r s vs k); [|apply sme_refl].
  destruct r; [|apply sme_refl|apply sme_refl]. apply sme_bind; [apply sme_run, w_de, Hu|]. intros v. rewrite (w_ser _ _ Hu). apply sme_refl.
Qed.

Lemma w_into : forall a (IH : forall d c, good_ctx c -> sme (act_on E' D d c a) (act_on E D d c a)) d t, used t ->
  sme (sm_bind (enter E' D d t) (fun p => act_on E' D (fst p) (snd p) a)) (sm_bind (enter E D d t) (fun p => act_on E D (fst p) (snd p) a)).
Proof.
  intros a IH d t Hu. apply (sme_post _ _ (fun p => good_ctx (snd p))); [apply w_enter, Hu|intros x p x'; apply w_enter_good, Hu|]. intros p Hp. apply IH, Hp.
Qed.
Lemma w_act : forall a d c, good_ctx c -> sme (act_on E' D d c a) (act_on E D d c a).
Proof.
  induction a; intros d c Hc; destruct c; cbn [good_ctx] in Hc; cbn [act_on]; change (with_bytes E') with (with_bytes E); try same.
  (* Decode *)
  - apply sme_map, sme_run, w_de, Hc.
  - destruct (tag =? 0); [apply sme_refl|]. apply sme_map, sme_run, w_de, Hc.
  - destruct (tag =? 0); apply sme_map, sme_run, w_de, Hc.
  (* Skip *)
  - apply sme_map, sme_run, w_sk, Hc.
  - destruct (tag =? 1); [apply sme_map, sme_run, w_sk, Hc|apply sme_refl].
  - apply sme_map, sme_run, w_sk. destruct (tag =? 0); apply Hc.
  (* Walk *)
  - apply w_into; [exact IHa|exact Hc].
  (* Case *)
  - destruct (tag =? 0); [apply IHa1|apply IHa2]; exact Hc.
  - destruct (tag =? 0); [apply IHa1|apply IHa2]; exact Hc.
  (* Into *)
  - destruct k as [|[| |]]; try same. destruct (tag =? 0); [apply sme_refl|]. apply w_into; [exact IHa|exact Hc].
  - destruct k as [|[| |]]; try same; (destruct (tag =? 0); [|]; try same; apply w_into; [exact IHa|apply Hc]).
  (* Item *)
  - destruct (n =? 0); [apply sme_refl|]. apply sme_bind; [apply IHa1; exact Hc|]. intros o. apply sme_map, IHa2. exact Hc.
  (* Entry *)
  - destruct (n =? 0); [apply sme_refl|].
    assert (K : sme (sm_bind (act_on E' D d (CPos a) a1) (fun o => sm_bind (act_on E' D d (CPos b) a2) (fun o' => sm_map (OCons (OCons o o')) (act_on E' D d (CMap a b (n - 1)) a3))))
                    (sm_bind (act_on E D d (CPos a) a1) (fun o => sm_bind (act_on E D d (CPos b) a2) (fun o' => sm_map (OCons (OCons o o')) (act_on E D d (CMap a b (n - 1)) a3))))).
    { apply sme_bind; [apply IHa1, Hc|]. intros o. apply sme_bind; [apply IHa2, Hc|]. intros o'. apply sme_map, IHa3. exact Hc. }
    destruct a1; try exact K. apply sme_refl.
  (* Rest *)
  - apply sme_map, sme_rep, sme_run, w_sk, Hc.
  - apply sme_map, sme_rep, sme_bind; [apply sme_run, w_sk, Hc|intros; apply sme_run, w_sk, Hc].
  - destruct fs; apply sme_map, w_skip_fields, Hc.
  (* Field *)
  - destruct fs as [|f fs]; [apply sme_refl|]. assert (Hf : used (f_ty f)) by (apply Hc; left; reflexivity).
    assert (Hn : forall r j, sme (act_on E' D d (CStruct r j fs) a2) (act_on E D d (CStruct r j fs) a2)) by (intros r' j; apply IHa2; intros g Hg; apply Hc; right; exact Hg).
    destruct a1; try same.
    + apply sme_bind; [apply w_field_decode, Hf|]. intros p. apply sme_map, Hn.
    + apply sme_bind; [apply w_field_skip, Hf|]. intros p. apply sme_map, Hn.
    + destruct (is_idx f); [apply sme_refl|]. destruct r; try same. destruct (f_start f <=? rev); [|apply sme_refl].
      intros s. rewrite !sm_assoc. revert s. apply sme_bind; [|intros o; apply sme_map, Hn]. apply (IHa1 d (CPos (f_ty f))). exact Hf.
    + destruct (is_idx f); [|apply sme_refl]. apply sme_bind; [apply w_field_view, Hf|]. intros p. apply sme_map, Hn.
  (* enums *)
  - destruct (cur_variant s vs k); [|apply sme_refl]. destruct (is_variant r s vs k); [apply IHa1|apply IHa2]; exact Hc.
  - destruct (cur_variant s vs k) as [fs|] eqn:Ec; [|apply sme_refl]. pose proof (cur_used s vs k fs Hc Ec) as Hf.
    destruct fs as [|f [|g fs]]; try same. destruct (is_variant r s vs k); [|apply sme_refl]. destruct r; try same.
    apply w_into; [exact IHa|]. apply Hf. left. reflexivity.
  - apply w_variant_decode, Hc.
  - apply w_variant_view, Hc.
Qed.
End W.

(** Whatever is done with a walker, each step does the same. *)
Theorem C64_walking : forall E t S D d a s, same_used E t S ->
  walk_with (set_sch E S) D d t a s = walk_with E D d t a s.
Proof.
  intros E t S D d a s H. unfold walk_with. revert s.
  apply (w_into E S (uses E t) D (uses_closed E t) H); [|intros n Hn; constructor; exact Hn].
  intros d' c Hc. apply (w_act E S (uses E t) D (uses_closed E t) H), Hc.
Qed.
Lemma w_bytes_after : forall E S (U : N -> Prop) D (HU : forall n s f m, U n -> e_sch E n = Some s -> has_field s f -> In m (names (f_ty f)) -> U m)
  (HS : forall n, U n -> S n = e_sch E n) fs d r i cs, all_used U fs -> sme (into_bytes_after (set_sch E S) D d r i fs cs) (into_bytes_after E D d r i fs cs).
Proof.
  intros E S U D HU HS. induction fs as [|f fs IH]; intros d r i cs H; destruct cs as [|c cs]; cbn [into_bytes_after]; try same;
    assert (Hf : used U (f_ty f)) by (apply H; left; reflexivity).
  - apply (w_field_bytes E S U D HU HS), Hf.
  - apply sme_bind.
    + destruct c; [apply (w_field_decode E S U D HU HS), Hf|apply (w_field_skip E S U D HU HS), Hf].
    + intros p. apply IH. intros g Hg. apply H. right. exact Hg.
Qed.
Theorem C64_walking_bytes : forall E t S D d cs s, same_used E t S ->
  walk_into_bytes (set_sch E S) D d t cs s = walk_into_bytes E D d t cs s.
Proof.
  intros E t S D d cs s H. unfold walk_into_bytes. revert s. assert (Hu : used (uses E t) t) by (intros n Hn; constructor; exact Hn).
  apply (sme_post _ _ (fun p => good_ctx (uses E t) (snd p))).
  - apply (w_enter E S (uses E t) D (uses_closed E t) H), Hu.
  - intros x p x'. apply (w_enter_good E (uses E t) D (uses_closed E t)), Hu.
  - intros p Hp. destruct (snd p); try same. apply (w_bytes_after E S (uses E t) D (uses_closed E t) H), Hp.
Qed.

(** ** Case *)
(** The three types of PropLocal.v in a program whose unused fourth is another one: into the list, into the
    option, into the record, past its number, and its map. *)
Definition other : N -> option schema := fun n => if n =? 4 then Some (mkSchema [mkHent true true] (SEnum [])) else e_sch three n.
Example C64_case_walk : same_used three (TVec (TOption (TRef 2))) other
  /\ to_vec three 3 (TVec (TOption (TRef 2))) (VSeq [VVar 1 [VSeq [VInt 300; VSeq [VPair (VBytes [97]) (VSeq [VBool true])]]]]) = Ok [1; 1; 1; 251; 44; 1; 1; 1; 97; 1; 1]
  /\ walk_with (set_sch three other) 3 3 (TVec (TOption (TRef 2))) (Item (Walk (Into 1 (Field Skip (Field (Walk (Entry Bytes Decode Rest)) Rest)))) Rest)
       (sr_new [1; 1; 1; 251; 44; 1; 1; 1; 97; 1; 1])
     = Ok (OCons (OCons ODone (OCons (OCons (OCons (OBytes [97]) (OVal (VSeq [VBool true]))) ODone) ODone)) ODone, mkSR [] 11).
Proof.
  split; [|split; vm_compute; reflexivity].
  intros n Hn. unfold other. destruct (N.eqb_spec n 4); [|reflexivity]. subst. exfalso. apply (proj1 C64_case_unused).
  remember 4 as k. clear Heqk. induction Hn as [n Hn|m s f n U IH Hs Hf Hn].
  - eapply (uses_in _ _ 1); [constructor; left; reflexivity|reflexivity|left; reflexivity|exact Hn].
  - exact (uses_in _ _ m s f n IH Hs Hf Hn).
Qed.

Print Assumptions C64_walking.
Print Assumptions C64_walking_bytes.
