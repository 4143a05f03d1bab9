(** Lemmas about walkers.  Proof part. *)

From Verif Require Import Base BaseL Prog ProgL Prim PrimL Tag Ty Ser De Typed DiscL RtL RtSch Agree SliceReader Skip SkipIdx SkipL Yield Walk WalkSpec PropSlice.
From Coq Require Import List NArith ZArith Bool Lia.
Import ListNotations.
Open Scope N_scope.

Lemma sm_bind_run : forall A B (p : prog A) (f : A -> sm B) bs o a r, run p bs = Ok (a, r) ->
  sm_bind (sr_run p) f (mkSR bs o) = f a (mkSR r o).
Proof. intros A B p f bs o a r H. unfold sm_bind. rewrite sr_run_run. cbn [sr_inner sr_orig]. rewrite H. reflexivity. Qed.
Lemma sm_map_run : forall A B (p : prog A) (f : A -> B) bs o a r, run p bs = Ok (a, r) ->
  sm_map f (sr_run p) (mkSR bs o) = Ok (f a, mkSR r o).
Proof. intros. unfold sm_map. rewrite (sm_bind_run _ _ _ _ _ _ _ _ H). reflexivity. Qed.
Lemma sm_bind_fin : forall (m : sm obs) (f : obs -> sm obs) s r rest o, m s = fin r rest o ->
  sm_bind m f s = match r with Ok x => f x (mkSR rest o) | Err e => Err e | Panic p => Panic p end.
Proof. intros m f s r rest o H. unfold sm_bind. rewrite H. destruct r; reflexivity. Qed.
Lemma sm_map_fin : forall (m : sm obs) f s r rest o, m s = fin r rest o -> sm_map f m s = fin (rmap f r) rest o.
Proof. intros m f s r rest o H. unfold sm_map. rewrite (sm_bind_fin _ _ _ _ _ _ H). destruct r; reflexivity. Qed.

Lemma vec_uses_bulk_iff : forall E t, vec_uses_bulk E t = e_spec E && match bulk_of t with Some _ => true | None => false end.
Proof. intros E t. unfold vec_uses_bulk. f_equal. destruct t; try reflexivity. match goal with i : ity |- _ => destruct i; reflexivity end. Qed.

(** ** Scripts on a walker, given what lies under it *)

Definition is_detached (r : srepr) : bool := match r with SWire _ => false | _ => true end.
Definition is_sindexed (r : srepr) : bool := match r with SIndexed _ _ => true | _ => false end.
Definition e_detached (r : erepr) : bool := match r with EWire _ _ => false | _ => true end.

Lemma sm_assoc : forall A B C (m : sm A) (f : A -> sm B) (g : B -> sm C) s, sm_bind m (fun a => sm_bind (f a) g) s = sm_bind (sm_bind m f) g s.
Proof. intros A B C m f g s. unfold sm_bind. destruct (m s) as [[a s']| |]; reflexivity. Qed.
Lemma cur_here : forall s vs k, cur_variant s vs k = variant_here s vs k.  Proof. reflexivity. Qed.
Lemma on_slice_run : forall A (p : prog A) buf c x y a z s, split_at c buf = Some (x, y) -> run p y = Ok (a, z) ->
  on_slice p buf c s = Ok ((a, len buf - len z), s).
Proof. intros A p buf c x y a z s H1 H2. unfold on_slice. rewrite H1. unfold sm_res. rewrite H2. reflexivity. Qed.

Section G.
Variable E : env.
Variable D : nat.
Variable opened : ty -> val -> view -> Prop.
Variable may : schema -> Prop.
(** [P d t v bs rest]: [bs] starts with the bytes of [v]. *)
Variable P : nat -> ty -> val -> bytes -> bytes -> Prop.
(** Bound on the length of the input. *)
Variable M : N.
Hypothesis HM : M <= 2 ^ e_ub E.
Hypothesis SB : spec_built E.
Hypothesis HP : forall d t v bs rest, P d t v bs rest -> wfb bs -> len bs < M -> run (deserialize E d t) bs = Ok (v, rest).

Inductive items (d : nat) (t : ty) : bytes -> list val -> bytes -> Prop :=
| it_nil : forall bs, items d t bs [] bs
| it_cons : forall bs v r l rest, P d t v bs r -> items d t r l rest -> items d t bs (v :: l) rest.
Inductive entries (d : nat) (t t' : ty) : bytes -> list val -> bytes -> Prop :=
| en_nil : forall bs, entries d t t' bs [] bs
| en_cons : forall bs k v r1 r2 l rest, P d t k bs r1 -> P d t' v r1 r2 -> entries d t t' r2 l rest -> entries d t t' bs (VPair k v :: l) rest.

Inductive chain (d : nat) : srepr -> N -> list field -> list (field * bool * val) -> bytes -> bytes -> Prop :=
| ch_nil : forall r i bs, chain d r i [] [] bs bs
| ch_wire : forall rev i f fs v l bs r rest, f_start f <= rev ->
    (is_idx f = false -> P d (f_ty f) v bs r) ->
    (is_idx f = true -> run (de_mode E (de_ref E d) (mode_opt f) (f_ty f)) bs = Ok (v, r)
       /\ (forall o, len bs < M -> skip_idx E d (f_ty f) (mkSR bs o) = Ok (tt, mkSR r o)) /\ exists x, bs = x ++ r /\ field_image E f v x) ->
    chain d (SWire rev) (i + 1) fs l r rest -> chain d (SWire rev) i (f :: fs) ((f, true, v) :: l) bs rest
| ch_absent : forall rev i f fs v l bs rest, rev < f_start f -> is_idx f = false -> f_default f rev = Ok v ->
    chain d (SWire rev) (i + 1) fs l bs rest -> chain d (SWire rev) i (f :: fs) ((f, false, v) :: l) bs rest
| ch_indexed : forall b fc i f fs v l bs rest x, indexed_field b fc i = Ok x ->
    (is_idx f = false -> run (deserialize E d (f_ty f)) x = Ok (v, [])) -> (is_idx f = true -> field_image E f v x) ->
    chain d (SIndexed b fc) (i + 1) fs l bs rest -> chain d (SIndexed b fc) i (f :: fs) ((f, true, v) :: l) bs rest
| ch_owned : forall b c i f fs v l bs rest x y z, is_idx f = false -> split_at c b = Some (x, y) ->
    run (deserialize E D (f_ty f)) y = Ok (v, z) -> run (skip E D (f_ty f)) y = Ok (tt, z) ->
    chain d (SOwned b (len b - len z)) (i + 1) fs l bs rest -> chain d (SOwned b c) i (f :: fs) ((f, true, v) :: l) bs rest.

(** The fields [l] of a variant, under an enum walker. *)
Definition under_enum (d : nat) (r : erepr) (fs : list field) (l : list val) (bs rest : bytes) : Prop :=
  if e_detached r then
    bs = rest /\ exists b, (forall s, variant_slice r s = Ok (b, s)) /\ payload_image E fs l b
    /\ forall f, fs = [f] -> exists v y, l = [v] /\ run (deserialize E (slice_depth D d r) (f_ty f)) b = Ok (v, y)
  else match fs with
       | [] => bs = rest
       | [f] => exists v, l = [v] /\ P d (f_ty f) v bs rest
       | _ => True
       end.

Inductive rel (d : nat) (bs : bytes) (rest : bytes) : ctx -> kind -> view -> Prop :=
| r_pos : forall t v, P d t v bs rest -> rel d bs rest (CPos t) (HPos t) (PPos t v)
| r_none : forall t, bs = rest -> rel d bs rest (COpt t 0) (HOpt t) (POpt t None)
| r_some : forall t v, P d t v bs rest -> rel d bs rest (COpt t 1) (HOpt t) (POpt t (Some v))
| r_ok : forall t t' v, P d t v bs rest -> rel d bs rest (CRes t t' 0) (HRes t t') (PRes t t' (inl v))
| r_err : forall t t' v, P d t' v bs rest -> rel d bs rest (CRes t t' 1) (HRes t t') (PRes t t' (inr v))
| r_seq : forall t l n, n = len l -> items d t bs l rest -> rel d bs rest (CSeq t n) (HSeq t) (PSeq t l)
| r_map : forall t t' l n, n = len l -> entries d t t' bs l rest -> rel d bs rest (CMap t t' n) (HMap t t') (PMap t t' l)
| r_struct : forall r i fs l, chain d r i fs l bs rest ->
    rel d bs rest (CStruct r i fs) (HFields (is_sindexed r) fs) (PFields (is_detached r) l)
| r_enum : forall r s vs k l fs, (forall k', variant_here s vs k' <> None -> is_variant r s vs k' = (k =? k')) ->
    variant_here s vs k = Some fs -> under_enum d r fs l bs rest ->
    rel d bs rest (CEnum r s vs) (HEnum s vs) (PEnum (e_detached r) s vs k l).

(** The walker that [enter] opened. *)
Definition open_at (d : nat) (t : ty) (v : val) (bs rest : bytes) (o : N) : Prop :=
  (exists d' c p bs', enter E D d t (mkSR bs o) = Ok ((d', c), mkSR bs' o) /\ rel d' bs' rest c (kind_of E t) p /\ opened t v p
     /\ (exists hd, bs = hd ++ bs'))
  \/ (exists x, (forall w, sm_bind (enter E D d t) w (mkSR bs o) = fin x rest o) /\ opened t v (PFail x)).
Hypothesis HE : forall t d bs v rest o, P d t v bs rest -> wfb bs -> len bs < M -> opens E may t ->
  if refused E t then enter E D d t (mkSR bs o) = Err (EDeserialize MBulkVec) else open_at d t v bs rest o.

Notation exp := (expect E D opened).
Definition agrees (a : act) : Prop := forall d bs rest c k p o, rel d bs rest c k p -> wfb bs -> len bs < M -> covered E may k a ->
  exists r, exp p a r /\ act_on E D d c a (mkSR bs o) = fin r rest o.

Lemma walked_ok : forall w d t bs v rest o, agrees w -> P d t v bs rest -> wfb bs -> len bs < M ->
  opens E may t -> covered E may (kind_of E t) w ->
  exists r, (if refused E t then r = Err (EDeserialize MBulkVec) else exists c', opened t v c' /\ exp c' w r)
    /\ sm_bind (enter E D d t) (fun p => act_on E D (fst p) (snd p) w) (mkSR bs o) = fin r rest o.
Proof.
  intros w d t bs v rest o IH H Hb Hl Hs Hc. pose proof (HE t d bs v rest o H Hb Hl Hs) as He. unfold sm_bind.
  destruct (refused E t).
  - rewrite He. eexists. split; [reflexivity|reflexivity].
  - destruct He as [(d' & c & p & bs' & He & Hr & Ho & (hd & ->))|(x & He & Ho)].
    2: { exists x. split; [exists (PFail x); split; [exact Ho|destruct w; reflexivity]|apply He]. }
    rewrite He. cbn [fst snd]. apply wfb_app in Hb. rewrite len_app in Hl.
    destruct (IH d' bs' rest c _ p o Hr (proj2 Hb) ltac:(lia) Hc) as (r & Hx & Hy). exists r. split; [eauto|exact Hy].
Qed.

Lemma skip_ok : forall d t bs v rest, len bs < M -> run (deserialize E d t) bs = Ok (v, rest) -> run (skip E d t) bs = Ok (tt, rest).
Proof. intros d t bs v rest Hl H. apply (cov_skip E d t SB bs v rest); [lia|exact H]. Qed.
Lemma run_wf2 : forall A (p : prog A) bs a r, wfb bs -> len bs < M -> run p bs = Ok (a, r) -> wfb r /\ len r < M.
Proof. intros A p bs a r Hb Hl H. split; [exact (run_wfb _ _ _ _ _ Hb H)|]. apply run_len in H. lia. Qed.
Lemma P_wf2 : forall d t v bs r, P d t v bs r -> wfb bs -> len bs < M -> wfb r /\ len r < M.
Proof. intros d t v bs r H Hb Hl. apply HP in H; [|exact Hb|exact Hl]. exact (run_wf2 _ _ _ _ _ Hb Hl H). Qed.
Lemma items_skip : forall d t bs l rest o, items d t bs l rest -> wfb bs -> len bs < M ->
  sm_rep (length l) (sr_run (skip E d t)) (mkSR bs o) = Ok (tt, mkSR rest o).
Proof.
  intros d t bs l rest o H. induction H as [|bs v r l rest Hv H IH]; intros Hb Hl; [reflexivity|]. cbn [length sm_rep].
  rewrite (sm_bind_run _ _ _ _ _ _ _ _ (skip_ok _ _ _ _ _ Hl (HP _ _ _ _ _ Hv Hb Hl))). destruct (P_wf2 _ _ _ _ _ Hv Hb Hl). auto.
Qed.
Lemma entries_skip : forall d t t' bs l rest o, entries d t t' bs l rest -> wfb bs -> len bs < M ->
  sm_rep (length l) (sm_bind (sr_run (skip E d t)) (fun _ => sr_run (skip E d t'))) (mkSR bs o) = Ok (tt, mkSR rest o).
Proof.
  intros d t t' bs l rest o H. induction H as [|bs k v r1 r2 l rest Hk Hv H IH]; intros Hb Hl; [reflexivity|]. cbn [length sm_rep].
  destruct (P_wf2 _ _ _ _ _ Hk Hb Hl) as [Hb1 Hl1]. destruct (P_wf2 _ _ _ _ _ Hv Hb1 Hl1) as [Hb2 Hl2]. unfold sm_bind at 1.
  rewrite (sm_bind_run _ _ _ _ _ _ _ _ (skip_ok _ _ _ _ _ Hl (HP _ _ _ _ _ Hk Hb Hl))). rewrite sr_run_run. cbn [sr_inner sr_orig].
  rewrite (skip_ok _ _ _ _ _ Hl1 (HP _ _ _ _ _ Hv Hb1 Hl1)). cbn [with_orig]. auto.
Qed.
Lemma chain_step : forall d r i f fs l bs rest, chain d r i (f :: fs) l bs rest -> wfb bs -> len bs < M ->
  exists present v l' r' bs', l = (f, present, v) :: l' /\ chain d r' (i + 1) fs l' bs' rest /\ wfb bs' /\ len bs' < M
    /\ is_detached r' = is_detached r /\ is_sindexed r' = is_sindexed r
    /\ (is_sindexed r && is_idx f = false -> forall o, field_decode E D d r i f (mkSR bs o) = Ok ((OVal v, r'), mkSR bs' o))
    /\ (forall o, field_skip E D d r f (mkSR bs o) = Ok ((ODone, r'), mkSR bs' o))
    /\ (is_idx f = true -> exists x, field_image E f v x /\ forall o, field_view E D d r i f (mkSR bs o) = Ok ((OBytes x, r'), mkSR bs' o))
    /\ (is_idx f = false -> is_detached r = false -> r' = r /\ exists rev, r = SWire rev /\ (f_start f <=? rev) = present /\ (present = true -> P d (f_ty f) v bs bs')).
Proof.
  intros d r i f fs l bs rest H Hb Hl.
  inversion H as [|rev i0 f0 fs0 v l' bs0 r' rest0 Hst Hp Hi Hc|rev i0 f0 fs0 v l' bs0 rest0 Hst Hi Hd Hc|b fc i0 f0 fs0 v l' bs0 rest0 x Hx Hp Hi Hc|b c i0 f0 fs0 v l' bs0 rest0 x y z Hi Hs Hy Hk Hc]; subst.
  - assert (Hrun : run (de_mode E (de_ref E d) (mode_opt f) (f_ty f)) bs = Ok (v, r') /\ (forall o, wire_skip E d f (mkSR bs o) = Ok (tt, mkSR r' o))).
    { unfold wire_skip. destruct (is_idx f) eqn:Ei.
      - destruct (Hi eq_refl) as (Hm & Hk & _). split; [exact Hm|]. intros o. apply Hk, Hl.
      - specialize (Hp eq_refl). apply HP in Hp; [|exact Hb|exact Hl]. split.
        + unfold mode_opt. unfold is_idx in Ei. destruct (f_idx f); try discriminate. exact Hp.
        + intros o. rewrite sr_run_run. cbn [sr_inner sr_orig]. rewrite (skip_ok _ _ _ _ _ Hl Hp). reflexivity. }
    destruct Hrun as [Hm Hk]. pose proof (run_wf2 _ _ _ _ _ Hb Hl Hm) as [Hb' Hl']. assert (Hle : (f_start f <=? rev) = true) by (apply N.leb_le; exact Hst).
    exists true, v, l', (SWire rev), r'. split; [reflexivity|]. split; [exact Hc|]. split; [exact Hb'|]. split; [exact Hl'|]. split; [reflexivity|]. split; [reflexivity|].
    split; [|split; [|split]].
    + intros _ o. unfold field_decode. rewrite Hle, (sm_map_run _ _ _ _ _ _ _ _ Hm). reflexivity.
    + intros o. unfold field_skip. rewrite Hle. unfold sm_map, sm_bind. rewrite Hk. reflexivity.
    + intros Ei. destruct (Hi Ei) as (_ & Hki & x & Hx & Him). exists x. split; [exact Him|]. intros o. unfold field_view, sm_map, sm_bind, sm_consumed.
      rewrite (Hki o Hl). cbn [sr_inner sr_orig]. replace (len bs <? len r') with false by (symmetry; apply N.ltb_ge; rewrite Hx, len_app; lia).
      replace (N.to_nat (len bs - len r')) with (length x) by (rewrite Hx, len_app; unfold len; lia).
      rewrite Hx, firstn_app, Nat.sub_diag, firstn_all. cbn [firstn]. rewrite app_nil_r. reflexivity.
    + intros Ei _. split; [reflexivity|]. exists rev. split; [reflexivity|]. split; [exact Hle|]. intros _. apply Hp, Ei.
  - assert (Hle : (f_start f <=? rev) = false) by (apply N.leb_gt; exact Hst).
    exists false, v, l', (SWire rev), bs. split; [reflexivity|]. split; [exact Hc|]. split; [exact Hb|]. split; [exact Hl|]. split; [reflexivity|]. split; [reflexivity|].
    split; [|split; [|split]].
    + intros _ o. unfold field_decode. rewrite Hle, Hd. reflexivity.
    + intros o. unfold field_skip. rewrite Hle. reflexivity.
    + intros Ei. congruence.
    + intros _ _. split; [reflexivity|]. exists rev. split; [reflexivity|]. split; [exact Hle|]. discriminate.
  - exists true, v, l', (SIndexed b fc), bs. split; [reflexivity|]. split; [exact Hc|]. split; [exact Hb|]. split; [exact Hl|]. split; [reflexivity|]. split; [reflexivity|].
    split; [|split; [|split]].
    + intros Ei o. cbn [is_sindexed andb] in Ei. pose proof (Hp Ei) as Hy. unfold field_decode, sm_bind, sm_res. rewrite Hx. cbn [rmap rbind].
      unfold sm_map, sm_bind. rewrite (on_slice_run _ _ _ _ _ _ _ _ _ (split_at_0 _ x) Hy). reflexivity.
    + intros o. reflexivity.
    + intros Ei. exists x. split; [apply Hi, Ei|]. intros o. unfold field_view, sm_map, sm_bind, sm_res. rewrite Hx. reflexivity.
    + discriminate.
  - exists true, v, l', (SOwned b (len b - len z)), bs. split; [reflexivity|]. split; [exact Hc|]. split; [exact Hb|]. split; [exact Hl|]. split; [reflexivity|]. split; [reflexivity|].
    split; [|split; [|split]].
    + intros _ o. unfold field_decode, sm_map, sm_bind. rewrite (on_slice_run _ _ _ _ _ _ _ _ _ Hs Hy). reflexivity.
    + intros o. unfold field_skip, sm_map, sm_bind. rewrite (on_slice_run _ _ _ _ _ _ _ _ _ Hs Hk). reflexivity.
    + intros Ei. congruence.
    + discriminate.
Qed.
Lemma checked_ok : forall b fc i x, indexed_field b fc i = Ok x -> indexed_field_checked b fc i = Ok x.
Proof.
  intros b fc i x H. unfold indexed_field, indexed_field_checked in *. destruct (slice_of b (i * 4) (i * 4 + 4)) as [p| |] eqn:E1; try discriminate. cbn [rbind] in *.
  assert (Hs : forall u w y, slice_of b u w = Ok y -> (w <? u) || (len b <? w) = false).
  { intros u w y Hy. unfold slice_of in Hy. destruct ((u <=? w) && (w <=? len b)) eqn:Eb; [|discriminate]. apply andb_prop in Eb. destruct Eb as [E2 E3]. apply N.leb_le in E2, E3. apply orb_false_iff. split; apply N.ltb_ge; assumption. }
  pose proof (Hs _ _ _ E1) as H1. apply orb_false_iff in H1. destruct H1 as [_ H1]. apply N.ltb_ge in H1.
  destruct (i + 1 <? fc).
  - destruct (slice_of b (i * 4 + 4) (i * 4 + 8)) as [q| |] eqn:E2; try discriminate. cbn [rbind rmap] in *. pose proof (Hs _ _ _ E2) as H2. apply orb_false_iff in H2. destruct H2 as [_ H2]. rewrite H2.
    rewrite (Hs _ _ _ H). exact H.
  - cbn [rbind] in *. replace (len b <? i * 4 + 4) with false by (symmetry; apply N.ltb_ge; exact H1). rewrite (Hs _ _ _ H). exact H.
Qed.
Lemma consumed_prefix : forall (m : sm unit) (x r : bytes) o, m (mkSR (x ++ r) o) = Ok (tt, mkSR r o) -> sm_consumed m (mkSR (x ++ r) o) = Ok (x, mkSR r o).
Proof.
  intros m x r o H. unfold sm_consumed. rewrite H. cbn [sr_inner]. replace (len (x ++ r) <? len r) with false by (symmetry; apply N.ltb_ge; rewrite len_app; lia).
  replace (N.to_nat (len (x ++ r) - len r)) with (length x) by (rewrite len_app; unfold len; lia). rewrite firstn_app, Nat.sub_diag, firstn_all. cbn [firstn]. rewrite app_nil_r. reflexivity.
Qed.
(** [into_<field>_bytes]. *)
Lemma chain_bytes : forall d r i f fs l bs rest o, chain d r i (f :: fs) l bs rest -> wfb bs -> len bs < M ->
  exists pr v l' x s, l = (f, pr, v) :: l' /\ bytes_shown E D (is_detached r) f pr v x
    /\ field_bytes E D d r i f (mkSR bs o) = match x with Ok y => Ok (y, s) | Err e => Err e | Panic p => Panic p end.
Proof.
  intros d r i f fs l bs rest o H Hb Hl.
  inversion H as [|rev i0 f0 fs0 v l' bs0 r' rest0 Hst Hp Hi Hc|rev i0 f0 fs0 v l' bs0 rest0 Hst Hi Hd Hc|b fc i0 f0 fs0 v l' bs0 rest0 x Hx Hp Hi Hc|b c i0 f0 fs0 v l' bs0 rest0 x y z Hi Hs Hy Hk Hc]; subst.
  - assert (Hle : (f_start f <=? rev) = true) by (apply N.leb_le; exact Hst). unfold field_bytes, bytes_shown, wire_skip. rewrite Hle. cbn [negb]. destruct (is_idx f) eqn:Ei.
    + destruct (Hi eq_refl) as (_ & Hki & x & -> & Him). exists true, v, l', (Ok (OBytes x)), (mkSR r' o). split; [reflexivity|]. cbn [negb]. split; [eauto|].
      unfold sm_map, sm_bind. rewrite (consumed_prefix _ _ _ _ (Hki o Hl)). reflexivity.
    + specialize (Hp eq_refl). apply HP in Hp; [|exact Hb|exact Hl]. pose proof (skip_ok _ _ _ _ _ Hl Hp) as Hk. destruct (run_suffix _ _ _ _ _ Hp) as (x & -> & Hx).
      exists true, v, l', (Ok (OBytes x)), (mkSR r' o). split; [reflexivity|]. cbn [negb]. split; [left; exists x, d; split; [rewrite <- (app_nil_r x); apply Hx|reflexivity]|].
      unfold sm_map, sm_bind. rewrite (consumed_prefix (sr_run (skip E d (f_ty f))) x r' o); [reflexivity|]. rewrite sr_run_run. cbn [sr_inner sr_orig]. rewrite Hk. reflexivity.
  - assert (Hle : (f_start f <=? rev) = false) by (apply N.leb_gt; exact Hst). exists false, v, l', (Err (EConversion (MOther 1))), (mkSR bs o). split; [reflexivity|]. split; [reflexivity|].
    unfold field_bytes. rewrite Hle. reflexivity.
  - exists true, v, l', (Ok (OBytes x)), (mkSR bs o). split; [reflexivity|]. split.
    + unfold bytes_shown. cbn [negb]. destruct (is_idx f) eqn:Ei; [exists x; auto|]. left. exists x, d. auto.
    + unfold field_bytes, sm_map, sm_bind, sm_res. rewrite (checked_ok _ _ _ _ Hx). reflexivity.
  - exists true, v, l', (rmap OBytes (to_vec E D (f_ty f) v)), (mkSR bs o). split; [reflexivity|]. split.
    + unfold bytes_shown. cbn [negb]. rewrite Hi. right. auto.
    + unfold field_bytes, sm_map, sm_bind, sm_res. rewrite (on_slice_run _ _ _ _ _ _ _ _ _ Hs Hy). cbn [fst]. unfold to_vec, to_writer.
      destruct (ser_bytes (ser_ty E (ser_ref E D) (f_ty f) v)); reflexivity.
Qed.
Lemma chain_into : forall d cs fs r i l bs rest o, chain d r i fs l bs rest -> wfb bs -> len bs < M -> way_covered (HFields (is_sindexed r) fs) cs ->
  exists x s, into_shown E D (PFields (is_detached r) l) cs x
    /\ into_bytes_after E D d r i fs cs (mkSR bs o) = match x with Ok y => Ok (y, s) | Err e => Err e | Panic p => Panic p end.
Proof.
  intros d cs. induction cs as [|c cs IH]; intros fs r i l bs rest o H Hb Hl Hc; (destruct fs as [|f fs]; [inversion H; subst; exists (Panic PType), (mkSR rest o); split; reflexivity|]).
  - destruct (chain_bytes d r i f fs l bs rest o H Hb Hl) as (pr & v & l' & x & s & -> & Hx & Hf). exists x, s. split; [exact Hx|exact Hf].
  - destruct (chain_step _ _ _ _ _ _ _ _ H Hb Hl) as (pr & v & l' & r' & bs' & -> & Hch & Hb' & Hl' & Hdt & Hix & Hd & Hk & _ & _). destruct Hc as [Hc1 Hc2].
    rewrite <- Hix in Hc2. destruct (IH fs r' (i + 1) l' bs' rest o Hch Hb' Hl' Hc2) as (x & s & Hx & Hr). exists x, s. rewrite Hdt in Hx. split; [exact Hx|].
    cbn [into_bytes_after]. unfold sm_bind. destruct c; [rewrite (Hd (Hc1 eq_refl))|rewrite Hk]; exact Hr.
Qed.
Lemma chain_skip : forall d fs r i l bs rest o, chain d r i fs l bs rest -> wfb bs -> len bs < M ->
  skip_fields E D d r fs (mkSR bs o) = Ok (tt, mkSR rest o).
Proof.
  intros d fs. induction fs as [|f fs IH]; intros r i l bs rest o H Hb Hl; [inversion H; subst; reflexivity|].
  destruct (chain_step _ _ _ _ _ _ _ _ H Hb Hl) as (pr & v & l' & r' & bs' & -> & Hc & Hb' & Hl' & _ & _ & _ & Hk & _ & _).
  cbn [skip_fields]. unfold sm_bind. rewrite Hk. cbn [snd]. exact (IH _ _ _ _ _ o Hc Hb' Hl').
Qed.

Lemma agree_all : forall a, agrees a.
Proof.
  induction a as [| | |w IHw|w0 IH0 w1 IH1|n w IHw|x IHx w IHw|x IHx y IHy w IHw| |x IHx w IHw| |n w0 IH0 w1 IH1|n w IHw|n|n];
    intros d bs rest c k p o Hr Hb Hl Hc; destruct Hr as [t v Hv|t Hv|t v Hv|t t' v Hv|t t' v Hv|t l m Hm Hv|t t' l m Hm Hv|sr i fs l Hv|er s vs kn l fs His Hhere Hv];
    try (exists (Panic PType); split; reflexivity);
    try (destruct fs as [|f fs]; destruct l as [|[[f0 pr0] v0] l]; (exists (Panic PType); split; reflexivity));
    cbn [expect act_on].
  (* Decode *)
  - eexists. split; [reflexivity|]. rewrite (sm_map_run _ _ _ _ _ _ _ _ (HP _ _ _ _ _ Hv Hb Hl)). reflexivity.
  - eexists. split; [reflexivity|]. subst rest. reflexivity.
  - eexists. split; [reflexivity|]. change (1 =? 0) with false. cbv iota. rewrite (sm_map_run _ _ _ _ _ _ _ _ (HP _ _ _ _ _ Hv Hb Hl)). reflexivity.
  - eexists. split; [reflexivity|]. change (0 =? 0) with true. cbv iota. rewrite (sm_map_run _ _ _ _ _ _ _ _ (HP _ _ _ _ _ Hv Hb Hl)). reflexivity.
  - eexists. split; [reflexivity|]. change (1 =? 0) with false. cbv iota. rewrite (sm_map_run _ _ _ _ _ _ _ _ (HP _ _ _ _ _ Hv Hb Hl)). reflexivity.
  (* Skip *)
  - eexists. split; [reflexivity|]. rewrite (sm_map_run _ _ _ _ _ _ _ _ (skip_ok _ _ _ _ _ Hl (HP _ _ _ _ _ Hv Hb Hl))). reflexivity.
  - eexists. split; [reflexivity|]. subst rest. reflexivity.
  - eexists. split; [reflexivity|]. change (1 =? 1) with true. cbv iota. rewrite (sm_map_run _ _ _ _ _ _ _ _ (skip_ok _ _ _ _ _ Hl (HP _ _ _ _ _ Hv Hb Hl))). reflexivity.
  - eexists. split; [reflexivity|]. change (0 =? 0) with true. cbv iota. rewrite (sm_map_run _ _ _ _ _ _ _ _ (skip_ok _ _ _ _ _ Hl (HP _ _ _ _ _ Hv Hb Hl))). reflexivity.
  - eexists. split; [reflexivity|]. change (1 =? 0) with false. cbv iota. rewrite (sm_map_run _ _ _ _ _ _ _ _ (skip_ok _ _ _ _ _ Hl (HP _ _ _ _ _ Hv Hb Hl))). reflexivity.
  (* Bytes *)
  - eexists. split; [reflexivity|]. destruct (length_prefixed t) eqn:Ep; [|reflexivity].
    unfold sm_map, sm_bind. rewrite (C43_bytes_of_what_decodes E d t bs v rest o Ep Hb (HP _ _ _ _ _ Hv Hb Hl)). reflexivity.
  (* Walk *)
  - cbn [covered] in Hc. apply (walked_ok w d t bs v rest o IHw Hv Hb Hl (proj1 Hc) (proj2 Hc)).
  (* Case *)
  - apply IH0 with (k := HOpt t); [constructor; exact Hv|exact Hb|exact Hl|apply Hc].
  - apply IH1 with (k := HOpt t); [constructor; exact Hv|exact Hb|exact Hl|apply Hc].
  - apply IH0 with (k := HRes t t'); [constructor; exact Hv|exact Hb|exact Hl|apply Hc].
  - apply IH1 with (k := HRes t t'); [constructor; exact Hv|exact Hb|exact Hl|apply Hc].
  (* Into *)
  - destruct n as [|[q|q|]]; try (exists (Panic PType); split; reflexivity). eexists. split; reflexivity.
  - destruct n as [|[q|q|]]; try (exists (Panic PType); split; reflexivity). cbn [covered] in Hc.
    apply (walked_ok w d t bs v rest o IHw Hv Hb Hl (proj1 Hc) (proj2 Hc)).
  - destruct n as [|[q|q|]]; try (exists (Panic PType); split; reflexivity); [|eexists; split; reflexivity]. cbn [covered N.eqb] in Hc.
    apply (walked_ok w d t bs v rest o IHw Hv Hb Hl (proj1 Hc) (proj2 Hc)).
  - destruct n as [|[q|q|]]; try (exists (Panic PType); split; reflexivity); [eexists; split; reflexivity|]. cbn [covered N.eqb] in Hc.
    apply (walked_ok w d t' bs v rest o IHw Hv Hb Hl (proj1 Hc) (proj2 Hc)).
  (* Item *)
  - inversion Hv as [|bs0 y r l' rest0 Hy Hrest]; subst; [eexists; split; reflexivity|]. cbn [covered] in Hc.
    replace (len (y :: l') =? 0) with false by (symmetry; apply N.eqb_neq; unfold len; cbn [length]; lia).
    destruct (IHx d bs r (CPos t) (HPos t) (PPos t y) o (r_pos d bs r t y Hy) Hb Hl (proj1 Hc)) as (r1 & He1 & Ha1).
    rewrite (sm_bind_fin _ _ _ _ _ _ Ha1). destruct (P_wf2 _ _ _ _ _ Hy Hb Hl) as [Hb' Hl'].
    destruct (IHw d r rest (CSeq t (len (y :: l') - 1)) (HSeq t) (PSeq t l') o) as (r2 & He2 & Ha2); [|exact Hb'|exact Hl'|apply Hc|].
    { constructor; [|exact Hrest]. unfold len. cbn [length]. lia. }
    destruct r1 as [ob|er|pa].
    + exists (seen ob r2). split; [exists (Ok ob); split; [exact He1|exists r2; auto]|]. apply (sm_map_fin _ _ _ _ _ _ Ha2).
    + exists (Err er). split; [exists (Err er); auto|reflexivity].
    + exists (Panic pa). split; [exists (Panic pa); auto|reflexivity].
  (* Entry *)
  - inversion Hv as [|bs0 kv vv q1 q2 l' rest0 Hk Hvv Hrest]; subst; [eexists; split; reflexivity|]. cbn [covered] in Hc. cbn [pkey pval].
    replace (len (VPair kv vv :: l') =? 0) with false by (symmetry; apply N.eqb_neq; unfold len; cbn [length]; lia).
    assert (Hgen : exists r, (exists r1, exp (PPos t kv) x r1 /\
            match r1 with
            | Ok o => exists r2, exp (PPos t' vv) y r2 /\
                match r2 with
                | Ok o' => exists r3, exp (PMap t t' l') w r3 /\ r = seen (OCons o o') r3
                | Err e => r = Err e
                | Panic p => r = Panic p
                end
            | Err e => r = Err e
            | Panic p => r = Panic p
            end) /\ sm_bind (act_on E D d (CPos t) x) (fun o => sm_bind (act_on E D d (CPos t') y) (fun o' =>
                sm_map (OCons (OCons o o')) (act_on E D d (CMap t t' (len (VPair kv vv :: l') - 1)) w))) (mkSR bs o) = fin r rest o).
    { destruct (IHx d bs q1 (CPos t) (HPos t) (PPos t kv) o (r_pos d bs q1 t kv Hk) Hb Hl (proj1 Hc)) as (r1 & He1 & Ha1).
      rewrite (sm_bind_fin _ _ _ _ _ _ Ha1). destruct (P_wf2 _ _ _ _ _ Hk Hb Hl) as [Hb1 Hl1].
      destruct (IHy d q1 q2 (CPos t') (HPos t') (PPos t' vv) o (r_pos d q1 q2 t' vv Hvv) Hb1 Hl1 (proj1 (proj2 Hc))) as (r2 & He2 & Ha2).
      destruct (P_wf2 _ _ _ _ _ Hvv Hb1 Hl1) as [Hb2 Hl2].
      destruct (IHw d q2 rest (CMap t t' (len (VPair kv vv :: l') - 1)) (HMap t t') (PMap t t' l') o) as (r3 & He3 & Ha3); [|exact Hb2|exact Hl2|apply Hc|].
      { constructor; [|exact Hrest]. unfold len. cbn [length]. lia. }
      destruct r1 as [ob|er|pa].
      - rewrite (sm_bind_fin _ _ _ _ _ _ Ha2). destruct r2 as [ob2|er|pa].
        + exists (seen (OCons ob ob2) r3). split; [|apply (sm_map_fin _ _ _ _ _ _ Ha3)]. exists (Ok ob). split; [exact He1|]. exists (Ok ob2). split; [exact He2|]. exists r3. auto.
        + exists (Err er). split; [|reflexivity]. exists (Ok ob). split; [exact He1|]. exists (Err er). auto.
        + exists (Panic pa). split; [|reflexivity]. exists (Ok ob). split; [exact He1|]. exists (Panic pa). auto.
      - exists (Err er). split; [exists (Err er); auto|reflexivity].
      - exists (Panic pa). split; [exists (Panic pa); auto|reflexivity]. }
    destruct x; try exact Hgen. exists (Panic PType). split; reflexivity.
  (* Rest *)
  - eexists. split; [reflexivity|]. unfold sm_map, sm_bind. subst m. unfold len. rewrite Nat2N.id.
    rewrite (items_skip _ _ _ _ _ o Hv Hb Hl). reflexivity.
  - eexists. split; [reflexivity|]. unfold sm_map. subst m. unfold len. rewrite Nat2N.id. unfold sm_bind at 1.
    rewrite (entries_skip _ _ _ _ _ _ o Hv Hb Hl). reflexivity.
  - exists (Ok ODone). split; [destruct l as [|[[f0 pr0] v0] l]; reflexivity|].
    unfold sm_map, sm_bind. pose proof (chain_skip _ _ _ _ _ _ _ o Hv Hb Hl) as Hx.
    destruct fs as [|f fs]; rewrite Hx; reflexivity.
  (* Field *)
  - destruct fs as [|f fs].
    + inversion Hv; subst. eexists. split; reflexivity.
    + destruct (chain_step _ _ _ _ _ _ _ _ Hv Hb Hl) as (pr & v & l' & r' & bs' & -> & Hc' & Hb' & Hl' & Hdet & Hix & Hdec & Hsk & Hview & Hwalk).
      cbn [covered] in Hc. destruct Hc as [Hc1 Hc2].
      destruct (IHw d bs' rest (CStruct r' (i + 1) fs) (HFields (is_sindexed r') fs) (PFields (is_detached r') l') o) as (r2 & He2 & Ha2);
        [constructor; exact Hc'|exact Hb'|exact Hl'|rewrite Hix; exact Hc2|]. rewrite Hdet in He2.
      destruct x; try (exists (Panic PType); split; reflexivity).
      * exists (seen (OVal v) r2). split; [eauto|]. unfold sm_bind. rewrite (Hdec Hc1). cbn [fst snd]. exact (sm_map_fin _ (OCons (OVal v)) _ _ _ _ Ha2).
      * exists (seen ODone r2). split; [eauto|]. unfold sm_bind. rewrite Hsk. cbn [fst snd]. exact (sm_map_fin _ (OCons ODone) _ _ _ _ Ha2).
      * destruct (is_idx f) eqn:Ei; [eexists; split; reflexivity|]. specialize (Hwalk eq_refl). destruct (is_detached sr) eqn:Edet.
        { destruct sr; try discriminate Edet; eexists; split; reflexivity. }
        destruct (Hwalk eq_refl) as (-> & rev & -> & Hpr & Hpv). rewrite Hpr. destruct pr; cbn [negb].
        -- cbn [is_sindexed orb] in Hc1. destruct (IHx d bs bs' (CPos (f_ty f)) (HPos (f_ty f)) (PPos (f_ty f) v) o (r_pos d bs bs' (f_ty f) v (Hpv eq_refl)) Hb Hl Hc1) as (r1 & He1 & Ha1).
           rewrite sm_assoc. rewrite (sm_bind_fin _ _ _ _ _ _ Ha1). cbn [expect] in He1. destruct r1 as [ob|er|pa].
           ++ exists (seen ob r2). split; [exists (Ok ob); split; [exact He1|eauto]|]. apply (sm_map_fin _ _ _ _ _ _ Ha2).
           ++ exists (Err er). split; [exists (Err er); auto|reflexivity].
           ++ exists (Panic pa). split; [exists (Panic pa); auto|reflexivity].
        -- eexists. split; reflexivity.
      * destruct (is_idx f) eqn:Ei; [|eexists; split; reflexivity]. destruct (Hview eq_refl) as (x & Him & Hvw). exists (seen (OBytes x) r2). split; [eauto|].
        unfold sm_bind. rewrite Hvw. cbn [fst snd]. exact (sm_map_fin _ (OCons (OBytes x)) _ _ _ _ Ha2).
  (* Is *)
  - change (cur_variant s vs n) with (variant_here s vs n). destruct (variant_here s vs n) as [cf|] eqn:Ecv; [|exists (Panic PType); split; reflexivity].
    rewrite (His n) by congruence.
    destruct (kn =? n); [apply IH0 with (k := HEnum s vs)|apply IH1 with (k := HEnum s vs)];
      [apply r_enum with (fs := fs); assumption|exact Hb|exact Hl|apply Hc|apply r_enum with (fs := fs); assumption|exact Hb|exact Hl|apply Hc].
  (* IntoVar *)
  - cbn [covered] in Hc. change (cur_variant s vs n) with (variant_here s vs n). destruct (variant_here s vs n) as [cf|] eqn:Ecv; [|exists (Panic PType); split; reflexivity].
    destruct cf as [|f [|f2 cf]]; try (exists (Panic PType); split; reflexivity). rewrite (His n) by congruence.
    destruct (N.eqb_spec kn n) as [<-|Hn]; [|eexists; split; reflexivity]. rewrite Hhere in Ecv. inversion Ecv; subst fs. cbn [negb].
    unfold under_enum in Hv. destruct er as [rv xx|pp xx|bb cc xx]; cbn [e_detached] in *; [|eexists; split; reflexivity|eexists; split; reflexivity].
    destruct Hv as (v & -> & Hd).
    destruct (walked_ok w d (f_ty f) bs v rest o IHw Hd Hb Hl (proj1 Hc) (proj2 Hc)) as (r & He & Hx). exists r. split; [exists v; auto|exact Hx].
  (* DecodeVar *)
  - unfold variant_decode. change (cur_variant s vs n) with (variant_here s vs n). destruct (variant_here s vs n) as [cf|] eqn:Ecv; [|exists (Panic PType); split; reflexivity].
    destruct cf as [|f [|f2 cf]]; [| |exists (Panic PType); split; reflexivity]; rewrite (His n) by congruence;
      (destruct (N.eqb_spec kn n) as [<-|Hn]; [|eexists; split; reflexivity]); rewrite Hhere in Ecv; inversion Ecv; subst fs; unfold under_enum in Hv.
    + eexists. split; [reflexivity|]. destruct (e_detached er); [destruct Hv as [-> _]|subst rest]; reflexivity.
    + destruct (e_detached er) eqn:Edet.
      * destruct Hv as [-> (b & Hsl & _ & Hb1)]. destruct (Hb1 f eq_refl) as (v & y & -> & Hy). exists (Ok (OVal v)). split; [eauto|].
        destruct er as [rv xx|pp xx|bb cc xx]; [discriminate Edet| |]; unfold sm_bind; rewrite Hsl; unfold sm_map, sm_bind;
          rewrite (on_slice_run _ _ _ _ _ _ _ _ _ (split_at_0 _ b) Hy); reflexivity.
      * destruct Hv as (v & -> & Hd). exists (Ok (OVal v)). split; [eauto|]. destruct er as [rv xx|pp xx|bb cc xx]; try discriminate Edet.
        rewrite (sm_map_run _ _ _ _ _ _ _ _ (HP _ _ _ _ _ Hd Hb Hl)). reflexivity.
  (* ViewVar *)
  - unfold variant_view. change (cur_variant s vs n) with (variant_here s vs n). destruct (variant_here s vs n) as [cf|] eqn:Ecv; [|exists (Panic PType); split; reflexivity].
    assert (Hgen : cf <> [] -> exists r, (if negb (kn =? n) then r = Err (EDeserialize (MOther 2))
          else if e_detached er then exists b, payload_image E cf l b /\ r = Ok (OBytes b)
          else match cf with
               | [f] => exists v, l = [v] /\ r = rmap OBytes (to_vec E D (f_ty f) v)
               | _ => r = Err (EConversion (MOther 3))
               end) /\ (if is_variant er s vs n then
        match er with EWire _ _ => match cf with [f] => sm_bind (sr_run (deserialize E d (f_ty f))) (fun v =>
                       sm_map OBytes (sm_res (ser_bytes (ser_ty E (ser_ref E D) (f_ty f) v)))) | _ => sm_err (EConversion (MOther 3)) end
         | _ => sm_map OBytes (variant_slice er) end
      else sm_err (EDeserialize (MOther 2))) (mkSR bs o) = fin r rest o).
    { intros Hne. rewrite (His n) by congruence. destruct (N.eqb_spec kn n) as [<-|Hn]; cbn [negb]; [|eexists; split; reflexivity].
      rewrite Hhere in Ecv. inversion Ecv; subst cf. unfold under_enum in Hv. destruct (e_detached er) eqn:Edet.
      - destruct Hv as [-> (b & Hsl & Hpi & _)]. exists (Ok (OBytes b)). split; [eauto|]. destruct er as [rv xx|pp xx|bb cc xx]; [discriminate Edet| |];
          unfold sm_map, sm_bind; rewrite Hsl; reflexivity.
      - destruct er as [rv xx|pp xx|bb cc xx]; try discriminate Edet. destruct fs as [|f [|f2 fs]]; [congruence| |eexists; split; reflexivity].
        destruct Hv as (v & -> & Hd). exists (rmap OBytes (to_vec E D (f_ty f) v)). split; [eauto|].
        rewrite (sm_bind_run _ _ _ _ _ _ _ _ (HP _ _ _ _ _ Hd Hb Hl)). unfold to_vec, to_writer, sm_map, sm_bind, sm_res. destruct (ser_bytes _); reflexivity. }
    destruct cf as [|f [|f2 cf]]; [exists (Panic PType); split; reflexivity| |]; (destruct Hgen as (r & He & Hx); [congruence|]); exists r; (split; [exact He|]);
      destruct er as [rv xx|pp xx|bb cc xx]; exact Hx.
Qed.
End G.

(** ** Bytes that decode *)

Section L.
Variable E : env.
Variable D : nat.
Hypothesis W : wf_env E.
Hypothesis SB : spec_built E.
Definition plain (f : field) : Prop := plain_field f /\ (f_spec f = true -> e_spec E = true).
Definition kept (rev tgt : N) (f : field) : Prop := falive tgt f = false -> falive rev f = false.
Lemma run_seq_ok : forall sz p bs l rest, run (de_seq E sz p) bs = Ok (l, rest) ->
  exists r, run (de_len E) bs = Ok (len l, r) /\ run (rep (length l) p) r = Ok (l, rest).
Proof.
  intros sz p bs l rest H. unfold de_seq in H. rewrite run_bind in H. destruct (run (de_len E) bs) as [[n r]| |] eqn:E2; try discriminate.
  cbn [rbind] in H. destruct (N.eqb_spec n 0) as [->|Hn].
  - inversion H; subst. exists rest. split; reflexivity.
  - apply run_alloc_inv in H. pose proof (run_rep_length _ _ _ _ _ _ H) as Hl. exists r. unfold len. rewrite Hl, N2Nat.id. auto.
Qed.

Lemma mode_plain : forall d f bs, plain f ->
  run (de_mode E (de_ref E d) (mode_of false f) (f_ty f)) bs = run (deserialize E d (f_ty f)) bs \/
  exists p, run (de_mode E (de_ref E d) (mode_of false f) (f_ty f)) bs = Panic p.
Proof.
  intros d f bs ((Hf & Hi) & Hs). unfold mode_of, mode_legacy. rewrite Hf. destruct (f_spec f); [|left; reflexivity].
  specialize (Hs eq_refl). cbn [de_mode]. destruct (f_ty f) eqn:Et; try (right; eexists; reflexivity).
  destruct (bulk_of t) as [k|] eqn:Eb; [|right; eexists; reflexivity]. left. unfold deserialize. cbn [de_ty]. rewrite Hs, Eb. reflexivity.
Qed.
Lemma falive_old : forall r tgt f, falive tgt f = true -> r <= tgt -> falive r f = (f_start f <=? r).
Proof.
  intros r tgt f H Hr. unfold falive, exists_at in *. apply andb_prop in H. destruct H as [_ H]. destruct (f_end f) as [e|]; [|apply andb_true_r].
  apply N.ltb_lt in H. replace (r <? e) with true by (symmetry; apply N.ltb_lt; lia). apply andb_true_r.
Qed.

Lemma fields_step : forall d rev tgt f fs bs l rest, plain f -> falive tgt f = true -> rev <= tgt ->
  run (de_fields E (de_ref E d) false rev tgt (f :: fs)) bs = Ok ((l, []), rest) ->
  exists v l' r, l = v :: l' /\ run (de_fields E (de_ref E d) false rev tgt fs) r = Ok ((l', []), rest)
    /\ if f_start f <=? rev then run (deserialize E d (f_ty f)) bs = Ok (v, r) else f_default f rev = Ok v /\ r = bs.
Proof.
  intros d rev tgt f fs bs l rest Hp Ha Hr H. cbn [de_fields] in H. rewrite Ha, (falive_old rev tgt f Ha Hr) in H. destruct (f_start f <=? rev).
  - rewrite run_bind in H. destruct (run (de_mode E (de_ref E d) (mode_of false f) (f_ty f)) bs) as [[v r]| |] eqn:E1; try discriminate.
    destruct (mode_plain d f bs Hp) as [Hm|(p & Hm)]; [|congruence]. rewrite run_bind in H.
    destruct (run (de_fields E (de_ref E d) false rev tgt fs) r) as [[[l' m] r']| |] eqn:E2; try discriminate.
    cbn [run fst snd] in H. inversion H; subst. exists v, l', r. rewrite <- Hm. auto.
  - rewrite run_bind, run_of_res in H. destruct (f_default f rev) as [v| |]; try discriminate. cbn [rmap rbind] in H. rewrite run_bind in H.
    destruct (run (de_fields E (de_ref E d) false rev tgt fs) bs) as [[[l' m] r']| |] eqn:E2; try discriminate.
    cbn [run fst snd] in H. inversion H; subst. exists v, l', bs. auto.
Qed.
Lemma fields_filter : forall d rev tgt fs bs, Forall (kept rev tgt) fs ->
  run (de_fields E (de_ref E d) false rev tgt fs) bs = run (de_fields E (de_ref E d) false rev tgt (filter (falive tgt) fs)) bs.
Proof.
  intros d rev tgt fs bs Hf. revert bs. induction Hf as [|f fs Hp Hf IH]; intros bs; [reflexivity|]. cbn [filter de_fields].
  destruct (falive tgt f) eqn:Et.
  - cbn [de_fields]. rewrite Et. destruct (falive rev f); rewrite !run_bind;
      match goal with |- match ?x with _ => _ end = _ => destruct x as [[v r]| |]; try reflexivity end; rewrite !run_bind, IH; reflexivity.
  - rewrite (Hp Et). apply IH.
Qed.
Lemma fields_none_removed : forall d opt rev tgt fs bs p rest, Forall (kept rev tgt) fs ->
  run (de_fields E (de_ref E d) opt rev tgt fs) bs = Ok (p, rest) -> snd p = [].
Proof.
  intros d opt rev tgt fs bs p rest Hf. revert bs p rest. induction Hf as [|f fs Hp Hf IH]; intros bs p rest H; cbn [de_fields] in H.
  - inversion H; reflexivity.
  - destruct (falive rev f) eqn:Er, (falive tgt f) eqn:Et.
    + rewrite run_bind in H. match type of H with match ?x with _ => _ end = _ => destruct x as [[v r]| |]; try discriminate end.
      rewrite run_bind in H. match type of H with match ?x with _ => _ end = _ => destruct x as [[q r']| |] eqn:E2; try discriminate end.
      inversion H; subst. cbn [snd]. apply (IH _ _ _ E2).
    + exfalso. specialize (Hp Et). congruence.
    + rewrite run_bind in H. match type of H with match ?x with _ => _ end = _ => destruct x as [[v r]| |]; try discriminate end.
      rewrite run_bind in H. match type of H with match ?x with _ => _ end = _ => destruct x as [[q r']| |] eqn:E2; try discriminate end.
      inversion H; subst. cbn [snd]. apply (IH _ _ _ E2).
    + apply (IH _ _ _ H).
Qed.
Lemma fields_defaults : forall d rev tgt fs bs l rest, Forall plain fs -> Forall (fun f => falive tgt f = true) fs -> rev <= tgt ->
  run (de_fields E (de_ref E d) false rev tgt fs) bs = Ok ((l, []), rest) ->
  Forall2 (fun f x => rev < f_start f -> f_default f rev = Ok x) fs l.
Proof.
  intros d rev tgt fs. induction fs as [|f fs IH]; intros bs l rest Hf Ha Hr H.
  - inversion H; subst. constructor.
  - inversion Hf; subst. inversion Ha; subst. apply fields_step in H; [|assumption|assumption|assumption].
    destruct H as (v & l' & r & -> & H & Hv). constructor; [|apply (IH r l' rest); assumption].
    intros Hlt. destruct (N.leb_spec (f_start f) rev); [lia|]. apply Hv.
Qed.

Lemma sent_range : forall s r h, sent s r = Some h -> 1 <= r <= scur s.
Proof.
  intros s r h H. unfold sent in H. destruct (N.eqb_spec r 0); [discriminate|]. assert (Hl : (N.to_nat (r - 1) < length (s_hist s))%nat) by (apply nth_error_Some; congruence).
  unfold scur, len. lia.
Qed.
Lemma sent_in : forall s r h, sent s r = Some h -> In h (s_hist s).
Proof. intros s r h H. unfold sent in H. destruct (r =? 0); [discriminate|]. apply nth_error_In in H. exact H. Qed.

Lemma none_ended : forall s rev, has_convert s = false -> 1 <= rev <= scur s ->
  match s_body s with
  | SStruct fs => Forall (kept rev (scur s)) fs
  | SEnum vs => Forall (fun v => v_end v = None /\ Forall (kept rev (scur s)) (v_fields v)) vs
  end.
Proof.
  intros s rev H Hr. unfold has_convert in H. apply orb_false_iff in H. destruct H as [_ H].
  assert (Hk : forall f, ended (f_end f) = false -> kept rev (scur s) f).
  { intros f He Hc. unfold falive, exists_at in *. destruct (f_end f); [discriminate|]. rewrite andb_true_r in *. apply N.leb_gt in Hc. apply N.leb_gt. lia. }
  assert (Hx : forall A (p : A -> bool) l, existsb p l = false -> forall x, In x l -> p x = false).
  { intros A p l Hl x Hi. destruct (p x) eqn:Ep; [|reflexivity]. assert (existsb p l = true) by (apply existsb_exists; eauto). congruence. }
  destruct (s_body s) as [fs|vs]; apply Forall_forall; intros z Hz.
  - apply Hk. apply (Hx _ _ _ H z Hz).
  - pose proof (Hx _ _ _ H z Hz) as Hz'. cbv beta in Hz'. apply orb_false_iff in Hz'. destruct Hz' as [H1 H2]. split; [destruct (v_end z); [discriminate|reflexivity]|].
    apply Forall_forall. intros f Hf. apply Hk. apply (Hx _ _ _ H2 f Hf).
Qed.

Lemma converts_nil : forall cur l, converts cur l [] = Ok l.  Proof. reflexivity. Qed.

Lemma disc_is : forall rev s vs ds vr x k, wf_schema s -> s_body s = SEnum vs -> calc_disc rev vs = Some ds -> In (vr, x) ds ->
  is_variant (EWire rev x) s vs k = (v_name vr =? k).
Proof.
  intros rev s vs ds vr x k Ws Eb Ed Hin. destruct Ws as (_ & _ & Ws). rewrite Eb in Ws. destruct Ws as (Hnd & _). cbn [is_variant]. unfold disc_of. rewrite Ed.
  pose proof (calc_disc_nodup _ _ _ Ed) as Hn2. pose proof (calc_disc_fst _ _ _ Ed) as Hfst.
  assert (Hsub : forall v y, In (v, y) ds -> In v vs).
  { intros v y Hv. assert (Hi : In v (map fst ds)) by (apply in_map_iff; exists (v, y); auto). rewrite Hfst in Hi. apply filter_In in Hi. apply Hi. }
  assert (Hnn : forall v w, In v vs -> In w vs -> v_name v = v_name w -> v = w).
  { clear - Hnd. induction vs as [|a vs IH]; intros v w Hv Hw He; [destruct Hv|]. cbn [map] in Hnd. inversion Hnd; subst.
    destruct Hv as [->|Hv], Hw as [->|Hw]; [reflexivity| | |apply IH; assumption].
    - exfalso. apply H1. rewrite He. apply in_map. exact Hw.
    - exfalso. apply H1. rewrite <- He. apply in_map. exact Hv. }
  assert (Hdd : forall v w y, In (v, y) ds -> In (w, y) ds -> v = w).
  { clear - Hn2. induction ds as [|[a z] ds IH]; intros v w y Hv Hw; [destruct Hv|]. cbn [map snd] in Hn2. inversion Hn2; subst.
    destruct Hv as [Hv|Hv], Hw as [Hw|Hw]; [congruence| | |apply (IH H2 v w y); assumption].
    - inversion Hv; subst. exfalso. apply H1. apply in_map_iff. exists (w, y). auto.
    - inversion Hw; subst. exfalso. apply H1. apply in_map_iff. exists (v, y). auto. }
  unfold find_name. destruct (find _ ds) as [[w y]|] eqn:Ef.
  - apply find_some in Ef. destruct Ef as [Hw Hk]. cbn [fst] in Hk. apply N.eqb_eq in Hk. subst k.
    destruct (N.eqb_spec x y) as [->|Hxy].
    + rewrite (Hdd _ _ _ Hin Hw). symmetry. apply N.eqb_refl.
    + symmetry. apply N.eqb_neq. intros He. apply Hxy. assert (Hvw : vr = w) by (apply Hnn; eauto). subst w.
      clear - Hin Hw Hfst Hnd. assert (Hnd2 : NoDup (map fst ds)).
      { rewrite Hfst. apply NoDup_filter. apply (NoDup_map_inv v_name). exact Hnd. }
      clear Hfst. induction ds as [|[a z] ds IH]; [destruct Hin|]. cbn [map fst] in Hnd2. inversion Hnd2; subst.
      destruct Hin as [Hin|Hin], Hw as [Hw|Hw]; [congruence| | |apply IH; assumption].
      * inversion Hin; subst. exfalso. apply H1. apply in_map_iff. exists (vr, y). auto.
      * inversion Hw; subst. exfalso. apply H1. apply in_map_iff. exists (vr, x). auto.
  - symmetry. apply N.eqb_neq. intros He. apply (find_none _ _ Ef) in Hin. cbn [fst] in Hin. rewrite He, N.eqb_refl in Hin. discriminate.
Qed.
Lemma here_of : forall s vs vr, NoDup (map v_name vs) -> In vr vs -> valive (scur s) vr = true ->
  variant_here s vs (v_name vr) = Some (filter (falive (scur s)) (v_fields vr)).
Proof.
  intros s vs vr Hn Hi Ha. unfold variant_here. rewrite (find_some_uniq _ _ vs vr); [reflexivity|exact Hi| |].
  - rewrite N.eqb_refl. exact Ha.
  - intros y Hy Hk. apply andb_prop in Hk. destruct Hk as [Hk _]. apply N.eqb_eq in Hk. eapply NoDup_map_inj; [exact Hn|exact Hy|exact Hi|exact Hk].
Qed.
(** A variant with one field, which is there at both revisions. *)
Lemma one_field : forall d rev tgt f bs l rest, plain f -> f_start f <= rev -> falive tgt f = true -> rev <= tgt ->
  run (de_fields E (de_ref E d) false rev tgt [f]) bs = Ok ((l, []), rest) ->
  exists v, l = [v] /\ run (deserialize E d (f_ty f)) bs = Ok (v, rest).
Proof.
  intros d rev tgt f bs l rest Hp Hr Ht Hle H. apply fields_step in H; [|assumption|assumption|assumption]. destruct H as (v & l' & r & -> & H & Hv).
  apply N.leb_le in Hr. rewrite Hr in Hv. inversion H; subst. exists v. auto.
Qed.

Lemma rep_entry : forall n d t t' bs l rest, run (rep n (de_entry (deserialize E d t) (deserialize E d t'))) bs = Ok (l, rest) -> forall e l', l = e :: l' ->
  exists k v r1 r2, e = VPair k v /\ run (deserialize E d t) bs = Ok (k, r1) /\ run (deserialize E d t') r1 = Ok (v, r2)
    /\ run (rep (length l') (de_entry (deserialize E d t) (deserialize E d t'))) r2 = Ok (l', rest).
Proof.
  intros n d t t' bs l rest H e l' ->. destruct n as [|n]; [discriminate|]. rewrite run_rep_S in H.
  destruct (run (de_entry (deserialize E d t) (deserialize E d t')) bs) as [[e' r]| |] eqn:E1; try discriminate.
  destruct (run (rep n (de_entry (deserialize E d t) (deserialize E d t'))) r) as [[l0 r']| |] eqn:E2; try discriminate.
  inversion H; subst. pose proof (run_rep_length _ _ _ _ _ _ E2) as Hn. unfold de_entry in E1 at 1. rewrite run_bind in E1.
  destruct (run (deserialize E d t) bs) as [[k r1]| |] eqn:Ek; try discriminate. rewrite run_bind in E1.
  destruct (run (deserialize E d t') r1) as [[v r2]| |] eqn:Ev; try discriminate. inversion E1; subst. exists k, v, r1, r. auto.
Qed.
Lemma rep_item : forall n A (p : prog A) bs l rest, run (rep n p) bs = Ok (l, rest) -> forall x l', l = x :: l' ->
  exists r, run p bs = Ok (x, r) /\ run (rep (length l') p) r = Ok (l', rest).
Proof.
  intros n A p bs l rest H e l' ->. destruct n as [|n]; [discriminate|]. rewrite run_rep_S in H.
  destruct (run p bs) as [[e' r]| |] eqn:E1; try discriminate.
  destruct (run (rep n p) r) as [[l0 r']| |] eqn:E2; try discriminate.
  inversion H; subst. pose proof (run_rep_length _ _ _ _ _ _ E2) as Hn. exists r. rewrite Hn. auto.
Qed.
Variable M : N.
(** [dok]: the depths in question. *)
Variable dok : nat -> Prop.
Hypothesis dok_S : forall d, dok (S d) -> dok d.
Definition decoded (d : nat) (t : ty) (v : val) (bs rest : bytes) : Prop := dok d /\ run (deserialize E d t) bs = Ok (v, rest).
Lemma rep_items : forall n d t bs l rest, dok d -> run (rep n (deserialize E d t)) bs = Ok (l, rest) -> items decoded d t bs l rest.
Proof.
  intros n d t. induction n as [|n IH]; intros bs l rest Hd H; [inversion H; subst; constructor|].
  destruct l as [|x l]; [apply run_rep_length in H; discriminate|].
  destruct (rep_item _ _ _ _ _ _ H x l eq_refl) as (r & Hx & Hl). apply it_cons with r; [split; assumption|]. apply IH; [exact Hd|].
  pose proof (run_rep_length _ _ _ _ _ _ H) as Hn. cbn [length] in Hn. replace n with (length l) by lia. exact Hl.
Qed.
Lemma rep_entries : forall n d t t' bs l rest, dok d -> run (rep n (de_entry (deserialize E d t) (deserialize E d t'))) bs = Ok (l, rest) ->
  entries decoded d t t' bs l rest.
Proof.
  intros n d t t'. induction n as [|n IH]; intros bs l rest Hd H; [inversion H; subst; constructor|].
  destruct l as [|x l]; [apply run_rep_length in H; discriminate|].
  destruct (rep_entry _ _ _ _ _ _ _ H x l eq_refl) as (k & v & r1 & r2 & -> & Hk & Hv & Hl). apply en_cons with r1 r2; [split; assumption|split; assumption|]. apply IH; [exact Hd|].
  pose proof (run_rep_length _ _ _ _ _ _ H) as Hn. cbn [length] in Hn. replace n with (length l) by lia. exact Hl.
Qed.
Lemma fields_chain : forall d rev tgt fs i bs l rest, dok d -> Forall plain fs -> Forall (fun f => falive tgt f = true) fs -> rev <= tgt ->
  run (de_fields E (de_ref E d) false rev tgt fs) bs = Ok ((l, []), rest) ->
  chain E D decoded M d (SWire rev) i fs (combine (map (fun f => (f, f_start f <=? rev)) fs) l) bs rest.
Proof.
  intros d rev tgt fs. induction fs as [|f fs IH]; intros i bs l rest Hd Hp Ha Hr H; [inversion H; subst; constructor|].
  inversion Hp as [|? ? Hf Hp']; subst. inversion Ha as [|? ? Hfa Ha']; subst. destruct (fields_step _ _ _ _ _ _ _ _ Hf Hfa Hr H) as (v & l' & r & -> & Hl & Hv).
  assert (Hix : is_idx f = false) by (destruct Hf as ((_ & Hi) & _); unfold is_idx; rewrite Hi; reflexivity).
  cbn [map combine]. destruct (f_start f <=? rev) eqn:Ele.
  - apply N.leb_le in Ele. apply ch_wire with r; [exact Ele|intros _; split; assumption|congruence|apply IH; assumption].
  - apply N.leb_gt in Ele. destruct Hv as [Hv ->]. apply ch_absent; [exact Ele|exact Hix|exact Hv|apply IH; assumption].
Qed.

(** Opening a walker where decoding succeeds.  Data that is copied first: see WalkConvL.v. *)
Variable may : schema -> Prop.
Hypothesis Hmay : forall s, may s -> walkable s.
Hypothesis Hcopy : forall n s d rev r bs v rest o, e_sch E n = Some s -> may s -> run (de_u16 (e_fw E)) bs = Ok (rev, r) -> 1 <= rev <= scur s ->
  copied s rev = true -> decoded (S d) (TRef n) v bs rest -> wfb bs -> len bs < M ->
  open_at E D (opened E D) decoded M (S d) (TRef n) v bs rest o.

Lemma enter_ok : forall t d bs v rest o, decoded d t v bs rest -> wfb bs -> len bs < M -> opens E may t ->
  if refused E t then enter E D d t (mkSR bs o) = Err (EDeserialize MBulkVec) else open_at E D (opened E D) decoded M d t v bs rest o.
Proof.
  assert (Hrefl : forall bs : bytes, exists hd, bs = hd ++ bs) by (intros bs; exists []; reflexivity).
  assert (Hpos : forall t d bs v rest, dok d -> run (deserialize E d t) bs = Ok (v, rest) -> rel E D decoded M d bs rest (CPos t) (HPos t) (PPos t v)) by (intros; constructor; split; assumption).
  assert (Hsuf : forall A (p : prog A) bs a r, run p bs = Ok (a, r) -> exists hd, bs = hd ++ r).
  { intros A p bs a r H. apply run_suffix in H. destruct H as (u & Hu & _). eauto. }
  induction t; intros d bs v rest o [Hd H] Hwf HlM Hs; unfold open_at; cbn [refused enter kind_of];
    try (left; exists d; eexists; eexists; exists bs; split; [reflexivity|split; [apply Hpos; [exact Hd|exact H]|split; [reflexivity|apply Hrefl]]]).
  - (* TVec *) rewrite vec_uses_bulk_iff. destruct (e_spec E && match bulk_of t with Some _ => true | None => false end) eqn:Eb; [reflexivity|].
    assert (Hx : exists l, run (de_seq E (e_esize E t) (deserialize E d t)) bs = Ok (l, rest) /\ v = VSeq l).
    { unfold deserialize in *. cbn [de_ty] in H. destruct (e_spec E); cbn [andb] in Eb; [destruct (bulk_of t); [discriminate|]|];
        rewrite run_bind in H; destruct (run (de_seq E (e_esize E t) (de_ty E (de_ref E d) t)) bs) as [[l r]| |]; try discriminate; inversion H; subst; eauto. }
    destruct Hx as (l & Hx & ->). apply run_seq_ok in Hx. destruct Hx as (r & Hn & Hl). rewrite (sm_bind_run _ _ _ _ _ _ _ _ Hn).
    left. exists d, (CSeq t (len l)), (PSeq t l), r. split; [reflexivity|]. split; [constructor; [reflexivity|exact (rep_items _ _ _ _ _ _ Hd Hl)]|]. split; [cbn; eauto|]. apply (Hsuf _ _ _ _ _ Hn).
  - (* TImVec *)
    assert (Hx : exists l, run (de_seq E (e_esize E t) (deserialize E d t)) bs = Ok (l, rest) /\ v = VSeq l).
    { unfold deserialize in *. cbn [de_ty] in H.
        rewrite run_bind in H; destruct (run (de_seq E (e_esize E t) (de_ty E (de_ref E d) t)) bs) as [[l r]| |]; try discriminate; inversion H; subst; eauto. }
    destruct Hx as (l & Hx & ->). apply run_seq_ok in Hx. destruct Hx as (r & Hn & Hl). rewrite (sm_bind_run _ _ _ _ _ _ _ _ Hn).
    left. exists d, (CSeq t (len l)), (PSeq t l), r. split; [reflexivity|]. split; [constructor; [reflexivity|exact (rep_items _ _ _ _ _ _ Hd Hl)]|]. split; [cbn; eauto|]. apply (Hsuf _ _ _ _ _ Hn).
  - (* TOption *) unfold deserialize in H. cbn [de_ty] in H. rewrite run_bind in H. destruct (run read_byte bs) as [[b r]| |] eqn:Eb; try discriminate.
    rewrite (sm_bind_run _ _ _ _ _ _ _ _ Eb). destruct (N.eqb_spec b 0) as [->|H0]; [|destruct (N.eqb_spec b 1) as [->|H1]; [|discriminate]].
    + inversion H; subst. left. exists d, (COpt t 0), (POpt t None), rest. split; [reflexivity|]. split; [constructor; reflexivity|]. split; [left; auto|]. apply (Hsuf _ _ _ _ _ Eb).
    + cbn [orb]. rewrite run_bind in H. destruct (run (de_ty E (de_ref E d) t) r) as [[x r']| |] eqn:Ex; try discriminate. inversion H; subst.
      left. exists d, (COpt t 1), (POpt t (Some x)), r. split; [reflexivity|]. split; [constructor; split; [exact Hd|exact Ex]|]. split; [right; eauto|]. apply (Hsuf _ _ _ _ _ Eb).
  - (* TResult *) unfold deserialize in H. cbn [de_ty] in H. rewrite run_bind in H. destruct (run (de_u32 (e_fw E)) bs) as [[b r]| |] eqn:Eb; try discriminate.
    rewrite (sm_bind_run _ _ _ _ _ _ _ _ Eb). destruct (N.eqb_spec b 0) as [->|H0]; [|destruct (N.eqb_spec b 1) as [->|H1]; [|discriminate]]; cbn [orb];
      rewrite run_bind, run_map_err in H.
    + destruct (run (de_ty E (de_ref E d) t1) r) as [[x r']| |] eqn:Ex; try discriminate. cbn [rmap_err] in H. inversion H; subst.
      left. exists d, (CRes t1 t2 0), (PRes t1 t2 (inl x)), r. split; [reflexivity|]. split; [constructor; split; [exact Hd|exact Ex]|]. split; [exists x; left; auto|]. apply (Hsuf _ _ _ _ _ Eb).
    + destruct (run (de_ty E (de_ref E d) t2) r) as [[x r']| |] eqn:Ex; try discriminate. cbn [rmap_err] in H. inversion H; subst.
      left. exists d, (CRes t1 t2 1), (PRes t1 t2 (inr x)), r. split; [reflexivity|]. split; [constructor; split; [exact Hd|exact Ex]|]. split; [exists x; right; auto|]. apply (Hsuf _ _ _ _ _ Eb).
  - (* TMap *) unfold deserialize in H. cbn [de_ty] in H. rewrite run_bind in H.
    destruct (run (de_seq E (e_esize E (TPair t1 t2)) (de_entry (de_ty E (de_ref E d) t1) (de_ty E (de_ref E d) t2))) bs) as [[l r]| |] eqn:Hx; try discriminate. inversion H; subst.
    apply run_seq_ok in Hx. destruct Hx as (r & Hn & Hl). rewrite (sm_bind_run _ _ _ _ _ _ _ _ Hn).
    left. exists d, (CMap t1 t2 (len l)), (PMap t1 t2 l), r. split; [reflexivity|]. split; [constructor; [reflexivity|exact (rep_entries _ _ _ _ _ _ _ Hd Hl)]|]. split; [cbn; eauto|]. apply (Hsuf _ _ _ _ _ Hn).
  - (* TSet *) unfold deserialize in H. cbn [de_ty] in H. rewrite run_bind in H.
    destruct (run (de_seq E (e_esize E t) (de_ty E (de_ref E d) t)) bs) as [[l r]| |] eqn:Hx; try discriminate. inversion H; subst.
    apply run_seq_ok in Hx. destruct Hx as (r & Hn & Hl). rewrite (sm_bind_run _ _ _ _ _ _ _ _ Hn).
    left. exists d, (CSeq t (len l)), (PSeq t l), r. split; [reflexivity|]. split; [constructor; [reflexivity|exact (rep_items _ _ _ _ _ _ Hd Hl)]|]. split; [cbn; eauto|]. apply (Hsuf _ _ _ _ _ Hn).
  - (* THeap *) unfold deserialize in H. cbn [de_ty] in H. rewrite run_bind in H.
    destruct (run (de_seq E (e_esize E t) (de_ty E (de_ref E d) t)) bs) as [[l r]| |] eqn:Hx; try discriminate. inversion H; subst.
    apply run_seq_ok in Hx. destruct Hx as (r & Hn & Hl). rewrite (sm_bind_run _ _ _ _ _ _ _ _ Hn).
    left. exists d, (CSeq t (len l)), (PSeq t l), r. split; [reflexivity|]. split; [constructor; [reflexivity|exact (rep_items _ _ _ _ _ _ Hd Hl)]|]. split; [cbn; eauto|]. apply (Hsuf _ _ _ _ _ Hn).
  - (* TWrap *) apply (IHt d bs v rest o); try assumption. split; assumption.
  - (* TExt *) destruct mirror.
    + left. exists d. eexists _, _, bs. split; [reflexivity|]. split; [apply Hpos; [exact Hd|exact H]|split; [reflexivity|apply Hrefl]].
    + assert (Hx : exists y, run (deserialize E d t) bs = Ok (y, rest) /\ e_ext E c y = Some v).
      { unfold deserialize in *. cbn [de_ty] in H. rewrite run_bind in H. destruct (run (de_ty E (de_ref E d) t) bs) as [[y r]| |]; try discriminate.
        destruct (e_ext E c y) as [z|] eqn:Ez; inversion H; subst. eauto. }
      destruct t; try (left; exists d; eexists; eexists; exists bs; split; [reflexivity|split; [apply Hpos; [exact Hd|exact H]|split; [reflexivity|apply Hrefl]]]);
        destruct Hx as (y & Hy & Hz); left; exists d; eexists; eexists; exists bs; (split; [reflexivity|split; [apply Hpos; [exact Hd|exact Hy]|split; [exists y; split; [exact Hz|reflexivity]|apply Hrefl]]]).
  - (* TRef *) assert (Hdec : decoded d (TRef n) v bs rest) by (split; assumption).
    destruct d as [|d]; [discriminate|]. pose proof (dok_S _ Hd) as Hd'. unfold deserialize in H. cbn [de_ty de_ref] in H. cbn [opens] in Hs. destruct (e_sch E n) as [s|] eqn:En; [|discriminate].
    specialize (Hs s eq_refl). unfold de_derived in H. rewrite run_bind in H. destruct (run (de_u16 (e_fw E)) bs) as [[rev r]| |] eqn:Er; try discriminate.
    unfold de_body in H. destruct (sent s rev) as [h|] eqn:Eh; [|discriminate]. pose proof (sent_range _ _ _ Eh) as Hr.
    destruct (copied s rev) eqn:Ecp.
    { pose proof (Hcopy n s d rev r bs v rest o En Hs Er Hr Ecp Hdec Hwf HlM) as Hx. unfold open_at in Hx. cbn [enter kind_of] in Hx. rewrite En in Hx. exact Hx. }
    left. pose proof (Hmay _ Hs) as (Hall & Hwk).
    pose proof (proj1 (Forall_forall _ _) Hall h (sent_in _ _ _ Eh)) as Hopt. pose proof (we_sch E W n s En) as Ws.
    unfold sm_map, enter_derived. unfold sm_bind at 1. rewrite (sm_bind_run _ _ _ _ _ _ _ _ Er).
    replace ((rev =? 0) || (scur s <? rev)) with false by (symmetry; apply orb_false_iff; split; [apply N.eqb_neq|apply N.ltb_ge]; lia).
    unfold enter_struct, enter_enum. change (has_convert s && negb (rev =? scur s)) with (copied s rev). rewrite Ecp, Eh, Hopt in *.
    assert (Hkept : match s_body s with
                    | SStruct fs => Forall (kept rev (scur s)) fs
                    | SEnum vs => Forall (fun v => (valive rev v = true -> valive (scur s) v = true) /\ Forall (kept rev (scur s)) (v_fields v)) vs
                    end).
    { unfold copied in Ecp. apply andb_false_iff in Ecp. destruct Ecp as [Ec|Ec].
      - pose proof (none_ended s rev Ec Hr) as Hx. destruct (s_body s); [exact Hx|]. eapply Forall_impl; [|exact Hx]. intros z [Hz1 Hz2]. split; [|exact Hz2].
        unfold valive, exists_at. rewrite Hz1, !andb_true_r. rewrite !N.leb_le. lia.
      - apply negb_false_iff, N.eqb_eq in Ec. subst rev. destruct (s_body s); apply Forall_forall; [intros f _ Hf; exact Hf|]. intros z _. split; [auto|]. apply Forall_forall. intros f _ Hf. exact Hf. }
    destruct (s_body s) as [fs|vs] eqn:Ebd.
    + assert (Hp : Forall plain fs).
      { apply Forall_forall. intros f Hf. split; [exact (proj1 (Forall_forall _ _) Hwk f Hf)|]. intros Hsp. apply (SB n s f En); [rewrite Ebd; exact Hf|exact Hsp]. }
      unfold de_struct_legacy in H. rewrite run_bind in H. destruct (run (de_fields E (de_ref E d) false rev (scur s) fs) r) as [[[l m] r']| |] eqn:Ef; try discriminate.
      pose proof (fields_none_removed _ _ _ _ _ _ _ _ Hkept Ef) as Hm. cbn [snd] in Hm. subst m. cbn [fst snd converts of_res bind run] in H. apply Ok_inj in H. inversion H; subst. clear H.
      rewrite fields_filter in Ef by assumption.
      assert (Hpf : Forall plain (filter (falive (scur s)) fs)).
      { apply Forall_forall. intros f Hf. apply filter_In in Hf. apply (proj1 (Forall_forall _ _) Hp). apply Hf. }
      assert (Haf : Forall (fun f => falive (scur s) f = true) (filter (falive (scur s)) fs)) by (apply Forall_forall; intros f Hf; apply filter_In in Hf; apply Hf).
      exists d. eexists _, _, r. split; [reflexivity|]. split; [|split; [|apply (Hsuf _ _ _ _ _ Er)]].
      * assert (Hin : indexed_now s = is_sindexed (SWire rev)).
        { unfold indexed_now. destruct (sent s (scur s)) as [h'|] eqn:Eh'; [|reflexivity]. rewrite (proj1 (Forall_forall _ _) Hall h' (sent_in _ _ _ Eh')). reflexivity. }
        rewrite Hin. apply r_struct. exact (fields_chain d rev (scur s) _ 0 _ _ _ Hd' Hpf Haf (proj2 Hr) Ef).
      * cbn [opened]. exists s, rev. split; [exact En|]. split; [exact Hr|]. rewrite Ecp, Ebd. exists l. split; [reflexivity|]. split; [|reflexivity].
        apply (fields_defaults d rev (scur s) _ _ _ _ Hpf Haf (proj2 Hr) Ef).
    + unfold de_enum_legacy in H. destruct (calc_disc rev vs) as [ds|] eqn:Ed; [|discriminate]. rewrite run_bind in H.
      destruct (run (de_u32 (e_fw E)) r) as [[x r1]| |] eqn:Ex; try discriminate. rewrite (sm_bind_run _ _ _ _ _ _ _ _ Ex).
      destruct (find_disc x ds) as [[vr x']|] eqn:Efd; [|discriminate]. unfold find_disc in Efd. apply find_some in Efd. destruct Efd as [Hin Hx]. cbn [snd] in Hx. apply N.eqb_eq in Hx. subst x'.
      unfold de_variant_legacy in H. rewrite run_bind in H.
      destruct (run (de_fields E (de_ref E d) false rev (scur s) (v_fields vr)) r1) as [[[l m] r']| |] eqn:Ef; try discriminate.
      assert (Hvin : In vr vs /\ valive rev vr = true). { pose proof (calc_disc_fst _ _ _ Ed) as Hfst. assert (Hi : In vr (map fst ds)) by (apply in_map_iff; exists (vr, x); auto). rewrite Hfst in Hi. apply filter_In in Hi. exact Hi. }
      destruct Hvin as [Hvin Hval].
      pose proof (proj1 (Forall_forall _ _) Hkept vr Hvin) as (Hvc & Hvk). specialize (Hvc Hval).
      pose proof (proj1 (Forall_forall _ _) Hwk vr Hvin) as Hvf. cbv beta in Hvf.
      assert (Hp : forall f, In f (v_fields vr) -> plain f).
      { intros f Hf. split; [apply (proj1 (Forall_forall _ _) Hvf f Hf)|]. intros Hsp. apply (SB n s f En); [|exact Hsp]. rewrite Ebd. apply in_flat_map. eauto. }
      pose proof (fields_none_removed _ _ _ _ _ _ _ _ Hvk Ef) as Hm. cbn [snd] in Hm. subst m. cbn [fst snd converts of_res bind run] in H.
      rewrite Hvc in H. cbn [run] in H. apply Ok_inj in H. inversion H; subst. clear H. rewrite fields_filter in Ef by assumption.
      exists d, (CEnum (EWire rev x) s vs), (PEnum false s vs (v_name vr) l), r1. split; [reflexivity|]. split; [|split].
      * change false with (e_detached (EWire rev x)). apply r_enum with (fs := filter (falive (scur s)) (v_fields vr)).
        { intros k' _. exact (disc_is rev s vs ds vr x k' Ws Ebd Ed Hin). }
        { apply here_of; try assumption. destruct Ws as (_ & _ & Wb). rewrite Ebd in Wb. apply Wb. }
        unfold under_enum. cbn [e_detached]. destruct (filter (falive (scur s)) (v_fields vr)) as [|f [|f2 fs]] eqn:Evf; [| |exact I].
        { inversion Ef; subst. reflexivity. }
        assert (Hf : In f (v_fields vr) /\ falive (scur s) f = true) by (apply filter_In; rewrite Evf; left; reflexivity). destruct Hf as [Hf Hfa].
        assert (Hst : f_start f <= rev).
        { unfold copied in Ecp. apply andb_false_iff in Ecp. destruct Ecp as [Ec|Ec].
          - destruct (proj2 (proj1 (Forall_forall _ _) Hvf f Hf)) as [Hy|Hy]; [congruence|]. unfold valive, exists_at in Hval. apply andb_prop in Hval. destruct Hval as [Hval _]. apply N.leb_le in Hval. lia.
          - apply negb_false_iff, N.eqb_eq in Ec. subst rev. unfold falive, exists_at in Hfa. apply andb_prop in Hfa. destruct Hfa as [Hfa _]. apply N.leb_le in Hfa. exact Hfa. }
        destruct (one_field d rev (scur s) f _ _ _ (Hp f Hf) Hst Hfa (proj2 Hr) Ef) as (vv & Hvv & Hrun). exists vv. split; [exact Hvv|]. split; assumption.
      * cbn [opened]. exists s, rev. split; [exact En|]. split; [exact Hr|]. rewrite Ecp, Ebd. eauto.
      * destruct (Hsuf _ _ _ _ _ Er) as (h1 & ->). destruct (Hsuf _ _ _ _ _ Ex) as (h2 & ->). exists (h1 ++ h2). apply app_assoc.
Qed.

(** Any script on whatever decodes. *)
Hypothesis HM : M <= 2 ^ e_ub E.
Theorem walk_decoded_gen : forall a t d bs v rest o, dok d -> run (deserialize E d t) bs = Ok (v, rest) -> wfb bs -> len bs < M ->
  opens E may t -> covered E may (kind_of E t) a ->
  exists r, (if refused E t then r = Err (EDeserialize MBulkVec) else exists c, opened E D t v c /\ expect E D (opened E D) c a r)
    /\ sm_bind (enter E D d t) (fun p => act_on E D (fst p) (snd p) a) (mkSR bs o) = fin r rest o.
Proof.
  intros a t d bs v rest o Hd H Hb Hl Ho Hc.
  assert (HPd : forall d t v bs rest, decoded d t v bs rest -> wfb bs -> len bs < M -> run (deserialize E d t) bs = Ok (v, rest)) by (intros d0 t0 v0 bs0 rest0 [_ H0] _ _; exact H0).
  apply (walked_ok E D (opened E D) may decoded M HM HPd enter_ok a d t bs v rest o); try assumption; [|split; assumption].
  apply (agree_all E D (opened E D) may decoded M HM SB HPd enter_ok).
Qed.
End L.

Theorem walk_decoded : forall E D, wf_env E -> spec_built E ->
  forall a t d bs v rest o, run (deserialize E d t) bs = Ok (v, rest) -> wfb bs -> len bs < 2 ^ e_ub E ->
  opens E simple_schema t -> covered E simple_schema (kind_of E t) a ->
  exists r, (if refused E t then r = Err (EDeserialize MBulkVec) else exists c, opened E D t v c /\ expect E D (opened E D) c a r)
    /\ sm_bind (enter E D d t) (fun p => act_on E D (fst p) (snd p) a) (mkSR bs o) = fin r rest o.
Proof.
  intros E D W SB a t d bs v rest o. apply (walk_decoded_gen E D W SB (2 ^ e_ub E) (fun _ => True) (fun _ H => H) simple_schema); [intros s [H _]; exact H| |apply N.le_refl|exact I].
  intros n s d' rev r bs' v' rest' o' _ [_ Hc] _ _ Hx. unfold copied in Hx. rewrite Hc in Hx. discriminate.
Qed.
