(** C80: the crate's [unsafe] code has no undefined behaviour, whatever the reader or writer does. *)

From Verif Require Import Base BaseL Prog ProgL Prim Ty Ser De Ex Agree Unsafe.
From Coq Require Import List NArith ZArith Bool Lia ZifyBool ZifyN ZifyNat.
Import ListNotations.
Open Scope N_scope.

(** ** What is claimed *)

(** [v] is a valid vector of elements of [sz] bytes whose memory holds [data]. *)
Definition holds (E : env) (sz : N) (h : heap) (v : rvec) (data : list N) : Prop :=
  len data = v_len v * sz /\ v_len v <= v_cap v /\
  match v_block v with
  | None => v_cap v * sz = 0
  | Some i => exists d, nth_error h i = Some (mkBlock true d) /\ len d = v_cap v * sz /\ len d <= isize_max E
                /\ firstn (N.to_nat (len data)) d = map Some data
  end.
(** Nothing that was there before has changed; of what was allocated since, only [own] is not freed. *)
Definition only (h h' : heap) (own : option nat) : Prop :=
  (forall i b, nth_error h i = Some b -> nth_error h' i = Some b)
  /\ (forall i b, (length h <= i)%nat -> nth_error h' i = Some b -> b_live b = true -> own = Some i)
  /\ (forall i, own = Some i -> (length h <= i)%nat).
(** No undefined behaviour; if a vector is returned it is valid, and nothing is leaked in any case. *)
Definition safely (E : env) {St} (sz : N) (f : mem (St := St) rvec) : Prop := forall s h,
  match f (s, h) with
  | (MOk v, (_, h')) => only h h' (v_block v) /\ exists data, holds E sz h' v data
  | (MErr _, (_, h')) => only h h' None
  | (MPanic _, (_, h')) => only h h' None
  | (MUB, _) => False
  end.

(** ** Lists *)

Lemma nth_set : forall h i b j, (i < length h)%nat -> nth_error (set_block h i b) j = if Nat.eqb j i then Some b else nth_error h j.
Proof.
  intros h i b j Hi. unfold set_block. assert (Hf : length (firstn i h) = i) by (rewrite firstn_length; lia).
  destruct (Nat.eqb_spec j i) as [->|Hn].
  - rewrite nth_error_app2 by lia. rewrite Hf, Nat.sub_diag. reflexivity.
  - destruct (Nat.lt_ge_cases j i) as [H|H].
    + rewrite nth_error_app1 by lia. rewrite <- (firstn_skipn i h) at 2. rewrite nth_error_app1 by lia. reflexivity.
    + rewrite nth_error_app2 by lia. rewrite Hf. replace (j - i)%nat with (S (j - S i)) by lia. cbn [nth_error].
      rewrite <- (firstn_skipn (S i) h) at 2. rewrite nth_error_app2 by (rewrite firstn_length; lia). f_equal. rewrite firstn_length. lia.
Qed.
Lemma set_length : forall h i b, (i < length h)%nat -> length (set_block h i b) = length h.
Proof. intros h i b Hi. unfold set_block. rewrite app_length. cbn [length]. rewrite firstn_length, skipn_length. lia. Qed.
Lemma nth_lt : forall (h : heap) i b, nth_error h i = Some b -> (i < length h)%nat.
Proof. intros h i b H. apply nth_error_Some. congruence. Qed.
Lemma all_some_map : forall x, all_some (map Some x) = Some x.
Proof. induction x as [|b x IH]; [reflexivity|]. cbn [map all_some]. rewrite IH. reflexivity. Qed.
Lemma fit_len : forall n l, len (fit n l) = n.
Proof. intros n l. unfold fit, len. rewrite firstn_length, app_length, map_length, repeat_length. lia. Qed.
Lemma only_refl : forall h, only h h None.
Proof. intros h. split; [auto|]. split; [|discriminate]. intros i b H1 H2. apply nth_lt in H2. lia. Qed.
Lemma only_len : forall h h' o, only h h' o -> (length h <= length h')%nat.
Proof.
  intros h h' o (H & _). destruct (Nat.le_gt_cases (length h) (length h')) as [Hl|Hl]; [exact Hl|]. exfalso.
  destruct (nth_error h (length h')) as [b|] eqn:E; [|apply nth_error_None in E; lia]. apply H in E. apply nth_lt in E. lia.
Qed.

(** ** The operations *)

Section Ops.
Variable E : env.
Context {St : Type}.
Variable R : reader St.
Variable spare : N -> N.

(** The invariant: a vector under construction since the heap was [h0]. *)
Definition inv (h0 : heap) (sz : N) (h : heap) (v : rvec) (data : list N) : Prop := holds E sz h v data /\ only h0 h (v_block v).

Lemma alloc_only : forall h0 h c, only h0 h None -> only h0 (h ++ [mkBlock true c]) (Some (length h)).
Proof.
  intros h0 h c H. pose proof (only_len _ _ _ H) as Hl. destruct H as (H1 & H2 & _). split; [|split].
  - intros i b Hi. apply H1 in Hi. rewrite nth_error_app1 by (eapply nth_lt; exact Hi). exact Hi.
  - intros i b Hi Hb Hv. destruct (Nat.lt_ge_cases i (length h)) as [Hi'|Hi'].
    + rewrite nth_error_app1 in Hb by exact Hi'. pose proof (H2 i b Hi Hb Hv). discriminate.
    + pose proof (nth_lt _ _ _ Hb) as Hu. rewrite app_length in Hu. cbn in Hu. f_equal. lia.
  - intros i Hi. injection Hi as <-. exact Hl.
Qed.
Lemma drop_inv : forall h0 sz h v data s, inv h0 sz h v data -> exists h', v_drop (St := St) v (s, h) = (MOk tt, (s, h')) /\ only h0 h' None.
Proof.
  intros h0 sz h v data s [(_ & _ & Hb) Ho]. unfold v_drop. destruct (v_block v) as [i|]; [|eexists; split; [reflexivity|exact Ho]].
  destruct Hb as (d & Hd & _). unfold m_free. rewrite Hd. eexists. split; [reflexivity|]. pose proof (nth_lt _ _ _ Hd) as Hi. destruct Ho as (H1 & H2 & H3).
  specialize (H3 i eq_refl). split; [|split; [|discriminate]].
  - intros j b Hj. rewrite nth_set by exact Hi. destruct (Nat.eqb_spec j i) as [->|Hn]; [apply nth_lt in Hj; lia|apply H1, Hj].
  - intros j b Hj Hb Hv. rewrite nth_set in Hb by exact Hi. destruct (Nat.eqb_spec j i) as [->|Hn]; [injection Hb as <-; discriminate|].
    pose proof (H2 j b Hj Hb Hv) as Hc. congruence.
Qed.
(** Early returns and panics free the vector. *)
Definition bound (h0 : heap) {A} (P : A -> heap -> Prop) (r : mout A * (St * heap)) : Prop :=
  match r with
  | (MOk a, (_, h')) => P a h'
  | (MErr _, (_, h')) => only h0 h' None
  | (MPanic _, (_, h')) => only h0 h' None
  | (MUB, _) => False
  end.
Lemma bound_bind : forall h0 A B (m : mem A) (f : A -> mem B) s h P Q, bound h0 P (m (s, h)) ->
  (forall a s' h', P a h' -> bound h0 Q (f a (s', h'))) -> bound h0 Q (mbind m f (s, h)).
Proof.
  intros h0 A B m f s h P Q Hm Hf. unfold mbind. unfold bound in Hm. destruct (m (s, h)) as [[a|e|p|] [s' h']]; [apply Hf, Hm|exact Hm|exact Hm|contradiction].
Qed.
Lemma prog_pure : forall A (p : prog A) s h, match m_prog R p (s, h) with (MUB, _) => False | (_, (_, h')) => h' = h end.
Proof.
  intros A p. induction p as [a|e|x|n e k IH]; intros s h; try reflexivity. cbn [m_prog]. destruct (rd_exact R s (repeat 0 (N.to_nat n))) as [[[u|e'|x] buf] s']; [apply IH|reflexivity|reflexivity].
Qed.
Lemma prog_bind : forall A B (p : prog A) (f : A -> prog B) st, m_prog R (bind p f) st = mbind (m_prog R p) (fun a => m_prog R (f a)) st.
Proof.
  intros A B p f. induction p as [a|e|x|n e k IH]; intros [s h]; try reflexivity. cbn [bind m_prog]. unfold mbind. cbn [m_prog].
  destruct (rd_exact R s (repeat 0 (N.to_nat n))) as [[[u|e'|x] buf] s']; [apply IH|reflexivity|reflexivity].
Qed.
Lemma len_bound : forall h0 s h, only h0 h None -> bound h0 (fun n h' => n < 2 ^ e_ub E /\ h' = h) (m_prog R (de_len E) (s, h)).
Proof.
  intros h0 s h H. unfold de_len, de_usize. rewrite prog_bind. unfold mbind. pose proof (prog_pure _ (de_u64 (e_fw E)) s h) as Hp.
  destruct (m_prog R (de_u64 (e_fw E)) (s, h)) as [[x|e|p|] [s' h']]; cbn [bound m_prog mret]; try (subst; assumption); try contradiction.
  unfold mret. cbn. split; [|exact Hp]. apply N.mod_lt. apply N.pow_nonzero. discriminate.
Qed.
Lemma prog_bound : forall A (p : prog A) h0 s h, only h0 h None -> bound h0 (fun _ h' => h' = h) (m_prog R p (s, h)).
Proof.
  intros A p h0 s h H. pose proof (prog_pure _ p s h) as Hp. destruct (m_prog R p (s, h)) as [[x|e|q|] [s' h']]; cbn [bound]; subst; auto.
Qed.
Lemma owning_bound : forall A (v : rvec) (m : mem A) h0 sz h data s (P : A -> heap -> Prop), inv h0 sz h v data ->
  match m (s, h) with
  | (MOk a, (_, h')) => P a h'
  | (MErr _, (_, h')) => exists data', inv h0 sz h' v data'
  | (MPanic _, (_, h')) => exists data', inv h0 sz h' v data'
  | (MUB, _) => False
  end -> bound h0 P (owning v m (s, h)).
Proof.
  intros A v m h0 sz h data s P Hi H. unfold owning. destruct (m (s, h)) as [[a|e|p|] [s' h']]; [exact H| | |contradiction];
    destruct H as (d' & Hd); destruct (drop_inv h0 sz h' v d' s' Hd) as (h2 & Hv & Ho); unfold mbind; rewrite Hv; exact Ho.
Qed.
Lemma capacity_bound : forall h0 sz n s h, only h0 h None -> n < 2 ^ e_ub E ->
  bound h0 (fun v h' => inv h0 sz h' v [] /\ v_len v = 0 /\ n <= v_cap v) (v_with_capacity E spare sz n (s, h)).
Proof.
  intros h0 sz n s h Ho Hn. unfold v_with_capacity. destruct (N.eqb_spec (n * sz) 0) as [Hz|Hz].
  - cbn. split; [split; [|exact Ho]|].
    + split; [reflexivity|]. cbn [v_len v_cap v_block]. split; [lia|]. destruct (N.eqb_spec sz 0) as [->|Hs]; [apply N.mul_0_r|reflexivity].
    + split; [reflexivity|]. destruct (N.eqb_spec sz 0) as [->|Hs]; [lia|]. apply N.eq_mul_0 in Hz. lia.
  - destruct (fits E (n * sz)) eqn:Ef; [|exact Ho]. apply andb_prop in Ef. destruct Ef as [Ef _]. apply N.leb_le in Ef.
    unfold mbind, m_alloc. cbn [bound mret]. unfold mret. assert (Hs : sz <> 0) by (intros ->; rewrite N.mul_0_r in Hz; contradiction).
    pose proof (N.mul_div_le (isize_max E - n * sz) sz Hs) as Hd.
    assert (Hr : room E spare sz n * sz <= isize_max E).
    { unfold room. rewrite N.mul_add_distr_r. pose proof (N.le_min_r (spare n) ((isize_max E - n * sz) / sz)) as Hm. apply N.mul_le_mono_r with (p := sz) in Hm. lia. }
    split; [split|].
    + split; [reflexivity|]. cbn [v_len v_cap v_block]. split; [lia|]. eexists. split; [rewrite nth_error_app2 by lia; rewrite Nat.sub_diag; reflexivity|].
      unfold len at 1 2. rewrite repeat_length, N2Nat.id. split; [reflexivity|]. split; [exact Hr|reflexivity].
    + cbn [v_block]. apply alloc_only, Ho.
    + cbn [v_len v_cap]. split; [reflexivity|]. unfold room. apply N.le_add_r.
Qed.
Lemma zeroed_bound : forall h0 sz n s h, only h0 h None -> n < 2 ^ e_ub E ->
  bound h0 (fun v h' => inv h0 sz h' v (repeat 0 (N.to_nat (n * sz))) /\ v_len v = n) (v_zeroed E sz n (s, h)).
Proof.
  intros h0 sz n s h Ho Hn. unfold v_zeroed. destruct (N.eqb_spec (n * sz) 0) as [Hz|Hz].
  - cbn. split; [split; [|exact Ho]|reflexivity]. unfold holds. cbn [v_len v_cap v_block]. unfold len. rewrite repeat_length, N2Nat.id. split; [reflexivity|]. apply N.eq_mul_0 in Hz.
    destruct (N.eqb_spec sz 0) as [->|Hs]; lia.
  - destruct (fits E (n * sz)) eqn:Ef; [|exact Ho]. apply andb_prop in Ef. destruct Ef as [Ef _]. apply N.leb_le in Ef.
    unfold mbind, m_alloc. cbn [bound mret]. unfold mret. split; [split|reflexivity].
    + unfold holds. cbn [v_len v_cap v_block]. unfold len at 1. rewrite repeat_length, N2Nat.id. split; [reflexivity|]. split; [lia|].
      eexists. split; [rewrite nth_error_app2 by lia; rewrite Nat.sub_diag; reflexivity|]. unfold len at 1 2 3. rewrite !repeat_length, !N2Nat.id.
      split; [reflexivity|]. split; [exact Ef|]. rewrite firstn_all2 by (rewrite repeat_length; lia). clear. induction (N.to_nat (n * sz)) as [|k IH]; [reflexivity|]. cbn [repeat map]. rewrite IH. reflexivity.
    + cbn [v_block]. apply alloc_only, Ho.
Qed.
Lemma slice_holds : forall sz h v data s, holds E sz h v data -> m_slice E (v_block v) (v_len v * sz) (St := St) (s, h) = (MOk data, (s, h)).
Proof.
  intros sz h v data s (Hl & Hc & Hb). unfold m_slice. destruct (v_block v) as [i|].
  - destruct Hb as (d & Hd & H1 & H2 & H3). assert (Hm : v_len v * sz <= len d) by (rewrite H1; apply N.mul_le_mono_r, Hc).
    replace (isize_max E <? v_len v * sz) with false by (symmetry; apply N.ltb_ge; lia). rewrite Hd. apply N.leb_le in Hm. rewrite Hm.
    rewrite <- Hl, H3, all_some_map. reflexivity.
  - assert (Hz : v_len v * sz = 0) by (pose proof (N.mul_le_mono_r _ _ sz Hc); lia). rewrite Hz in *. replace (isize_max E <? 0) with false by (symmetry; apply N.ltb_ge; lia). destruct data; [reflexivity|]. rewrite len_cons in Hl. lia.
Qed.
(** Overwriting the contents, and adding to them. *)
Lemma write_at : forall h0 h i d off x s, only h0 h (Some i) -> nth_error h i = Some (mkBlock true d) -> off + len x <= len d ->
  exists h', m_write (St := St) i off x (s, h) = (MOk tt, (s, h')) /\ only h0 h' (Some i)
    /\ nth_error h' i = Some (mkBlock true (firstn (N.to_nat off) d ++ map Some x ++ skipn (N.to_nat (off + len x)) d)).
Proof.
  intros h0 h i d off x s (H1 & H2 & H3) Hd Hx. unfold m_write. rewrite Hd. apply N.leb_le in Hx. rewrite Hx. pose proof (nth_lt _ _ _ Hd) as Hi. specialize (H3 i eq_refl).
  eexists. split; [reflexivity|]. split; [|rewrite nth_set by exact Hi; rewrite Nat.eqb_refl; reflexivity]. split; [|split; [|intros j E0; injection E0 as <-; exact H3]].
  - intros j b Hj. rewrite nth_set by exact Hi. destruct (Nat.eqb_spec j i) as [->|Hn]; [apply nth_lt in Hj; lia|apply H1, Hj].
  - intros j b Hj Hb Hv. rewrite nth_set in Hb by exact Hi. destruct (Nat.eqb_spec j i) as [->|Hn]; [reflexivity|exact (H2 j b Hj Hb Hv)].
Qed.
Lemma len_parts : forall (d : list cell) off (x : list N), off + len x <= len d -> len (firstn (N.to_nat off) d ++ map Some x ++ skipn (N.to_nat (off + len x)) d) = len d.
Proof. intros d off x H. unfold len in *. rewrite !app_length, map_length, firstn_length, skipn_length. lia. Qed.
Lemma overwrite : forall h0 sz h v data i x s, inv h0 sz h v data -> v_block v = Some i -> len x = len data ->
  exists h', m_write (St := St) i 0 x (s, h) = (MOk tt, (s, h')) /\ inv h0 sz h' v x.
Proof.
  intros h0 sz h v data i x s [(Hl & Hc & Hb) Ho] Hi Hx. rewrite Hi in *. destruct Hb as (d & Hd & H1 & H2 & H3).
  assert (Hm : 0 + len x <= len d) by (rewrite H1, Hx, Hl; apply N.mul_le_mono_r, Hc).
  destruct (write_at h0 h i d 0 x s Ho Hd Hm) as (h' & Hw & Ho' & Hd'). exists h'. split; [exact Hw|]. split; [|rewrite Hi; exact Ho'].
  split; [congruence|]. split; [exact Hc|]. rewrite Hi. eexists. split; [exact Hd'|]. rewrite len_parts by exact Hm. split; [exact H1|]. split; [exact H2|].
  cbn [N.to_nat firstn app]. replace (N.to_nat (len x)) with (length (map (@Some N) x)) by (rewrite map_length; unfold len; lia). rewrite firstn_app, Nat.sub_diag, firstn_all. cbn [firstn]. apply app_nil_r.
Qed.
Lemma add : forall h0 sz h v data i x k s, inv h0 sz h v data -> v_block v = Some i -> len x = k * sz -> v_len v + k <= v_cap v ->
  exists h', m_write (St := St) i (v_len v * sz) x (s, h) = (MOk tt, (s, h')) /\ inv h0 sz h' (mkV (v_block v) (v_len v + k) (v_cap v)) (data ++ x).
Proof.
  intros h0 sz h v data i x k s [(Hl & Hc & Hb) Ho] Hi Hx Hk. rewrite Hi in *. destruct Hb as (d & Hd & H1 & H2 & H3).
  assert (Hm : v_len v * sz + len x <= len d) by (rewrite H1, Hx, <- N.mul_add_distr_r; apply N.mul_le_mono_r, Hk).
  destruct (write_at h0 h i d (v_len v * sz) x s Ho Hd Hm) as (h' & Hw & Ho' & Hd'). exists h'. split; [exact Hw|]. split; [|exact Ho'].
  split; [|split; [exact Hk|]]; cbn [v_len v_cap v_block]; [rewrite len_app, Hl, Hx, N.mul_add_distr_r; reflexivity|].
  eexists. split; [exact Hd'|]. rewrite len_parts by exact Hm. split; [exact H1|]. split; [exact H2|].
  rewrite <- Hl, H3, len_app, map_app, app_assoc, <- map_app.
  replace (N.to_nat (len data + len x)) with (length (map (@Some N) (data ++ x))) by (rewrite map_length, app_length; unfold len; lia).
  rewrite firstn_app, Nat.sub_diag, firstn_all. cbn [firstn]. rewrite app_nil_r, map_app. reflexivity.
Qed.

(** ** The functions *)

Lemma read_exact_inv : forall h0 sz h v data s, inv h0 sz h v data ->
  match m_read_exact E R (v_block v) (v_len v * sz) (s, h) with
  | (MOk _, (_, h')) => exists data', inv h0 sz h' v data'
  | (MErr _, (_, h')) => exists data', inv h0 sz h' v data'
  | (MPanic _, (_, h')) => exists data', inv h0 sz h' v data'
  | (MUB, _) => False
  end.
Proof.
  intros h0 sz h v data s Hi. unfold m_read_exact. unfold mbind at 1. rewrite (slice_holds sz h v data s (proj1 Hi)).
  destruct (rd_exact R s data) as [[r buf] s']. unfold mbind. destruct (v_block v) as [i|] eqn:Eb.
  - destruct (overwrite h0 sz h v data i (fit (v_len v * sz) buf) s' Hi Eb) as (h' & Hw & Hi'); [rewrite fit_len; symmetry; apply Hi|]. rewrite Hw. destruct r; cbn; eauto.
  - cbn [mret]. unfold mret. destruct r; cbn; eauto.
Qed.
Lemma bulk_safe : forall sz, safely E sz (bulk_read E R sz).
Proof.
  intros sz s h. change (bound h (fun v h' => only h h' (v_block v) /\ exists data, holds E sz h' v data) (bulk_read E R sz (s, h))). unfold bulk_read.
  eapply bound_bind; [apply len_bound, only_refl|]. intros n s' h' [Hn ->]. destruct (n =? 0) eqn:E0.
  - cbn. split; [apply only_refl|]. exists []. split; [reflexivity|]. split; [reflexivity|reflexivity].
  - destruct (n * sz <? 2 ^ e_ub E); [|apply only_refl]. eapply bound_bind; [apply zeroed_bound; [apply only_refl|exact Hn]|].
    intros v s2 h2 [Hi Hv]. eapply owning_bound; [exact Hi|]. unfold mbind. rewrite <- Hv. pose proof (read_exact_inv h sz h2 v _ s2 Hi) as Q.
    destruct (m_read_exact E R (v_block v) (v_len v * sz) (s2, h2)) as [[u|e|p|] [s3 h3]]; try exact Q. destruct Q as (d & Hh & Ho). cbn. eauto.
Qed.
Lemma append_inv : forall h0 h v data x s, inv h0 1 h v data -> v_len v + len x <= v_cap v ->
  exists v' h', v_append E (St := St) v x (s, h) = (MOk v', (s, h')) /\ inv h0 1 h' v' (data ++ x) /\ v_len v' = v_len v + len x.
Proof.
  intros h0 h v data x s Hi Hx. unfold v_append. destruct (N.eqb_spec (len x) 0) as [Hz|Hz].
  - exists v, h. split; [reflexivity|]. apply len_0 in Hz. subst x. rewrite app_nil_r. split; [exact Hi|]. cbn. lia.
  - apply N.leb_le in Hx as Hx'. rewrite Hx'. destruct (v_block v) as [i|] eqn:Eb.
    + destruct (add h0 1 h v data i x (len x) s Hi Eb) as (h' & Hw & Hi'); [lia|exact Hx|]. rewrite N.mul_1_r in Hw. unfold mbind. rewrite Hw. rewrite Eb in Hi'. do 2 eexists. split; [reflexivity|]. split; [exact Hi'|reflexivity].
    + exfalso. destruct Hi as [(_ & _ & Hb) _]. rewrite Eb in Hb. lia.
Qed.
Lemma to_end_inv : forall h0 h v n s, inv h0 1 h v [] -> v_len v = 0 -> n <= v_cap v ->
  exists r got v' s' h' x, read_to_end E R v n (s, h) = (MOk (r, got, v'), (s', h')) /\ inv h0 1 h' v' x /\ len x = got /\ v_len v' = got.
Proof.
  intros h0 h v n s Hi Hl Hn. unfold read_to_end. destruct (rd_take R s n) as [[r x] s'].
  destruct (append_inv h0 h v [] (firstn (N.to_nat n) (map byte_of x)) s' Hi) as (v' & h' & Ha & Hi' & Hv).
  { rewrite Hl. unfold len. rewrite firstn_length. lia. }
  unfold mbind. rewrite Ha. do 6 eexists. split; [reflexivity|]. split; [exact Hi'|]. split; [reflexivity|]. rewrite Hv, Hl. reflexivity.
Qed.
Lemma bytes_safe : safely E 1 (read_bytes E R spare).
Proof.
  intros s h. change (bound h (fun v h' => only h h' (v_block v) /\ exists data, holds E 1 h' v data) (read_bytes E R spare (s, h))). unfold read_bytes.
  eapply bound_bind; [apply len_bound, only_refl|]. intros n s1 h1 [Hn ->]. destruct (n =? 0) eqn:E0.
  - cbn. split; [apply only_refl|]. exists []. repeat split; reflexivity.
  - eapply bound_bind; [apply capacity_bound; [apply only_refl|exact Hn]|]. intros v s2 h2 (Hi & Hl & Hc).
    destruct (to_end_inv h h2 v n s2 Hi Hl Hc) as (r & got & v' & s3 & h3 & x & Hr & Hi' & Hx & Hv'). unfold mbind, owning. rewrite Hr.
    change (bound h (fun v h' => only h h' (v_block v) /\ exists data, holds E 1 h' v data)
      (owning v' match r with Ok _ => if n =? got then mret v' else mfail EIo | Err _ => mfail EIo | Panic x => mpanic x end (s3, h3))).
    eapply owning_bound; [exact Hi'|]. destruct r as [u|e|p]; [destruct (n =? got)|..]; cbn; eauto. destruct Hi' as [Hh Ho]. eauto.
Qed.
Lemma raw_parts_ok : forall sz h v data s, holds E sz h v data -> from_raw_parts (St := St) sz (v_block v) (v_len v) (v_cap v) (s, h) = (MOk v, (s, h)).
Proof.
  intros sz h [b n c] data s (Hl & Hc & Hb). cbn [v_block v_len v_cap] in *. unfold from_raw_parts. destruct b as [i|].
  - destruct Hb as (d & Hd & H1 & H2 & H3). rewrite Hd, H1, N.eqb_refl. apply N.leb_le in Hc. rewrite Hc. cbn [andb]. rewrite <- Hl, H3, all_some_map. reflexivity.
  - rewrite Hb. reflexivity.
Qed.
Lemma i8s_safe : safely E 1 (read_i8s E R spare).
Proof.
  intros s h. change (bound h (fun v h' => only h h' (v_block v) /\ exists data, holds E 1 h' v data) (read_i8s E R spare (s, h))). unfold read_i8s.
  eapply bound_bind; [apply len_bound, only_refl|]. intros n s1 h1 [Hn ->]. destruct (n =? 0) eqn:E0.
  - cbn. split; [apply only_refl|]. exists []. repeat split; reflexivity.
  - eapply bound_bind; [apply capacity_bound; [apply only_refl|exact Hn]|]. intros v s2 h2 (Hi & Hl & Hc).
    destruct (to_end_inv h h2 v n s2 Hi Hl Hc) as (r & got & v' & s3 & h3 & x & Hr & Hi' & Hx & Hv'). unfold mbind at 1, owning at 1. rewrite Hr.
    eapply (bound_bind h unit rvec _ _ s3 h3 (fun _ h' => inv h 1 h' v' x)).
    + eapply owning_bound; [exact Hi'|]. destruct r as [u|e|p]; [destruct (n =? got)|..]; cbn; eauto.
    + intros _ s4 h4 Hi4. rewrite (raw_parts_ok 1 h4 v' x s4 (proj1 Hi4)). cbn. destruct Hi4. eauto.
Qed.
Lemma put_inv : forall h0 sz h v data x s, inv h0 sz h v data -> len x = sz -> v_len v < v_cap v ->
  exists v' h', v_put sz v x (St := St) (s, h) = (MOk v', (s, h')) /\ inv h0 sz h' v' (data ++ x) /\ v_len v' = v_len v + 1 /\ v_cap v' = v_cap v.
Proof.
  intros h0 sz h v data x s Hi Hx Hl. unfold v_put, mbind. destruct (v_block v) as [i|] eqn:Eb.
  - destruct (add h0 sz h v data i x 1 s Hi Eb) as (h' & Hw & Hi'); [lia|lia|]. rewrite Hw. rewrite Eb in Hi'. do 2 eexists. split; [reflexivity|]. split; [exact Hi'|split; reflexivity].
  - destruct Hi as [(H1 & H2 & Hb) Ho]. rewrite Eb in *. assert (Hz : sz = 0) by (apply N.eq_mul_0 in Hb; lia). rewrite Hz in *. rewrite Hx. cbn [N.eqb mret]. unfold mret.
    apply len_0 in Hx. subst x. do 2 eexists. split; [reflexivity|]. split; [|split; reflexivity]. split; [|exact Ho]. unfold holds. cbn [v_len v_cap v_block]. rewrite app_nil_r. split; [lia|]. split; [lia|exact Hb].
Qed.
Lemma loop_bound : forall h0 sz p k v h data s, inv h0 sz h v data -> v_len v + N.of_nat k <= v_cap v ->
  bound h0 (fun v' h' => exists data', inv h0 sz h' v' data') (push_loop R sz p k v (s, h)).
Proof.
  intros h0 sz p k. induction k as [|k IH]; intros v h data s Hi Hk; cbn [push_loop]; [cbn; eauto|].
  eapply (bound_bind h0 _ _ _ _ s h (fun _ h' => h' = h)).
  - eapply owning_bound; [exact Hi|]. pose proof (prog_pure _ p s h) as Hp. destruct (m_prog R p (s, h)) as [[x|e|q|] [s' h']]; cbn; subst; eauto.
  - intros x s' h' ->. unfold assume. replace (v_len v <? v_cap v) with true by (symmetry; apply N.ltb_lt; lia).
    destruct (put_inv h0 sz h v data (fit sz x) s' Hi (fit_len sz x)) as (v' & h2 & Hw & Hi' & Hl & Hc); [lia|].
    unfold mbind, mret. rewrite Hw. apply (IH v' h2 _ s' Hi'). rewrite Hl, Hc. lia.
Qed.
Lemma elements_safe : forall sz p, safely E sz (read_elements E R spare sz p).
Proof.
  intros sz p s h. change (bound h (fun v h' => only h h' (v_block v) /\ exists data, holds E sz h' v data) (read_elements E R spare sz p (s, h))). unfold read_elements.
  eapply bound_bind; [apply len_bound, only_refl|]. intros n s1 h1 [Hn ->]. destruct (n =? 0) eqn:E0.
  - cbn. split; [apply only_refl|]. exists []. repeat split; reflexivity.
  - eapply bound_bind; [apply capacity_bound; [apply only_refl|exact Hn]|]. intros v s2 h2 (Hi & Hl & Hc).
    pose proof (loop_bound h sz p (N.to_nat n) v h2 [] s2 Hi) as Q. rewrite Hl, N2Nat.id in Q. specialize (Q Hc).
    destruct (push_loop R sz p (N.to_nat n) v (s2, h2)) as [[v'|e|q|] [s3 h3]]; cbn in *; try exact Q. destruct Q as (d & Hh & Ho). eauto.
Qed.
End Ops.

(** ** No undefined behaviour and no leak, for every reader *)

Theorem C80_bulk : forall E St (R : reader St) sz, safely E sz (bulk_read E R sz).
Proof. intros. exact (bulk_safe E R (fun _ => 0) sz). Qed.
Theorem C80_bytes : forall E St (R : reader St) spare, safely E 1 (read_bytes E R spare).
Proof. intros. apply bytes_safe. Qed.
Theorem C80_i8 : forall E St (R : reader St) spare, safely E 1 (read_i8s E R spare).
Proof. intros. apply i8s_safe. Qed.
Theorem C80_elements : forall E St (R : reader St) spare sz p, safely E sz (read_elements E R spare sz p).
Proof. intros. apply elements_safe. Qed.

(** Writing a valid vector, for every writer: it is handed the length and then the contents; memory stays as it is. *)
Lemma write_plain : forall E St (W : writer St) sz v data s h, holds E sz h v data ->
  bulk_write E W sz v (s, h) = mbind (m_write_all W (ser_len E (v_len v))) (fun _ => if v_len v =? 0 then mret tt else m_write_all W data) (s, h).
Proof.
  intros E St W sz v data s h H. unfold bulk_write, mbind at 1 3. unfold m_write_all at 1 3. destruct (W s (ser_len E (v_len v))) as [[u|e|p] s']; try reflexivity.
  destruct (N.eqb_spec (v_len v) 0) as [Hz|Hz]; [reflexivity|]. rewrite N.mod_small.
  - unfold mbind. rewrite (slice_holds E (fun _ => 0) sz h v data s' H). reflexivity.
  - destruct H as (Hl & Hc & Hb). assert (HI : isize_max E < 2 ^ e_ub E).
    { unfold isize_max. assert (2 ^ (e_ub E - 1) <= 2 ^ e_ub E) by (apply N.pow_le_mono_r; lia). pose proof (N.pow_nonzero 2 (e_ub E - 1)). lia. }
    pose proof (N.mul_le_mono_r _ _ sz Hc). destruct (v_block v) as [i|]; [destruct Hb as (d & _ & H1 & H2 & _); lia|lia].
Qed.
Lemma write_uuid_plain : forall E St (W : writer St) v data s h, holds E 16 h v data ->
  uuid_write E W v (s, h) = mbind (m_write_all W (ser_len E (v_len v))) (fun _ => if v_len v =? 0 then mret tt else m_write_all W data) (s, h).
Proof.
  intros E St W v data s h H. unfold uuid_write, mbind at 1 3. unfold m_write_all at 1 3. destruct (W s (ser_len E (v_len v))) as [[u|e|p] s']; try reflexivity.
  destruct (N.eqb_spec (v_len v) 0) as [Hz|Hz]; [reflexivity|]. replace (v_len v * 16 <? 2 ^ e_ub E) with true.
  - unfold mbind. rewrite (slice_holds E (fun _ => 0) 16 h v data s' H). reflexivity.
  - symmetry. apply N.ltb_lt. destruct H as (Hl & Hc & Hb). assert (HI : isize_max E < 2 ^ e_ub E).
    { unfold isize_max. assert (2 ^ (e_ub E - 1) <= 2 ^ e_ub E) by (apply N.pow_le_mono_r; lia). pose proof (N.pow_nonzero 2 (e_ub E - 1)). lia. }
    pose proof (N.mul_le_mono_r _ _ 16 Hc). destruct (v_block v) as [i|]; [destruct Hb as (d & _ & H1 & H2 & _); lia|lia].
Qed.
(** The calls of the writer: in turn, up to the first that fails; an error of the writer is reported as [Error::Io]. *)
Fixpoint in_turn {St} (W : writer St) (xs : list bytes) (s : St) : mout unit * St :=
  match xs with
  | [] => (MOk tt, s)
  | x :: xs' =>
      match W s x with
      | (Ok _, s') => in_turn W xs' s'
      | (Err _, s') => (MErr EIo, s')
      | (Panic p, s') => (MPanic p, s')
      end
  end.
Definition bulk_calls (E : env) (n : N) (data : bytes) : list bytes := ser_len E n :: if n =? 0 then [] else [data].
Lemma plain_in_turn : forall E St (W : writer St) n data s h,
  mbind (m_write_all W (ser_len E n)) (fun _ => if n =? 0 then mret tt else m_write_all W data) (s, h)
  = (fst (in_turn W (bulk_calls E n data) s), (snd (in_turn W (bulk_calls E n data) s), h)).
Proof.
  intros E St W n data s h. unfold mbind, m_write_all, bulk_calls. cbn [in_turn]. destruct (W s (ser_len E n)) as [[u|e|p] s']; try reflexivity.
  destruct (n =? 0); [reflexivity|]. cbn [in_turn]. destruct (W s' data) as [[u'|e|p] s'']; reflexivity.
Qed.
Theorem C80_write : forall E St (W : writer St) sz v data s h, holds E sz h v data ->
  bulk_write E W sz v (s, h) = (fst (in_turn W (bulk_calls E (v_len v) data) s), (snd (in_turn W (bulk_calls E (v_len v) data) s), h)).
Proof. intros E St W sz v data s h H. rewrite (write_plain E St W sz v data s h H). apply plain_in_turn. Qed.
Theorem C80_write_uuid : forall E St (W : writer St) v data s h, holds E 16 h v data ->
  uuid_write E W v (s, h) = (fst (in_turn W (bulk_calls E (v_len v) data) s), (snd (in_turn W (bulk_calls E (v_len v) data) s), h)).
Proof. intros E St W v data s h H. rewrite (write_uuid_plain E St W v data s h H). apply plain_in_turn. Qed.

(** ** On a byte slice as the reader, the vectors hold what the decoders of De.v return *)

Definition slices : reader bytes :=
  mkReader (fun bs buf => match split_at (len buf) bs with Some (x, y) => (Ok tt, x, y) | None => (Err EIo, buf, []) end)
           (fun bs n => (Ok tt, firstn (N.to_nat n) bs, skipn (N.to_nat n) bs)).

Lemma fit_id : forall n x, len x = n -> wfb x -> fit n x = x.
Proof.
  intros n x Hn Hw. unfold fit. replace (map byte_of x) with x.
  - rewrite firstn_app. replace (N.to_nat n) with (length x) by (unfold len in Hn; lia). rewrite firstn_all, Nat.sub_diag. cbn [firstn]. apply app_nil_r.
  - clear Hn. induction Hw as [|b x Hb Hw IH]; [reflexivity|]. cbn [map]. rewrite <- IH. unfold byte_of. rewrite N.mod_small by exact Hb. reflexivity.
Qed.
Lemma wfb_app : forall x y, wfb (x ++ y) <-> wfb x /\ wfb y.
Proof. intros x y. apply Forall_app. Qed.
Lemma prog_slices : forall A (p : prog A) bs h, wfb bs ->
  match run p bs with
  | Ok (a, rest) => m_prog slices p (bs, h) = (MOk a, (rest, h)) /\ wfb rest
  | Err e => fst (m_prog slices p (bs, h)) = MErr e
  | Panic x => fst (m_prog slices p (bs, h)) = MPanic x
  end.
Proof.
  intros A p. induction p as [a|e|x|n e k IH]; intros bs h Hw; cbn [run m_prog]; try (split; [reflexivity|exact Hw]); try reflexivity.
  cbn [slices rd_exact]. replace (len (repeat 0 (N.to_nat n))) with n by (unfold len; rewrite repeat_length; lia).
  destruct (split_at n bs) as [[x y]|] eqn:Es; [|reflexivity]. apply split_at_some in Es. destruct Es as [-> Hl]. apply wfb_app in Hw. destruct Hw as [Hx Hy].
  rewrite (fit_id n x Hl Hx). apply IH, Hy.
Qed.
(** The memory there is, is below [isize::MAX]. *)
Definition small_memory (E : env) : Prop := exists m, e_mem E = Some m /\ m < 2 ^ (e_ub E - 1).
Lemma fits_alloc : forall E n bs, small_memory E -> run (alloc E n) bs = if fits E n then Ok (tt, bs) else Panic PMem.
Proof.
  intros E n bs (m & Hm & Hi). unfold alloc, fits. rewrite Hm. destruct (N.leb_spec n m) as [H|H]; [|rewrite andb_false_r; reflexivity].
  replace (n <=? isize_max E) with true by (symmetry; apply N.leb_le; unfold isize_max; lia). reflexivity.
Qed.
(** [f] does to memory what [p] says: the vector returned holds [enc] of the result. *)
Definition implements (E : env) (sz : N) (f : mem (St := bytes) rvec) {A} (p : prog A) (enc : A -> list N) : Prop := forall bs h, wfb bs ->
  match run p bs with
  | Ok (a, rest) => exists v h', f (bs, h) = (MOk v, (rest, h')) /\ holds E sz h' v (enc a)
  | Err e => fst (f (bs, h)) = MErr e
  | Panic x => fst (f (bs, h)) = MPanic x
  end.

Lemma chunk_list : forall n w x, wfb x -> len x = N.of_nat n * w -> Forall (fun c => len c = w /\ wfb c) (chunks n w x) /\ concat (chunks n w x) = x /\ length (chunks n w x) = n.
Proof.
  induction n as [|n IH]; intros w x Hw Hl; cbn [chunks].
  - split; [constructor|]. split; [|reflexivity]. destruct x; [reflexivity|]. rewrite len_cons in Hl. lia.
  - destruct (split_at w x) as [[a b]|] eqn:Es; [|apply split_at_none in Es; lia]. apply split_at_some in Es. destruct Es as [-> Ha]. apply wfb_app in Hw. destruct Hw as [Hwa Hwb].
    rewrite len_app in Hl. destruct (IH w b Hwb) as (H1 & H2 & H3); [lia|]. split; [constructor; auto|]. cbn [concat length]. rewrite H2, H3. auto.
Qed.
Lemma fixed_back : forall s w c, wfb c -> len c = N.of_nat w -> ser_fixed w (fixed_val s w c) = c.
Proof.
  intros s w c Hw Hl. assert (Hb : le_val c < 256 ^ N.of_nat w) by (rewrite <- Hl; apply le_val_bound, Hw).
  assert (HP : (2 ^ Z.of_N (8 * N.of_nat w) = Z.of_N (256 ^ N.of_nat w))%Z).
  { rewrite N2Z.inj_pow, N2Z.inj_mul. change (Z.of_N 256) with (2 ^ 8)%Z. rewrite <- Z.pow_mul_r by lia. reflexivity. }
  unfold ser_fixed, fixed_val, wrapZ, signZ. rewrite HP. set (M := 256 ^ N.of_nat w) in *.
  assert (HM : wrapZ 0 0 = 0) by reflexivity. replace (Z.to_N _) with (le_val c).
  - replace w with (length c) by (unfold len in Hl; lia). apply le_bytes_val, Hw.
  - destruct s; [destruct (le_val c <? _)|].
    + rewrite Z.mod_small by lia. lia.
    + rewrite <- (Z_mod_plus_full _ 1 (Z.of_N M)). replace (Z.of_N (le_val c) - Z.of_N M + 1 * Z.of_N M)%Z with (Z.of_N (le_val c)) by lia. rewrite Z.mod_small by lia. lia.
    + rewrite Z.mod_small by lia. lia.
Qed.
(** The bytes a list of numbers takes in the memory of a little-endian machine. *)
Definition int_bytes (w : nat) (l : list val) : list N := flat_map (fun v => match v with VInt z => ser_fixed w z | _ => [] end) l.
Lemma int_bytes_chunks : forall s w n x, wfb x -> len x = n * N.of_nat w -> int_bytes w (map (fun c => VInt (fixed_val s w c)) (chunks (N.to_nat n) (N.of_nat w) x)) = x.
Proof.
  intros s w n x Hw Hl. destruct (chunk_list (N.to_nat n) (N.of_nat w) x Hw) as (H1 & H2 & _); [lia|]. rewrite <- H2 at 2. clear H2 Hl. unfold int_bytes.
  induction H1 as [|c l [Hc Hcw] Hl IH]; [reflexivity|]. cbn [map flat_map concat]. rewrite IH, fixed_back by assumption. reflexivity.
Qed.
Definition raw_bytes (l : list val) : list N := flat_map (fun v => match v with VBytes b => b | _ => [] end) l.
Lemma raw_bytes_chunks : forall w n x, wfb x -> len x = n * w -> raw_bytes (map VBytes (chunks (N.to_nat n) w x)) = x.
Proof.
  intros w n x Hw Hl. destruct (chunk_list (N.to_nat n) w x Hw) as (_ & H2 & _); [lia|]. rewrite <- H2 at 2. clear. unfold raw_bytes.
  induction (chunks (N.to_nat n) w x) as [|c l IH]; [reflexivity|]. cbn [map flat_map concat]. rewrite IH. reflexivity.
Qed.

Lemma mbind_ok : forall St A B (m : mem (St := St) A) (f : A -> mem B) st a st', m st = (MOk a, st') -> mbind m f st = f a st'.
Proof. intros St A B m f st a st' H. unfold mbind. rewrite H. reflexivity. Qed.
Lemma mbind_no : forall St A B (m : mem (St := St) A) (f : A -> mem B) st, match fst (m st) with MOk _ => True | MErr e => fst (mbind m f st) = MErr e | MPanic x => fst (mbind m f st) = MPanic x | MUB => fst (mbind m f st) = MUB end.
Proof. intros St A B m f st. unfold mbind. destruct (m st) as [[]]; reflexivity || exact I. Qed.
Lemma owning_ok : forall St A v (m : mem (St := St) A) st a st', m st = (MOk a, st') -> owning v m st = (MOk a, st').
Proof. intros St A v m st a st' H. unfold owning. rewrite H. reflexivity. Qed.
Lemma owning_err : forall St A v (m : mem (St := St) A) st e st' st2, m st = (MErr e, st') -> v_drop v st' = (MOk tt, st2) -> fst (owning v m st) = MErr e.
Proof. intros St A v m st e st' st2 H Hd. unfold owning. rewrite H. unfold mbind. rewrite Hd. reflexivity. Qed.
Lemma owning_panic : forall St A v (m : mem (St := St) A) st e st' st2, m st = (MPanic e, st') -> v_drop v st' = (MOk tt, st2) -> fst (owning v m st) = MPanic e.
Proof. intros St A v m st e st' st2 H Hd. unfold owning. rewrite H. unfold mbind. rewrite Hd. reflexivity. Qed.

Section Values.
Variable E : env.
Hypothesis HM : small_memory E.

Lemma bulk_implements : forall A sz (enc : A -> list N) (nil : A) (f : N -> list N -> A), sz <> 0 -> enc nil = [] ->
  (forall n x, wfb x -> len x = n * sz -> enc (f n x) = x) ->
  implements E sz (bulk_read E slices sz)
    (n <- de_len E ;; if n =? 0 then Ret nil else if n * sz <? 2 ^ e_ub E then alloc E (n * sz) ;;; x <- read_n (n * sz) ;; Ret (f n x) else Fail EOverflow) enc.
Proof.
  intros A sz enc nil f Hsz Hnil Henc bs h Hw. unfold bulk_read. rewrite run_bind. pose proof (prog_slices _ (de_len E) bs h Hw) as HL.
  pose proof (len_bound E slices h bs h (only_refl h)) as HB.
  destruct (run (de_len E) bs) as [[n r]|e|p].
  2:{ pose proof (mbind_no _ _ _ (m_prog slices (de_len E)) (fun n => if n =? 0 then mret v_new else if n * sz <? 2 ^ e_ub E then mbind (v_zeroed E sz n) (fun v => owning v (mbind (m_read_exact E slices (v_block v) (n * sz)) (fun _ => mret v))) else mfail EOverflow) (bs, h)) as Q. rewrite HL in Q. exact Q. }
  2:{ pose proof (mbind_no _ _ _ (m_prog slices (de_len E)) (fun n => if n =? 0 then mret v_new else if n * sz <? 2 ^ e_ub E then mbind (v_zeroed E sz n) (fun v => owning v (mbind (m_read_exact E slices (v_block v) (n * sz)) (fun _ => mret v))) else mfail EOverflow) (bs, h)) as Q. rewrite HL in Q. exact Q. }
  destruct HL as [HL Hr]. rewrite HL in HB. cbn in HB. destruct HB as [HB _]. rewrite (mbind_ok _ _ _ _ _ _ _ _ HL). destruct (N.eqb_spec n 0) as [Hz|Hz].
  - cbn [run]. exists v_new, h. split; [reflexivity|]. rewrite Hnil. repeat split; reflexivity.
  - destruct (n * sz <? 2 ^ e_ub E); [|reflexivity]. rewrite run_bind, fits_alloc by exact HM.
    assert (Hnz : (n * sz =? 0) = false) by (apply N.eqb_neq; intros Q; apply N.eq_mul_0 in Q; tauto).
    pose proof (zeroed_bound E (fun _ => 0) h sz n r h (only_refl h) HB) as HZ. destruct (fits E (n * sz)) eqn:Ef.
    2:{ unfold mbind, v_zeroed. rewrite Hnz, Ef. reflexivity. }
    destruct (v_zeroed E sz n (r, h)) as [z [r' h']] eqn:EZ. assert (Hz2 : exists i, z = MOk (mkV (Some i) n n) /\ r' = r).
    { unfold v_zeroed in EZ. rewrite Hnz, Ef in EZ. unfold mbind, m_alloc, mret in EZ. injection EZ as <- <- <-. eauto. }
    destruct Hz2 as (i & -> & ->). cbn [bound] in HZ. destruct HZ as [HZ _]. rewrite (mbind_ok _ _ _ _ _ _ _ _ EZ).
    pose proof (slice_holds E (fun _ => 0) sz _ _ _ r (proj1 HZ)) as HS. cbn [v_block v_len] in HS.
    assert (HE : m_read_exact E slices (Some i) (n * sz) (r, h') = match split_at (n * sz) r with
        | Some (x, y) => mbind (m_write i 0 (fit (n * sz) x)) (fun _ => mret tt) (y, h')
        | None => mbind (m_write i 0 (fit (n * sz) (repeat 0 (N.to_nat (n * sz))))) (fun _ => mfail EIo) ([], h') end).
    { unfold m_read_exact. rewrite (mbind_ok _ _ _ _ _ _ _ _ HS). cbn [slices rd_exact]. replace (len (repeat 0 (N.to_nat (n * sz)))) with (n * sz) by (unfold len; rewrite repeat_length; lia).
      destruct (split_at (n * sz) r) as [[x y]|]; reflexivity. }
    rewrite run_bind. unfold read_n. cbn [run v_block]. destruct (split_at (n * sz) r) as [[x y]|] eqn:Es.
    + apply split_at_some in Es. destruct Es as [-> Hx]. apply wfb_app in Hr. destruct Hr as [Hx' Hy]. rewrite fit_id in HE by assumption.
      destruct (overwrite E (fun _ => 0) h sz _ _ _ i x y HZ eq_refl) as (h2 & Hw' & Hi'); [rewrite Hx; unfold len; rewrite repeat_length; lia|].
      rewrite (mbind_ok _ _ _ _ _ _ _ _ Hw') in HE. exists (mkV (Some i) n n), h2. split; [|rewrite Henc by assumption; apply Hi'].
      apply owning_ok. rewrite (mbind_ok _ _ _ _ _ _ _ _ HE). reflexivity.
    + destruct (overwrite E (fun _ => 0) h sz _ _ _ i (fit (n * sz) (repeat 0 (N.to_nat (n * sz)))) ([] : bytes) HZ eq_refl) as (h2 & Hw' & Hi'); [rewrite fit_len; unfold len; rewrite repeat_length; lia|].
      rewrite (mbind_ok _ _ _ _ _ _ _ _ Hw') in HE. destruct (drop_inv E (fun _ => 0) h sz h2 _ _ ([] : bytes) Hi') as (h3 & Hd & _).
      eapply owning_err; [unfold mbind; rewrite HE; reflexivity|exact Hd].
Qed.
Lemma cap_fits : forall spare sz n r h, n * sz <> 0 -> fits E (n * sz) = true -> n < 2 ^ e_ub E ->
  exists v h', v_with_capacity E spare sz n (r : bytes, h) = (MOk v, (r, h')) /\ inv E h sz h' v [] /\ v_len v = 0 /\ n <= v_cap v.
Proof.
  intros spare sz n r h Hz Ef Hn. pose proof (capacity_bound E spare h sz n r h (only_refl h) Hn) as Q.
  unfold v_with_capacity in *. apply N.eqb_neq in Hz. rewrite Hz, Ef in *. unfold mbind, m_alloc, mret in *. cbn [bound] in Q. eauto.
Qed.
Lemma bytes_implements : forall spare (i8 : bool), implements E 1 (if i8 then read_i8s E slices spare else read_bytes E slices spare) (de_blob E) (fun x => x).
Proof.
  intros spare i8 bs h Hw. unfold de_blob. rewrite run_bind. pose proof (prog_slices _ (de_len E) bs h Hw) as HL.
  pose proof (len_bound E slices h bs h (only_refl h)) as HB. destruct (run (de_len E) bs) as [[n r]|e|p].
  2:{ destruct i8; [unfold read_i8s|unfold read_bytes]; unfold mbind; destruct (m_prog slices (de_len E) (bs, h)) as [[] []]; cbn [fst] in *; congruence. }
  2:{ destruct i8; [unfold read_i8s|unfold read_bytes]; unfold mbind; destruct (m_prog slices (de_len E) (bs, h)) as [[] []]; cbn [fst] in *; congruence. }
  destruct HL as [HL Hr]. rewrite HL in HB. cbn in HB. destruct HB as [HB _].
  destruct (N.eqb_spec n 0) as [Hz|Hz].
  { subst n. cbn [run]. exists v_new, h. split; [|repeat split; reflexivity]. destruct i8; [unfold read_i8s|unfold read_bytes]; rewrite (mbind_ok _ _ _ _ _ _ _ _ HL); reflexivity. }
  rewrite run_bind, fits_alloc by exact HM. destruct (fits E n) eqn:Ef.
  2:{ destruct i8; [unfold read_i8s|unfold read_bytes]; rewrite (mbind_ok _ _ _ _ _ _ _ _ HL); apply N.eqb_neq in Hz; rewrite Hz; unfold mbind, v_with_capacity; rewrite N.mul_1_r, Hz, Ef; reflexivity. }
  destruct (cap_fits spare 1 n r h) as (v & h1 & HC & Hi & Hl & Hc); [lia|rewrite N.mul_1_r; exact Ef|exact HB|].
  assert (Hx : firstn (N.to_nat n) (map byte_of (firstn (N.to_nat n) r)) = firstn (N.to_nat n) r).
  { assert (Hwf : wfb (firstn (N.to_nat n) r)) by (rewrite <- (firstn_skipn (N.to_nat n) r) in Hr; apply wfb_app in Hr; apply Hr).
    replace (map byte_of (firstn (N.to_nat n) r)) with (firstn (N.to_nat n) r); [rewrite firstn_firstn; f_equal; lia|].
    induction Hwf as [|b x Hb Hw' IH]; [reflexivity|]. cbn [map]. rewrite <- IH. unfold byte_of. rewrite N.mod_small by exact Hb. reflexivity. }
  destruct (append_inv E spare h h1 v [] (firstn (N.to_nat n) r) (skipn (N.to_nat n) r) Hi) as (v' & h2 & HA & Hi' & Hv).
  { rewrite Hl. unfold len. rewrite firstn_length. lia. }
  cbn [app] in Hi'.
  assert (HR : read_to_end E slices v n (r, h1) = (MOk (Ok tt, len (firstn (N.to_nat n) r), v'), (skipn (N.to_nat n) r, h2))).
  { unfold read_to_end. cbn [slices rd_take]. rewrite Hx, (mbind_ok _ _ _ _ _ _ _ _ HA). reflexivity. }
  assert (HO : owning v (read_to_end E slices v n) (r, h1) = (MOk (Ok tt, len (firstn (N.to_nat n) r), v'), (skipn (N.to_nat n) r, h2))) by (apply owning_ok, HR).
  unfold read_n. cbn [run]. apply N.eqb_neq in Hz. destruct (N.leb_spec n (len r)) as [Hn|Hn].
  - destruct (split_at_le _ r n Hn) as (x & y & Es & _). rewrite Es. apply split_at_some in Es. destruct Es as [-> Hxl].
    assert (Hfx : firstn (N.to_nat n) (x ++ y) = x) by (rewrite firstn_app; replace (N.to_nat n) with (length x) by (unfold len in Hxl; lia); rewrite firstn_all, Nat.sub_diag; apply app_nil_r).
    assert (Hsx : skipn (N.to_nat n) (x ++ y) = y) by (rewrite skipn_app; replace (N.to_nat n) with (length x) by (unfold len in Hxl; lia); rewrite skipn_all, Nat.sub_diag; reflexivity).
    rewrite Hfx, Hsx in *. exists v', h2. split; [|apply Hi'].
    destruct i8; [unfold read_i8s|unfold read_bytes]; rewrite (mbind_ok _ _ _ _ _ _ _ _ HL), Hz, (mbind_ok _ _ _ _ _ _ _ _ HC), (mbind_ok _ _ _ _ _ _ _ _ HO), Hxl, N.eqb_refl.
    + rewrite (mbind_ok _ _ _ _ _ _ tt (y, h2)) by (apply owning_ok; reflexivity). apply (raw_parts_ok E 1 h2 v' x y), Hi'.
    + apply owning_ok. reflexivity.
  - rewrite (proj2 (split_at_none _ r n) Hn).
    assert (Hg : (n =? len (firstn (N.to_nat n) r)) = false) by (apply N.eqb_neq; unfold len in *; rewrite firstn_length; lia).
    destruct (drop_inv E spare h 1 h2 v' _ (skipn (N.to_nat n) r) Hi') as (h3 & Hd & _).
    destruct i8; [unfold read_i8s|unfold read_bytes]; rewrite (mbind_ok _ _ _ _ _ _ _ _ HL), Hz, (mbind_ok _ _ _ _ _ _ _ _ HC), (mbind_ok _ _ _ _ _ _ _ _ HO), Hg.
    + set (m := owning v' (mfail EIo)). assert (Hm : fst (m (skipn (N.to_nat n) r, h2)) = MErr (A := unit) EIo) by (eapply owning_err; [reflexivity|exact Hd]).
      unfold mbind. destruct (m (skipn (N.to_nat n) r, h2)) as [[] []]; cbn [fst] in *; congruence.
    + eapply owning_err; [reflexivity|exact Hd].
Qed.

(** The elements, decoded one by one and kept as [enc]. *)
Definition keep_all (sz : N) (l : list (list N)) : list N := flat_map (fit sz) l.
Lemma loop_slices : forall sz p k v h h0 data bs, inv E h0 sz h v data -> v_len v + N.of_nat k <= v_cap v -> wfb bs ->
  match run (rep k p) bs with
  | Ok (l, rest) => exists v' h', push_loop slices sz p k v (bs, h) = (MOk v', (rest, h')) /\ holds E sz h' v' (data ++ keep_all sz l)
  | Err e => fst (push_loop slices sz p k v (bs, h)) = MErr e
  | Panic x => fst (push_loop slices sz p k v (bs, h)) = MPanic x
  end.
Proof.
  intros sz p k. induction k as [|k IH]; intros v h h0 data bs Hi Hk Hw; cbn [rep push_loop].
  - cbn [run]. exists v, h. split; [reflexivity|]. cbn. rewrite app_nil_r. apply Hi.
  - rewrite run_bind. pose proof (prog_slices _ p bs h Hw) as HP. pose proof (prog_pure slices _ p bs h) as Hpure. destruct (run p bs) as [[x r]|e|q].
    + destruct HP as [HP Hr]. rewrite (mbind_ok _ _ _ _ _ _ x (r, h)) by (apply owning_ok, HP). unfold assume. replace (v_len v <? v_cap v) with true by (symmetry; apply N.ltb_lt; lia).
      destruct (put_inv E (fun _ => 0) h0 sz h v data (fit sz x) r Hi (fit_len sz x)) as (v' & h2 & Hw' & Hi' & Hl & Hc); [lia|].
      rewrite (mbind_ok _ _ _ (mret tt) _ _ tt (r, h)) by reflexivity. rewrite (mbind_ok _ _ _ _ _ _ _ _ Hw'). rewrite run_bind.
      assert (Hk' : v_len v' + N.of_nat k <= v_cap v') by lia. specialize (IH v' h2 h0 _ r Hi' Hk' Hr). destruct (run (rep k p) r) as [[l r2]|e|q]; try exact IH.
      destruct IH as (v2 & h3 & H1 & H2). cbn [run]. exists v2, h3. split; [exact H1|]. cbn [keep_all flat_map]. rewrite <- app_assoc in H2. exact H2.
    + destruct (m_prog slices p (bs, h)) as [[] [s' h']] eqn:Em; cbn [fst] in HP; try discriminate. injection HP as ->. subst h'.
      destruct (drop_inv E (fun _ => 0) h0 sz h v data s' Hi) as (h3 & Hd & _). pose proof (owning_err _ _ _ _ _ _ _ _ Em Hd) as Ho.
      unfold mbind. destruct (owning v (m_prog slices p) (bs, h)) as [[] []]; cbn [fst] in *; congruence.
    + destruct (m_prog slices p (bs, h)) as [[] [s' h']] eqn:Em; cbn [fst] in HP; try discriminate. injection HP as ->. subst h'.
      destruct (drop_inv E (fun _ => 0) h0 sz h v data s' Hi) as (h3 & Hd & _). pose proof (owning_panic _ _ _ _ _ _ _ _ Em Hd) as Ho.
      unfold mbind. destruct (owning v (m_prog slices p) (bs, h)) as [[] []]; cbn [fst] in *; congruence.
Qed.
Lemma elements_implements : forall spare sz p, implements E sz (read_elements E slices spare sz p)
  (n <- de_len E ;; if n =? 0 then Ret [] else alloc E (n * sz) ;;; rep (N.to_nat n) p) (keep_all sz).
Proof.
  intros spare sz p bs h Hw. unfold read_elements. rewrite run_bind. pose proof (prog_slices _ (de_len E) bs h Hw) as HL.
  pose proof (len_bound E slices h bs h (only_refl h)) as HB. destruct (run (de_len E) bs) as [[n r]|e|q].
  2:{ unfold mbind; destruct (m_prog slices (de_len E) (bs, h)) as [[] []]; cbn [fst] in *; congruence. }
  2:{ unfold mbind; destruct (m_prog slices (de_len E) (bs, h)) as [[] []]; cbn [fst] in *; congruence. }
  destruct HL as [HL Hr]. rewrite HL in HB. cbn in HB. destruct HB as [HB _]. rewrite (mbind_ok _ _ _ _ _ _ _ _ HL). destruct (N.eqb_spec n 0) as [Hz|Hz].
  { cbn [run]. exists v_new, h. split; [reflexivity|repeat split; reflexivity]. }
  rewrite run_bind, fits_alloc by exact HM. assert (HV : fits E (n * sz) = true -> exists v h', v_with_capacity E spare sz n (r, h) = (MOk v, (r, h')) /\ inv E h sz h' v [] /\ v_len v = 0 /\ n <= v_cap v).
  { intros Ef. destruct (N.eq_dec (n * sz) 0) as [H0|H0]; [|apply cap_fits; assumption].
    pose proof (capacity_bound E spare h sz n r h (only_refl h) HB) as Q. unfold v_with_capacity in *. rewrite H0 in *. cbn in Q. do 2 eexists. split; [reflexivity|exact Q]. }
  destruct (fits E (n * sz)) eqn:Ef.
  - destruct (HV eq_refl) as (v & h1 & HC & Hi & Hl & Hc). rewrite (mbind_ok _ _ _ _ _ _ _ _ HC).
    pose proof (loop_slices sz p (N.to_nat n) v h1 h [] r Hi) as Q. rewrite Hl, N2Nat.id in Q. exact (Q Hc Hr).
  - unfold mbind, v_with_capacity. replace (n * sz =? 0) with false; [rewrite Ef; reflexivity|]. symmetry. apply N.eqb_neq. intros H0. rewrite H0 in Ef. unfold fits in Ef. destruct HM as (m & Hm & _). rewrite Hm in Ef.
    assert (0 <= isize_max E) by lia. apply N.leb_le in H. rewrite H in Ef. assert (0 <= m) by lia. apply N.leb_le in H1. rewrite H1 in Ef. discriminate.
Qed.
End Values.

Theorem C80_numbers : forall E s w, small_memory E -> (0 < w)%nat ->
  implements E (N.of_nat w) (bulk_read E slices (N.of_nat w)) (de_bulk E (BFix s w)) (int_bytes w).
Proof.
  intros E s w HM Hw. apply (bulk_implements E HM (list val) (N.of_nat w) (int_bytes w) [] (fun n x => map (fun c => VInt (fixed_val s w c)) (chunks (N.to_nat n) (N.of_nat w) x))); [lia|reflexivity|].
  intros n x. apply int_bytes_chunks.
Qed.
Theorem C80_uuids : forall E, small_memory E -> implements E 16 (bulk_read E slices 16) (de_bulk E (BRaw false)) raw_bytes.
Proof.
  intros E HM. apply (bulk_implements E HM (list val) 16 raw_bytes [] (fun n x => map VBytes (chunks (N.to_nat n) 16 x))); [discriminate|reflexivity|].
  intros n x. apply raw_bytes_chunks.
Qed.
Lemma blob_bulk : forall E s bs, run (de_bulk E (BFix s 1)) bs
  = match run (de_blob E) bs with Ok (x, r) => Ok (map (fun c => VInt (fixed_val s 1 c)) (chunks (N.to_nat (len x)) 1 x), r) | Err e => Err e | Panic p => Panic p end.
Proof.
  intros E s bs. unfold de_bulk, de_blob. rewrite !run_bind. destruct (run (de_len E) bs) as [[n r]|e|p] eqn:El; try reflexivity.
  assert (Hn : n < 2 ^ e_ub E).
  { unfold de_len, de_usize in El. rewrite run_bind in El. destruct (run (de_u64 (e_fw E)) bs) as [[m r']|e|p]; try discriminate. cbn [run] in El. injection El as <- _. apply N.mod_lt, N.pow_nonzero. discriminate. }
  destruct (n =? 0); [reflexivity|]. change (N.of_nat 1) with 1. rewrite N.mul_1_r. apply N.ltb_lt in Hn. rewrite Hn, !run_bind. destruct (run (alloc E n) r) as [[u r']|e|p]; try reflexivity.
  rewrite run_bind. destruct (run (read_n n) r') as [[x r2]|e|p] eqn:Er; try reflexivity. apply run_read_n_ok in Er. destruct Er as [_ <-]. reflexivity.
Qed.
Lemma blob_wfb : forall E bs x r, wfb bs -> run (de_blob E) bs = Ok (x, r) -> wfb x.
Proof.
  intros E bs x r Hw H. unfold de_blob in H. rewrite run_bind in H. destruct (run (de_len E) bs) as [[n r1]|e|p] eqn:E1; try discriminate. apply run_suffix in E1. destruct E1 as (a & -> & _).
  apply wfb_app in Hw. destruct Hw as [_ Hw]. destruct (n =? 0); [injection H as <- _; constructor|]. rewrite run_bind in H. destruct (run (alloc E n) r1) as [[u r2]|e|p] eqn:E2; try discriminate.
  apply run_suffix in E2. destruct E2 as (b & -> & _). apply wfb_app in Hw. destruct Hw as [_ Hw]. apply run_read_n_ok in H. destruct H as [-> _]. apply wfb_app in Hw. apply Hw.
Qed.
Theorem C80_byte_vectors : forall E spare, small_memory E ->
  implements E 1 (read_bytes E slices spare) (de_bulk E (BFix false 1)) (int_bytes 1)
  /\ implements E 1 (read_i8s E slices spare) (de_bulk E (BFix true 1)) (int_bytes 1)
  /\ implements E 1 (read_bytes E slices spare) (de_blob E) (fun x => x).
Proof.
  intros E spare HM. assert (Q : forall i8 s, implements E 1 (if i8 : bool then read_i8s E slices spare else read_bytes E slices spare) (de_bulk E (BFix s 1)) (int_bytes 1)).
  { intros i8 s bs h Hw. rewrite blob_bulk. pose proof (bytes_implements E HM spare i8 bs h Hw) as H. destruct (run (de_blob E) bs) as [[x r]|e|p] eqn:Ed; try exact H.
    destruct H as (v & h' & H1 & H2). exists v, h'. split; [exact H1|]. change 1 with (N.of_nat 1). rewrite int_bytes_chunks; [exact H2| |lia].
    exact (blob_wfb E bs x r Hw Ed). }
  split; [exact (Q false false)|]. split; [exact (Q true true)|exact (bytes_implements E HM spare false)].
Qed.

Lemma run_rep_map : forall A B (q : prog A) (enc : A -> B) k bs, run (rep k (v <- q ;; Ret (enc v))) bs = match run (rep k q) bs with Ok (l, r) => Ok (map enc l, r) | Err e => Err e | Panic p => Panic p end.
Proof.
  intros A B q enc k. induction k as [|k IH]; intros bs; [reflexivity|]. cbn [rep]. rewrite !run_bind. destruct (run q bs) as [[v r]|e|p]; try reflexivity. cbn [run]. rewrite !run_bind, IH.
  destruct (run (rep k q) r) as [[l r2]|e|p]; reflexivity.
Qed.
(** Vectors of any other element type, and the buffers of the ordered maps and sets. *)
Theorem C80_any_elements : forall E spare sz (q : prog val) (enc : val -> list N), small_memory E ->
  implements E sz (read_elements E slices spare sz (v <- q ;; Ret (enc v))) (de_seq E sz q) (fun l => keep_all sz (map enc l)).
Proof.
  intros E spare sz q enc HM bs h Hw. pose proof (elements_implements E HM spare sz (v <- q ;; Ret (enc v)) bs h Hw) as H. unfold de_seq. rewrite run_bind in *.
  destruct (run (de_len E) bs) as [[n r]|e|p]; try exact H. destruct (n =? 0); [exact H|]. rewrite run_bind in *. destruct (run (alloc E (n * sz)) r) as [[u r2]|e|p]; try exact H.
  rewrite run_rep_map in H. destruct (run (rep (N.to_nat n) q) r2) as [[l r3]|e|p]; exact H.
Qed.
Theorem C80_decimals : forall E spare, small_memory E -> (forall x, len x = 16 -> wfb x -> len (e_dec E x) = 16 /\ wfb (e_dec E x)) ->
  implements E 16 (read_elements E slices spare 16 (x <- read_n 16 ;; Ret (e_dec E x))) (de_bulk E (BRaw true)) raw_bytes.
Proof.
  intros E spare HM Hd bs h Hw. pose proof (elements_implements E HM spare 16 (x <- read_n 16 ;; Ret (e_dec E x)) bs h Hw) as H. unfold de_bulk. rewrite run_bind in *.
  destruct (run (de_len E) bs) as [[n r]|e|p] eqn:E1; try exact H. apply run_suffix in E1. destruct E1 as (a & -> & _). apply wfb_app in Hw. destruct Hw as [_ Hw].
  destruct (n =? 0); [exact H|]. rewrite run_bind in *. destruct (run (alloc E (n * 16)) r) as [[u r2]|e|p] eqn:E2; try exact H. apply run_suffix in E2. destruct E2 as (b & -> & _). apply wfb_app in Hw. destruct Hw as [_ Hw].
  rewrite !run_rep_map in *. destruct (run (rep (N.to_nat n) (read_n 16)) r2) as [[l r3]|e|p] eqn:E3; try exact H.
  replace (raw_bytes (map (fun x => VBytes (e_dec E x)) l)) with (keep_all 16 (map (e_dec E) l)); [exact H|].
  assert (HF : Forall (fun x => len x = 16 /\ wfb x) l).
  { clear H. revert l r2 Hw E3. induction (N.to_nat n) as [|k IH]; intros l r2 Hw E3; cbn [rep] in E3; [injection E3 as <- _; constructor|]. rewrite run_bind in E3.
    destruct (run (read_n 16) r2) as [[x r4]|e|p] eqn:E4; try discriminate. apply run_read_n_ok in E4. destruct E4 as [-> Hx]. apply wfb_app in Hw. destruct Hw as [Hx' Hr]. rewrite run_bind in E3.
    destruct (run (rep k (read_n 16)) r4) as [[l' r5]|e|p] eqn:E5; try discriminate. cbn [run] in E3. injection E3 as <- <-. constructor; [auto|exact (IH l' r4 Hr E5)]. }
  clear - HF Hd. unfold keep_all, raw_bytes. induction HF as [|x l [Hx Hw] HF IH]; [reflexivity|]. cbn [map flat_map]. rewrite IH. destruct (Hd x Hx Hw) as [H1 H2]. rewrite fit_id by assumption. reflexivity.
Qed.

(** A [Vec<u8>] as the writer gets what the encoders of Ser.v write. *)
Definition into_vec : writer bytes := fun s x => (Ok tt, s ++ x).
Theorem C80_written : forall E sg w zs v h o, holds E (N.of_nat w) h v (int_bytes w (map VInt zs)) -> v_len v = len zs ->
  exists b, ser_bytes (ser_bulk E (BFix sg w) (map VInt zs)) = Ok b /\ bulk_write E into_vec (N.of_nat w) v (o, h) = (MOk tt, (o ++ b, h)).
Proof.
  intros E sg w zs v h o H Hl. rewrite (write_plain E _ into_vec (N.of_nat w) v _ o h H), Hl. unfold ser_bulk. assert (Hm : len (map VInt zs) = len zs) by (unfold len; rewrite map_length; reflexivity). rewrite Hm.
  unfold mbind, m_write_all, into_vec. destruct (len zs =? 0).
  - exists (ser_len E (len zs)). split; [cbn; rewrite app_nil_r; reflexivity|reflexivity].
  - exists (ser_len E (len zs) ++ int_bytes w (map VInt zs)). split; [|rewrite app_assoc; reflexivity].
    replace (rmapM as_int (map VInt zs)) with (Ok zs). 2:{ clear. induction zs as [|z zs IH]; [reflexivity|]. cbn [map rmapM as_int rbind]. rewrite <- IH. reflexivity. }
    cbn [rbind]. unfold sall, ser_bytes, sbind. cbn [rmap]. unfold out. cbn [app flat_map wop_bytes]. rewrite app_nil_r. do 2 f_equal. unfold int_bytes. clear. induction zs as [|z zs IH]; [reflexivity|]. cbn [map flat_map]. rewrite IH. reflexivity.
Qed.

(** ** Examples *)

Definition box : env := set_mem (Some 1000) (ex_env (fun _ => None)).
Example box_small : small_memory box.
Proof. exists 1000. split; [reflexivity|vm_compute; reflexivity]. Qed.
Example C80_numbers_case : bulk_read box slices 4 ([2; 1; 0; 0; 0; 44; 1; 0; 0; 9], [])
  = (MOk (mkV (Some 0%nat) 2 2), ([9], [mkBlock true (map Some [1; 0; 0; 0; 44; 1; 0; 0])]))
  /\ run (de_bulk box (BFix false 4)) [2; 1; 0; 0; 0; 44; 1; 0; 0; 9] = Ok ([VInt 1; VInt 300], [9]).
Proof. split; vm_compute; reflexivity. Qed.
(** Input that ends too early: the vector is freed. *)
Example C80_short_case : bulk_read box slices 4 ([2; 1; 0; 0], []) = (MErr EIo, ([], [mkBlock false (repeat (Some 0) 8)]))
  /\ read_i8s box slices (fun _ => 7) ([3; 1; 2], []) = (MErr EIo, ([], [mkBlock false (map Some [1; 2] ++ repeat None 8)])).
Proof. split; vm_compute; reflexivity. Qed.
(** A reader that claims to have filled the buffer and did not. *)
Definition lazy_reader : reader nat := mkReader (fun k buf => (match k with 5%nat => Panic PAssert | _ => Ok tt end, match k with O => [3] | _ => [] end, S k)) (fun k n => (Ok tt, [1; 2], S k)).
Example C80_lazy_case : fst (bulk_read box lazy_reader 8 (O, [])) = MOk (mkV (Some 0%nat) 3 3) /\ fst (read_bytes box lazy_reader (fun _ => 0) (O, [])) = MErr EIo
  /\ snd (read_elements box lazy_reader (fun _ => 0) 8 (x <- read_n 8 ;; y <- read_n 8 ;; Ret x) (O, [])) = (6%nat, [mkBlock false (repeat (Some 0) 16 ++ repeat None 8)]).
Proof. repeat split; vm_compute; reflexivity. Qed.
(** What the code avoids: reading into memory that is not initialised, dropping the vector that was taken apart, room for
    fewer elements than promised. *)
Definition read_uninit (sz : N) : mem (St := bytes) rvec :=
  mbind (m_prog slices (de_len box)) (fun n => mbind (v_with_capacity box (fun _ => 0) sz n) (fun v =>
  let v := mkV (v_block v) n (v_cap v) in owning v (mbind (m_read_exact box slices (v_block v) (n * sz)) (fun _ => mret v)))).
Definition drop_twice : mem (St := bytes) rvec :=
  mbind (read_bytes box slices (fun _ => 0)) (fun v => mbind (v_drop v) (fun _ => from_raw_parts 1 (v_block v) (v_len v) (v_cap v))).
Definition one_less (sz : N) : mem (St := bytes) rvec :=
  mbind (m_prog slices (de_len box)) (fun n => mbind (v_with_capacity box (fun _ => 0) sz (n - 1)) (push_loop slices sz (read_n sz) (N.to_nat n))).
Example C80_undefined : fst (read_uninit 4 ([1; 1; 2; 3; 4], [])) = MUB /\ fst (drop_twice ([2; 1; 2], [])) = MUB /\ fst (one_less 1 ([3; 1; 2; 3], [])) = MUB.
Proof. repeat split; vm_compute; reflexivity. Qed.

Print Assumptions C80_bulk.
Print Assumptions C80_bytes.
Print Assumptions C80_i8.
Print Assumptions C80_elements.
Print Assumptions C80_write.
Print Assumptions C80_write_uuid.
Print Assumptions C80_numbers.
Print Assumptions C80_uuids.
Print Assumptions C80_byte_vectors.
Print Assumptions C80_any_elements.
Print Assumptions C80_decimals.
Print Assumptions C80_written.
