(** Decoded values are well-typed.  Proofs. *)

From Verif Require Import Base BaseL Prog ProgL Prim PrimL Utf8 Utf8L Tag Ty Ser De Typed Parts SortL DiscL RtL RtTy Agree Total Users.
From Coq Require Import List NArith ZArith Bool Lia Permutation Sorted.
Import ListNotations.
Open Scope N_scope.

Section Y.
Variable K : N.
Definition yld {A} (R : A -> Prop) (p : prog A) : Prop :=
  forall bs a r, wfb bs -> len bs < K -> run p bs = Ok (a, r) -> R a.

Lemma run_wfb : forall A (p : prog A) bs a r, wfb bs -> run p bs = Ok (a, r) -> wfb r.
Proof. intros A p bs a r Hb H. apply run_suffix in H. destruct H as (u & -> & _). apply wfb_app in Hb. apply Hb. Qed.

Lemma yld_ret : forall A (R : A -> Prop) a, R a -> yld R (Ret a).
Proof. intros A R a H bs b r Hb Hk E. apply Ok_inj in E. inversion E; subst. exact H. Qed.
Lemma yld_fail : forall A (R : A -> Prop) e, yld R (Fail e).
Proof. intros A R e bs b r Hb Hk E. discriminate. Qed.
Lemma yld_crash : forall A (R : A -> Prop) x, yld R (Crash x : prog A).
Proof. intros A R e bs b r Hb Hk E. discriminate. Qed.
Lemma yld_bind : forall A B (R : A -> Prop) (S : B -> Prop) p f,
  yld R p -> (forall a, R a -> yld S (f a)) -> yld S (bind p f).
Proof.
  intros A B R S p f Hp Hf bs b r Hb Hk E. rewrite run_bind in E.
  destruct (run p bs) as [[a y]|e|x] eqn:Er; try discriminate.
  eapply Hf; [eapply Hp; eassumption| | |exact E]; [eapply run_wfb; eassumption|]. apply run_len in Er. lia.
Qed.
Lemma yld_mono : forall A (R S : A -> Prop) p, (forall a, R a -> S a) -> yld R p -> yld S p.
Proof. intros A R S p H Hp bs a r Hb Hk E. apply H. eapply Hp; eassumption. Qed.
Lemma yld_map_err : forall A (R : A -> Prop) g p, yld R p -> yld R (map_err g p).
Proof.
  intros A R g p H bs a r Hb Hk E. rewrite run_map_err in E. destruct (run p bs) as [[b y]|e|x] eqn:Er; try discriminate.
  cbn in E. apply Ok_inj in E. inversion E; subst. eapply H; eassumption.
Qed.
Lemma yld_of_res : forall A (R : A -> Prop) r, (forall a, r = Ok a -> R a) -> yld R (of_res r).
Proof.
  intros A R r H bs a y Hb Hk E. rewrite run_of_res in E. destruct r as [b|e|x]; try discriminate.
  cbn in E. apply Ok_inj in E. inversion E; subst. apply H. reflexivity.
Qed.
Lemma yld_read : forall A (R : A -> Prop) n e f, (forall x, wfb x -> len x = n -> n < K -> yld R (f x)) -> yld R (Read n e f).
Proof.
  intros A R n e f H bs a r Hb Hk E. cbn [run] in E. destruct (split_at n bs) as [[x y]|] eqn:Es; [|discriminate].
  apply split_at_some in Es. destruct Es as [-> Hx]. apply wfb_app in Hb. rewrite len_app in Hk.
  eapply H; [| | | | |exact E]; try (apply Hb); try assumption; lia.
Qed.
Lemma yld_read_n : forall n, yld (fun x => wfb x /\ len x = n /\ n < K) (read_n n).
Proof. intros n. apply yld_read. intros x Hx Hl Hn. apply yld_ret. auto. Qed.
Lemma yld_read_byte : yld (fun b => b < 256) read_byte.
Proof.
  intros bs a r Hb Hk E. apply run_read_byte_ok in E. subst bs. apply wfb_cons in Hb. apply Hb.
Qed.
Lemma yld_rep : forall A (R : A -> Prop) n p, yld R p -> yld (fun l => length l = n /\ Forall R l) (rep n p).
Proof.
  induction n as [|n IH]; intros p H; cbn [rep]; [apply yld_ret; auto|].
  eapply yld_bind; [exact H|]. intros a Ha. eapply yld_bind; [apply IH; exact H|]. intros l [Hl Hf]. apply yld_ret. cbn. auto.
Qed.
Lemma yld_in_buf : forall A (R : A -> Prop) p buf, wfb buf -> len buf < K -> yld R p -> yld R (in_buf p buf).
Proof.
  intros A R p buf Hw Hk H. unfold in_buf. apply yld_of_res. intros a Ha. apply rmap_ok in Ha. destruct Ha as ([b y] & Er & ->).
  cbn [fst]. eapply H; eassumption.
Qed.
Lemma yld_any : forall A (p : prog A), yld (fun _ => True) p.
Proof. intros A p bs a r _ _ _. exact I. Qed.
(** Every element takes at least one byte. *)
Definition eats {A} (p : prog A) : Prop := forall bs a r, run p bs = Ok (a, r) -> len r < len bs.
Lemma eats_rep : forall A n (p : prog A) bs l r, eats p -> run (rep n p) bs = Ok (l, r) -> N.of_nat n + len r <= len bs.
Proof.
  induction n as [|n IH]; intros p bs l r H E; cbn [rep] in E.
  - apply Ok_inj in E. inversion E; subst. lia.
  - rewrite run_bind in E. destruct (run p bs) as [[a y]|e|x] eqn:E1; try discriminate.
    rewrite run_bind in E. destruct (run (rep n p) y) as [[l' z]|e|x] eqn:E2; try discriminate.
    apply Ok_inj in E. inversion E; subst. apply H in E1. apply IH in E2; [|exact H]. lia.
Qed.
Lemma eats_bind : forall A B (p : prog A) (f : A -> prog B), eats p -> eats (bind p f).
Proof.
  intros A B p f H bs a r E. rewrite run_bind in E. destruct (run p bs) as [[b y]|e|x] eqn:E1; try discriminate.
  apply H in E1. apply run_len in E. lia.
Qed.
Lemma eats_read_n : forall n, 0 < n -> eats (read_n n).
Proof. intros n Hn bs a r E. apply run_read_n_ok in E. destruct E as [-> E]. rewrite len_app. lia. Qed.
Lemma eats_read_byte : eats read_byte.
Proof. intros bs a r E. apply run_read_byte_ok in E. subst bs. rewrite len_cons. lia. Qed.
Lemma eats_int : forall fw ub i, eats (de_int fw ub i).
Proof.
  assert (E64 : eats decode_u64) by (apply eats_bind, eats_read_byte).
  assert (E128 : eats decode_u128) by (apply eats_bind, eats_read_byte).
  intros fw ub i. destruct i; cbn [de_int]; unfold de_usize, de_isize, de_u8, de_u16, de_u32, de_u64, de_u128, de_i8, de_i16, de_i32, de_i64, de_i128;
    destruct fw; repeat apply eats_bind; first [exact E64|exact E128|exact eats_read_byte|apply eats_read_n; reflexivity|idtac].
Qed.
Lemma eats_bulk : forall E rec t k, bulk_of t = Some k -> eats (de_ty E rec t).
Proof.
  intros E rec t k H. destruct t; try discriminate; cbn [de_ty]; apply eats_bind; first [apply eats_int|apply eats_read_byte|apply eats_read_n; reflexivity].
Qed.

Variable E : env.
Variable T : ty -> val -> Prop.
Hypothesis W : wf_env E.
Hypothesis HK : 16 * K <= 2 ^ e_ub E.
Hypothesis HT : forall t v, t <> TPath -> t <> TSystemTime -> T t v.
Hypothesis HTp : forall b, utf8_ok b = true -> T TPath (VBytes b).
Hypothesis HTs : forall s n, (0 <= s)%Z -> T TSystemTime (VPair (VInt s) n).

Lemma Ub_pos : 0 < e_ub E.  Proof. destruct (we_ub _ W) as [-> | ->]; reflexivity. Qed.

Lemma yld_le : forall A n (k : nat) (f : N -> A) (R : A -> Prop), n = N.of_nat k ->
  (forall x, x < 256 ^ n -> R (f x)) -> yld R (x <- read_n n ;; Ret (f (le_val x))).
Proof.
  intros A n k f R Hn H. eapply yld_bind; [apply yld_read_n|]. intros x (Hx & Hl & _). apply yld_ret. apply H.
  rewrite <- Hl. apply le_val_bound, Hx.
Qed.
Lemma yld_d64 : yld (fun x => x < 2 ^ 64) decode_u64.
Proof. intros bs a r Hb Hk H. eapply decode_u64_ok; eassumption. Qed.
Lemma yld_d128 : yld (fun x => x < 2 ^ 128) decode_u128.
Proof. intros bs a r Hb Hk H. eapply decode_u128_ok; eassumption. Qed.
Lemma yld_narrowU : forall bits x, yld (fun y => y < 2 ^ bits) (narrowU bits x).
Proof. intros bits x. unfold narrowU. destruct (x <? 2 ^ bits) eqn:C; [apply yld_ret; apply N.ltb_lt, C|apply yld_fail]. Qed.
Lemma yld_narrowS : forall bits x, yld (inS bits) (narrowS bits x).
Proof.
  intros bits x. unfold narrowS. destruct ((_ <=? x) && _)%Z eqn:C; [apply yld_ret|apply yld_fail].
  apply andb_prop in C. destruct C as [C1 C2]. apply Z.leb_le in C1. apply Z.ltb_lt in C2. split; assumption.
Qed.
Lemma yld_u64 : yld (fun x => x < 2 ^ 64) (de_u64 (e_fw E)).
Proof. unfold de_u64. destruct (e_fw E); [|apply yld_d64]. apply (yld_le _ 8 8 (fun x => x)); auto. Qed.
Lemma yld_u32 : yld (fun x => x < 2 ^ 32) (de_u32 (e_fw E)).
Proof. unfold de_u32. destruct (e_fw E); [apply (yld_le _ 4 4 (fun x => x)); auto|]. eapply yld_bind; [apply yld_d64|]. intros. apply yld_narrowU. Qed.
Lemma yld_u16 : yld (fun x => x < 2 ^ 16) (de_u16 (e_fw E)).
Proof. unfold de_u16. destruct (e_fw E); [apply (yld_le _ 2 2 (fun x => x)); auto|]. eapply yld_bind; [apply yld_d64|]. intros. apply yld_narrowU. Qed.
Lemma yld_u128 : yld (fun x => x < 2 ^ 128) (de_u128 (e_fw E)).
Proof. unfold de_u128. destruct (e_fw E); [apply (yld_le _ 16 16 (fun x => x)); auto|]. apply yld_d128. Qed.
Lemma castS_range : forall bits z, 0 < bits -> inS bits (castS bits z).
Proof. intros bits z H. apply signZ_range; [exact H|apply wrapZ_bound]. Qed.
Lemma yld_i64 : yld (inS 64) (de_i64 (e_fw E)).
Proof.
  unfold de_i64. destruct (e_fw E).
  - apply (yld_le _ 8 8 (gazgiz 64)); [reflexivity|]. intros x Hx. rewrite gazgiz_gz. apply gz_range; [reflexivity|exact Hx].
  - eapply yld_bind; [apply yld_d64|]. intros x Hx. apply yld_ret. rewrite gazgiz_gz. apply gz_range; [reflexivity|exact Hx].
Qed.
Lemma inU_of_N : forall bits x, x < 2 ^ bits -> inU bits (Z.of_N x).
Proof. intros bits x H. unfold inU. rewrite <- zpow2. lia. Qed.
Lemma yld_int : forall i, yld (in_ity (e_ub E) i) (de_int (e_fw E) (e_ub E) i).
Proof.
  intros i. pose proof Ub_pos as Hp. unfold in_ity. destruct i; cbn [de_int ity_signed ity_bits].
  - eapply yld_bind; [apply yld_read_byte|]. intros x Hx. apply yld_ret. apply inU_of_N. exact Hx.
  - unfold de_i8. eapply yld_bind; [apply yld_read_byte|]. intros x Hx. apply yld_ret. apply signZ_range; [reflexivity|exact Hx].
  - eapply yld_bind; [apply yld_u16|]. intros x Hx. apply yld_ret. apply inU_of_N. exact Hx.
  - unfold de_i16. destruct (e_fw E); (eapply yld_bind; [apply yld_any|]; intros x _).
    + apply yld_ret. apply castS_range. reflexivity.
    + apply yld_narrowS.
  - eapply yld_bind; [apply yld_u32|]. intros x Hx. apply yld_ret. apply inU_of_N. exact Hx.
  - unfold de_i32. destruct (e_fw E); (eapply yld_bind; [apply yld_any|]; intros x _).
    + apply yld_ret. apply castS_range. reflexivity.
    + apply yld_narrowS.
  - eapply yld_bind; [apply yld_u64|]. intros x Hx. apply yld_ret. apply inU_of_N. exact Hx.
  - apply yld_i64.
  - eapply yld_bind; [apply yld_u128|]. intros x Hx. apply yld_ret. apply inU_of_N. exact Hx.
  - unfold de_i128. destruct (e_fw E).
    + apply (yld_le _ 16 16 (gazgiz 128)); [reflexivity|]. intros x Hx. rewrite gazgiz_gz. apply gz_range; [reflexivity|exact Hx].
    + eapply yld_bind; [apply yld_d128|]. intros x Hx. apply yld_ret. rewrite gazgiz_gz. apply gz_range; [reflexivity|exact Hx].
  - unfold de_usize. eapply (yld_bind _ _ (fun x => x < 2 ^ e_ub E)); [eapply yld_bind; [apply yld_any|]; intros x _; apply yld_ret; apply N.mod_lt, N.pow_nonzero; discriminate|].
    intros x Hx. apply yld_ret. apply inU_of_N. exact Hx.
  - unfold de_isize. eapply yld_bind; [apply yld_any|]. intros x _. apply yld_ret. apply castS_range, Hp.
Qed.
Lemma yld_len : yld (fits E) (de_len E).
Proof.
  unfold de_len, de_usize. eapply yld_bind; [apply yld_any|]. intros x _. apply yld_ret. unfold fits.
  apply N.mod_lt, N.pow_nonzero. discriminate.
Qed.
Lemma yld_fixed : forall s w, (0 < w)%nat -> yld (fix_range s w) (de_fixed s w).
Proof.
  intros s w Hw. unfold de_fixed. eapply yld_bind; [apply yld_read_n|]. intros x (Hx & Hl & _).
  assert (Hv : le_val x < 2 ^ (8 * N.of_nat w)).
  { rewrite N.pow_mul_r. change (2 ^ 8) with 256. rewrite <- Hl. apply le_val_bound, Hx. }
  unfold fix_range. destruct s; apply yld_ret; (split; [exact Hw|]).
  - apply signZ_range; [lia|exact Hv].
  - apply inU_of_N, Hv.
Qed.
Lemma fixed_val_range : forall s w x, (0 < w)%nat -> wfb x -> len x = N.of_nat w -> fix_range s w (fixed_val s w x).
Proof.
  intros s w x Hw Hx Hl.
  assert (Hv : le_val x < 2 ^ (8 * N.of_nat w)).
  { rewrite N.pow_mul_r. change (2 ^ 8) with 256. rewrite <- Hl. apply le_val_bound, Hx. }
  unfold fix_range, fixed_val. destruct s; (split; [exact Hw|]).
  - apply signZ_range; [lia|exact Hv].
  - apply inU_of_N, Hv.
Qed.
Lemma chunks_spec : forall n w x, wfb x -> len x = N.of_nat n * w ->
  length (chunks n w x) = n /\ Forall (fun c => wfb c /\ len c = w) (chunks n w x).
Proof.
  induction n as [|n IH]; intros w x Hx Hl; cbn [chunks]; [auto|].
  destruct (split_at w x) as [[a b]|] eqn:Es.
  - apply split_at_some in Es. destruct Es as [-> Ha]. apply wfb_app in Hx. destruct Hx as [Hx1 Hx2]. rewrite len_app in Hl.
    destruct (IH w b Hx2) as [I1 I2]; [lia|]. cbn [length]. split; [congruence|]. constructor; auto.
  - apply split_at_none in Es. lia.
Qed.
Lemma unpack_length : forall x n, N.of_nat n <= 8 * len x -> length (unpack n x) = n.
Proof.
  induction x as [|b x IH]; intros n H; cbn [unpack].
  - rewrite len_nil in H. cbn. lia.
  - rewrite len_cons in H. rewrite app_length, firstn_length, IH by lia. unfold bits8. rewrite map_length. cbn [length]. lia.
Qed.

Section Rec.
Variable rec : N -> prog val.
Variables recW recT : N -> val -> Prop.
Hypothesis Hrec : forall n, yld (fun v => recW n v /\ recT n v) (rec n).
Definition J (t : ty) (v : val) : Prop := wt_ty E recW t v /\ every_ty T recT t v.
Hypothesis Hext : forall c t x y, J t x -> e_ext E c x = Some y -> J t y.

Lemma Forall_J : forall t l, Forall (J t) l -> Forall (wt_ty E recW t) l /\ Forall (every_ty T recT t) l.
Proof. intros t l H. split; (eapply Forall_impl; [|exact H]); intros x Hx; apply Hx. Qed.

Lemma yld_str : yld (fun v => exists b, v = VBytes b /\ wfb b /\ utf8_ok b = true /\ fits E (len b)) (de_str E).
Proof.
  unfold de_str. eapply yld_bind; [apply yld_len|]. intros n Hn. destruct (n =? 0).
  - apply yld_ret. exists []. repeat split; try constructor. unfold fits in *. rewrite len_nil. lia.
  - eapply yld_bind; [apply yld_any|]. intros _ _. eapply yld_bind; [apply yld_read_n|]. intros x (Hx & Hl & _).
    destruct (utf8_ok x) eqn:Hu; [|apply yld_fail]. apply yld_ret. exists x. rewrite Hl. auto.
Qed.
Lemma yld_blob : yld (fun b => wfb b /\ fits E (len b)) (de_blob E).
Proof.
  unfold de_blob. eapply yld_bind; [apply yld_len|]. intros n Hn. destruct (n =? 0).
  - apply yld_ret. split; [constructor|]. unfold fits in *. rewrite len_nil. lia.
  - eapply yld_bind; [apply yld_any|]. intros _ _. eapply yld_mono; [|apply yld_read_n]. intros x (Hx & Hl & _). rewrite Hl. auto.
Qed.
Lemma lenZ : forall A (l : list A) n, length l = N.to_nat n -> len l = n.
Proof. intros A l n H. unfold len. lia. Qed.
Lemma bulk_fix_J : forall t s w z, bulk_of t = Some (BFix s w) -> fix_range s w z -> J t (VInt z).
Proof.
  intros t s w z H [Hw Hz]. unfold J. destruct t; try discriminate.
  - destruct i; cbn in H; inversion H; subst; cbn in *; (split; [exact Hz|split; [apply HT; discriminate|exact I]]).
  - cbn in H; inversion H; subst; cbn in *; (split; [exact Hz|split; [apply HT; discriminate|exact I]]).
  - cbn in H; inversion H; subst; cbn in *; (split; [exact Hz|split; [apply HT; discriminate|exact I]]).
Qed.
Lemma bulk_fix_w : forall t s w, bulk_of t = Some (BFix s w) -> (0 < w <= 16)%nat.
Proof. intros t s w H. destruct t; try discriminate; [destruct i|..]; cbn in H; inversion H; subst; lia. Qed.
Lemma yld_bulk : forall t k, bulk_of t = Some k ->
  yld (fun l => fits E (len l) /\ vec_fits E t (len l) /\ Forall (J t) l) (de_bulk E k).
Proof.
  intros t k Hb. unfold de_bulk. eapply yld_bind; [apply yld_len|]. intros n Hn.
  destruct (n =? 0).
  { apply yld_ret. split; [unfold fits in *; rewrite len_nil; lia|]. split; [|constructor].
    unfold vec_fits, fits in *. rewrite len_nil, Hb. destruct k; try exact I; lia. }
  unfold vec_fits. rewrite Hb. destruct k as [|s w|[]].
  - eapply yld_bind; [apply yld_any|]. intros _ _. eapply yld_bind; [apply yld_read_n|]. intros x (Hx & Hl & _).
    eapply yld_bind; [apply yld_any|]. intros _ _. apply yld_ret. rewrite len_map.
    assert (Hun : length (unpack (N.to_nat n) x) = N.to_nat n).
    { apply unpack_length. rewrite Hl. unfold div_ceil8. pose proof (N.div_mod (n + 7) 8 ltac:(discriminate)).
      pose proof (N.mod_lt (n + 7) 8 ltac:(discriminate)). lia. }
    split; [rewrite (lenZ _ _ n Hun); exact Hn|]. split; [exact I|].
    apply Forall_map, Forall_forall. intros b _. destruct t; try discriminate; [|destruct i; discriminate].
    split; [exact I|]. split; [apply HT; discriminate|exact I].
  - pose proof (bulk_fix_w _ _ _ Hb) as Hw. destruct (n * N.of_nat w <? 2 ^ e_ub E) eqn:C; [|apply yld_fail]. apply N.ltb_lt in C.
    eapply yld_bind; [apply yld_any|]. intros _ _. eapply yld_bind; [apply yld_read_n|]. intros x (Hx & Hl & _).
    apply yld_ret. rewrite len_map. destruct (chunks_spec (N.to_nat n) (N.of_nat w) x Hx) as [Hc Hf]; [lia|].
    rewrite (lenZ _ _ n Hc). split; [exact Hn|]. split; [exact C|]. apply Forall_map. eapply Forall_impl; [|exact Hf].
    intros c [Hc1 Hc2]. eapply bulk_fix_J; [exact Hb|]. apply fixed_val_range; [lia|exact Hc1|exact Hc2].
  - eapply yld_bind; [apply yld_any|]. intros _ _. intros bs l r Hbs Hk Er.
    assert (Hr := Er). apply (eats_rep _ _ _ _ _ _) in Hr.
    2: { apply eats_bind, eats_read_n. reflexivity. }
    eapply (yld_rep _ (J t)) in Er; [|clear Er Hr|exact Hbs|exact Hk].
    + destruct Er as [E1 E2]. rewrite (lenZ _ _ n E1). split; [exact Hn|]. split; [|exact E2]. unfold fits. lia.
    + eapply yld_bind; [apply yld_read_n|]. intros x (Hx & Hl & _). apply yld_ret.
      destruct t; try discriminate; [destruct i; discriminate|]. destruct (we_dec _ W x Hx Hl) as (D1 & D2 & D3).
      split; [cbn; auto|]. split; [apply HT; discriminate|exact I].
  - destruct (n * 16 <? 2 ^ e_ub E) eqn:C; [|apply yld_fail]. apply N.ltb_lt in C.
    eapply yld_bind; [apply yld_any|]. intros _ _. eapply yld_bind; [apply yld_read_n|]. intros x (Hx & Hl & _).
    apply yld_ret. rewrite len_map. destruct (chunks_spec (N.to_nat n) 16 x Hx) as [Hc Hf]; [lia|].
    rewrite (lenZ _ _ n Hc). split; [exact Hn|]. split; [exact C|]. apply Forall_map. eapply Forall_impl; [|exact Hf].
    intros c [Hc1 Hc2]. destruct t; try discriminate; [destruct i; discriminate|].
    split; [cbn; auto|]. split; [apply HT; discriminate|exact I].
Qed.

(** Lists read one by one; for element types with a bulk form their number is bounded by the input. *)
Lemma vec_fits_lt : forall t n, n < K -> fits E n -> vec_fits E t n.
Proof.
  intros t n Hk Hn. unfold vec_fits. destruct (bulk_of t) as [[|s w|d]|] eqn:Hb; auto.
  - pose proof (bulk_fix_w _ _ _ Hb) as Hw.
    assert (n * N.of_nat w <= n * 16) by (apply N.mul_le_mono_l; lia). unfold fits. lia.
  - unfold fits. lia.
Qed.
Definition elems (t : ty) (l : list val) : Prop := fits E (len l) /\ vec_fits E t (len l) /\ Forall (J t) l.
Lemma yld_elems : forall t n, fits E n -> yld (J t) (de_ty E rec t) -> yld (elems t) (rep (N.to_nat n) (de_ty E rec t)).
Proof.
  intros t n Hn IH bs l r Hb Hk Er. assert (Hr := Er).
  eapply (yld_rep _ (J t)) in Er; [|exact IH|exact Hb|exact Hk]. destruct Er as [E1 E2].
  unfold elems. rewrite (lenZ _ _ n E1). split; [exact Hn|]. split; [|exact E2].
  assert (exists b, bulk_of t = b) as [b Eb] by eauto. destruct b as [k|].
  - apply eats_rep in Hr; [|eapply eats_bulk; exact Eb]. apply vec_fits_lt; [lia|exact Hn].
  - unfold vec_fits. rewrite Eb. exact I.
Qed.
Lemma elems_nil : forall t, elems t [].
Proof.
  intros t. unfold elems, vec_fits, fits. rewrite len_nil. pose proof (N.pow_nonzero 2 (e_ub E) ltac:(discriminate)) as Hz.
  split; [lia|]. split; [|constructor]. destruct (bulk_of t) as [[]|]; try exact I; lia.
Qed.
Lemma yld_seq : forall t sz, yld (J t) (de_ty E rec t) -> yld (elems t) (de_seq E sz (de_ty E rec t)).
Proof.
  intros t sz IH. unfold de_seq. eapply yld_bind; [apply yld_len|]. intros n Hn. destruct (n =? 0).
  - apply yld_ret, elems_nil.
  - eapply yld_bind; [apply yld_any|]. intros _ _. apply yld_elems; assumption.
Qed.
Definition JP (a b : ty) (p : val) : Prop := match p with VPair x y => J a x /\ J b y | _ => False end.
Lemma yld_entry : forall a b, yld (J a) (de_ty E rec a) -> yld (J b) (de_ty E rec b) -> yld (JP a b) (de_entry (de_ty E rec a) (de_ty E rec b)).
Proof. intros a b Ha Hb. unfold de_entry. eapply yld_bind; [exact Ha|]. intros x Hx. eapply yld_bind; [exact Hb|]. intros y Hy. apply yld_ret. cbn. auto. Qed.
Lemma yld_pairs : forall a b n, fits E n -> yld (J a) (de_ty E rec a) -> yld (J b) (de_ty E rec b) ->
  yld (fun l => fits E (len l) /\ Forall (JP a b) l) (rep (N.to_nat n) (de_entry (de_ty E rec a) (de_ty E rec b))).
Proof.
  intros a b n Hn Ha Hb. eapply yld_mono; [|apply yld_rep, yld_entry; eassumption]. intros l [Hl Hf]. rewrite (lenZ _ _ n Hl). auto.
Qed.
Lemma fits_le : forall A B (l : list A) (l' : list B), (length l <= length l')%nat -> fits E (len l') -> fits E (len l).
Proof. intros A B l l' H Hf. unfold fits, len in *. lia. Qed.

Lemma cbuild_pairs : forall (upd : val -> val -> val) a b l, (upd = upd_insert \/ upd = upd_last) ->
  fits E (len l) -> Forall (JP a b) l -> J (TMap KHash a b) (VSeq (cbuild (e_cmp E a) pkey upd l)) .
Proof.
  intros upd a b l Hu Hf Hl.
  assert (HP : Forall (JP a b) (cbuild (e_cmp E a) pkey upd l)).
  { unfold cbuild. assert (Ha : Forall (JP a b) (@nil val)) by constructor. revert Ha. generalize (@nil val).
    induction Hl as [|e l He Hl IH]; intros acc Ha; cbn [fold_left]; [exact Ha|]. apply IH.
    { unfold fits in *. rewrite len_cons in Hf. lia. }
    clear - He Ha Hu. induction Ha as [|x acc Hx Ha IH]; cbn [cinsert]; [repeat constructor; exact He|].
    destruct (e_cmp E a (pkey e) (pkey x)); constructor; auto.
    destruct Hu as [-> | ->]; [|exact He]. destruct x; try contradiction. destruct e; try contradiction. cbn in *. split; [apply Hx|apply He]. }
  split; cbn [wt_ty every_ty].
  - split; [eapply fits_le; [apply cbuild_length|exact Hf]|]. split.
    + eapply Forall_impl; [|exact HP]. intros [] Hx; try contradiction. destruct Hx as [[A _] [B _]]. auto.
    + apply cbuild_sorted.
      * apply lawful_order, (we_cmp _ W).
      * intros x e Hc. destruct Hu as [-> | ->]; [|exact Hc]. unfold upd_insert. cbn [pkey].
        apply o_refl. apply lawful_order, (we_cmp _ W).
  - split; [apply HT; discriminate|]. eapply Forall_impl; [|exact HP]. intros [] Hx; try exact I. destruct Hx as [[_ A] [_ B]]. auto.
Qed.
Lemma J_kind : forall k k' a b v, J (TMap k a b) v -> J (TMap k' a b) v.
Proof. intros k k' a b v [H1 H2]. split; [exact H1|]. split; [apply HT; discriminate|]. apply H2. Qed.
Lemma cbuild_set : forall k t l, fits E (len l) -> Forall (J t) l -> J (TSet k t) (VSeq (build_set E k t l)).
Proof.
  intros k t l Hf Hl. unfold build_set. set (upd := match k with KHash => upd_first | KOrd => upd_last end).
  assert (HP : Forall (J t) (cbuild (e_cmp E t) vid upd l)).
  { apply Forall_forall. intros x Hx. unfold cbuild in Hx.
    assert (G : forall l acc, Forall (J t) l -> Forall (J t) acc -> Forall (J t) (fold_left (fun a e => cinsert (e_cmp E t) vid upd e a) l acc)).
    { clear. induction l as [|e l IH]; intros acc Hl Ha; cbn [fold_left]; [exact Ha|]. inversion Hl; subst. apply IH; [assumption|].
      clear - H1 Ha. induction Ha as [|x acc Hx Ha IH]; cbn [cinsert]; [repeat constructor; apply H1|].
      destruct (e_cmp E t (vid e) (vid x)); constructor; auto. unfold upd. destruct k; [exact Hx|exact H1]. }
    specialize (G l [] Hl (Forall_nil _)). rewrite Forall_forall in G. apply G, Hx. }
  apply Forall_J in HP. destruct HP as [HP1 HP2]. split; cbn [wt_ty every_ty].
  - split; [eapply fits_le; [apply cbuild_length|exact Hf]|]. split; [exact HP1|].
    apply (cbuild_sorted (e_cmp E t) vid upd).
    + apply lawful_order, (we_cmp _ W).
    + intros x e Hc. unfold upd. destruct k; [|exact Hc]. apply o_refl, lawful_order, (we_cmp _ W).
  - split; [apply HT; discriminate|exact HP2].
Qed.

Lemma yld_ty : forall t, yld (J t) (de_ty E rec t).
Proof.
  assert (TT : forall t v, t <> TPath -> t <> TSystemTime -> T t v) by exact HT.
  induction t; cbn [de_ty].
  - eapply yld_bind; [apply yld_any|]. intros b _. destruct (b =? 0); [|destruct (b =? 1)]; try apply yld_fail;
      (apply yld_ret; split; [exact I|split; [apply HT; discriminate|exact I]]).
  - eapply yld_bind; [apply yld_int|]. intros z Hz. apply yld_ret. split; [exact Hz|split; [apply HT; discriminate|exact I]].
  - eapply (yld_le _ 4 4 (fun x => VInt (Z.of_N x))); [reflexivity|]. intros x Hx. split; [apply (inU_of_N 32); exact Hx|split; [apply HT; discriminate|exact I]].
  - eapply (yld_le _ 8 8 (fun x => VInt (Z.of_N x))); [reflexivity|]. intros x Hx. split; [apply (inU_of_N 64); exact Hx|split; [apply HT; discriminate|exact I]].
  - eapply (yld_bind _ _ scalar).
    + intros bs c r Hb Hk Er. eapply de_char_ok in Er; [|exact Hb]. apply Er.
    + intros c Hc. apply yld_ret. split; [|split; [apply HT; discriminate|exact I]]. cbn [wt_ty]. rewrite N2Z.id. split; [lia|exact Hc].
  - eapply yld_mono; [|apply yld_str]. intros v (b & -> & H1 & H2 & H3). split; [cbn; auto|split; [apply HT; discriminate|exact I]].
  - eapply yld_mono; [|apply yld_str]. intros v (b & -> & H1 & H2 & H3). split; [cbn; auto|split; [apply HTp, H2|exact I]].
  - eapply yld_bind; [apply yld_blob|]. intros b [H1 H2]. apply yld_ret. split; [cbn; auto|split; [apply HT; discriminate|exact I]].
  - eapply yld_bind; [apply yld_read_n|]. intros x (H1 & H2 & _). apply yld_ret. split; [cbn; auto|split; [apply HT; discriminate|exact I]].
  - eapply yld_bind; [apply yld_read_n|]. intros x (H1 & H2 & _). apply yld_ret.
    destruct (we_dec _ W x H1 H2) as (D1 & D2 & D3). split; [cbn; auto|split; [apply HT; discriminate|exact I]].
  - apply yld_ret. split; [exact I|split; [apply HT; discriminate|exact I]].
  - eapply yld_bind; [exact IHt1|]. intros x Hx. eapply yld_bind; [exact IHt2|]. intros y Hy. apply yld_ret.
    split; [split; [apply Hx|apply Hy]|]. split; [apply HT; discriminate|]. split; [apply Hx|apply Hy].
  - assert (HS : yld (elems t) (de_seq E (e_esize E t) (de_ty E rec t))) by (apply yld_seq, IHt).
    assert (HB : forall p, yld (elems t) p -> yld (J (TVec t)) (l <- p ;; Ret (VSeq l))).
    { intros p Hp. eapply yld_bind; [exact Hp|]. intros l (H1 & H2 & H3). apply Forall_J in H3. apply yld_ret.
      split; [cbn; split; [exact H1|split; [exact H2|apply H3]]|]. split; [apply HT; discriminate|apply H3]. }
    destruct (e_spec E); [|apply HB, HS]. destruct (bulk_of t) as [k|] eqn:Hb; [|apply HB, HS]. apply HB, yld_bulk, Hb.
  - eapply yld_bind; [apply yld_seq, IHt|]. intros l (H1 & H2 & H3). apply Forall_J in H3. apply yld_ret.
    split; [cbn; split; [exact H1|apply H3]|]. split; [apply HT; discriminate|apply H3].
  - eapply yld_bind; [apply yld_rep, IHt|]. intros l (H1 & H3). apply Forall_J in H3. apply yld_ret.
    split; [cbn; split; [exact H1|apply H3]|]. split; [apply HT; discriminate|apply H3].
  - eapply yld_bind; [apply yld_any|]. intros b _. destruct (b =? 0).
    + apply yld_ret. split; [exact I|]. split; [apply HT; discriminate|constructor].
    + destruct (b =? 1); [|apply yld_fail]. eapply yld_bind; [exact IHt|]. intros x Hx. apply yld_ret.
      split; [apply Hx|]. split; [apply HT; discriminate|]. constructor; [apply Hx|constructor].
  - eapply yld_bind; [apply yld_any|]. intros b _. destruct (b =? 0).
    + eapply yld_bind; [apply yld_map_err; exact IHt1|]. intros x Hx. apply yld_ret.
      split; [apply Hx|]. split; [apply HT; discriminate|]. constructor; [apply Hx|constructor].
    + destruct (b =? 1); [|apply yld_fail]. eapply yld_bind; [apply yld_map_err; exact IHt2|]. intros x Hx. apply yld_ret.
      split; [apply Hx|]. split; [apply HT; discriminate|]. constructor; [apply Hx|constructor].
  - eapply yld_bind; [apply yld_any|]. intros b _. destruct (b =? 0).
    + apply yld_ret. split; [exact I|]. split; [apply HT; discriminate|constructor].
    + destruct (b =? 1); [|destruct (b =? 2); [|apply yld_fail]]; (eapply yld_bind; [apply yld_map_err; exact IHt|]; intros x Hx; apply yld_ret;
      split; [apply Hx|]; split; [apply HT; discriminate|]; constructor; [apply Hx|constructor]).
  - eapply (yld_bind _ _ (fun l => fits E (len l) /\ Forall (JP t1 t2) l)).
    + unfold de_seq. eapply yld_bind; [apply yld_len|]. intros n Hn. destruct (n =? 0).
      * apply yld_ret. split; [|constructor]. unfold fits in *. rewrite len_nil. lia.
      * eapply yld_bind; [apply yld_any|]. intros _ _. apply yld_pairs; assumption.
    + intros l [Hf Hl]. apply yld_ret. apply (J_kind KHash). apply cbuild_pairs; auto. destruct k; auto.
  - eapply yld_bind; [apply yld_seq, IHt|]. intros l (H1 & H2 & H3). apply yld_ret. apply cbuild_set; assumption.
  - eapply yld_bind; [apply yld_seq, IHt|]. intros l (H1 & H2 & H3). apply yld_ret.
    assert (H3' : Forall (J t) (ssort vcmp l)).
    { rewrite Forall_forall in *. intros x Hx. apply H3. eapply Permutation_in; [apply ssort_perm|exact Hx]. }
    apply Forall_J in H3'. split; cbn [wt_ty every_ty].
    + split; [unfold fits, len in *; rewrite ssort_length; exact H1|]. split; [apply H3'|]. apply ssort_sorted, vcmp_order.
    + split; [apply HT; discriminate|apply H3'].
  - eapply yld_mono; [|exact IHt]. intros v [H1 H2]. split; [exact H1|]. split; [apply HT; discriminate|exact H2].
  - eapply yld_bind; [apply (yld_int U64)|]. intros s Hs. eapply yld_bind; [apply (yld_int U32)|]. intros n Hn.
    apply yld_of_res. intros v Hv. unfold dur_new in Hv. cbv zeta in Hv. destruct (_ <? 2 ^ 64)%Z eqn:C in Hv; [|discriminate].
    apply Ok_inj in Hv. subst v. apply Z.ltb_lt in C. unfold in_ity, inU in Hs, Hn. cbn [ity_signed ity_bits] in Hs, Hn. change (Z.of_N 64) with 64%Z in *. change (Z.of_N 32) with 32%Z in *.
    split; [|split; [apply HT; discriminate|exact I]]. cbn [wt_ty]. pose proof (Z.mod_pos_bound n 1000000000 ltac:(lia)).
    pose proof (Z.div_pos n 1000000000 ltac:(lia) ltac:(lia)). unfold inU. change (Z.of_N 64) with 64%Z. lia.
  - eapply yld_bind; [apply (yld_int U64)|]. intros s Hs. eapply yld_bind; [apply (yld_int U32)|]. intros n Hn.
    eapply (yld_bind _ _ (fun v => exists s n, v = VPair (VInt s) (VInt n) /\ (0 <= s)%Z /\ (0 <= n < 1000000000)%Z)).
    + apply yld_of_res. intros v Hv. unfold dur_new in Hv. cbv zeta in Hv. destruct (_ <? 2 ^ 64)%Z eqn:C in Hv; [|discriminate].
      apply Ok_inj in Hv. subst v. unfold in_ity, inU in Hs, Hn. cbn [ity_signed ity_bits] in Hs, Hn. change (Z.of_N 64) with 64%Z in *. change (Z.of_N 32) with 32%Z in *. pose proof (Z.mod_pos_bound n 1000000000 ltac:(lia)).
      pose proof (Z.div_pos n 1000000000 ltac:(lia) ltac:(lia)). eexists _, _. split; [reflexivity|]. lia.
    + intros v (s' & n' & -> & H1 & H2). apply yld_of_res. intros v Hv. cbn [time_add] in Hv. destruct (s' <=? e_time E)%Z eqn:C in Hv; [|discriminate].
      apply Ok_inj in Hv. subst v. apply Z.leb_le in C. split; [cbn; auto|]. split; [apply HTs, H1|exact I].
  - eapply yld_bind; [exact IHt|]. intros x Hx. destruct (e_ext E c x) as [y|] eqn:Ex; [|apply yld_fail]. apply yld_ret.
    destruct (Hext c t x y Hx Ex) as [H1 H2]. split; [cbn; split; [exact H1|eapply (we_ext _ W); exact Ex]|]. split; [apply HT; discriminate|exact H2].
  - eapply yld_mono; [|apply Hrec]. intros v [H1 H2]. split; [exact H1|]. split; [apply HT; discriminate|exact H2].
Qed.

Lemma yld_varint : yld (fits E) (read_varint E).
Proof.
  pose proof (we_ub _ W) as Hub.
  assert (H32 : 2 ^ 32 <= 2 ^ e_ub E) by (apply N.pow_le_mono_r; [discriminate|destruct Hub as [-> | ->]; discriminate]).
  assert (H16 : 2 ^ 16 <= 2 ^ 32) by discriminate. assert (H8 : 256 <= 2 ^ 16) by discriminate.
  unfold read_varint. eapply yld_bind; [apply yld_read_byte|]. intros b Hb. unfold fits.
  destruct (b =? 251). { apply (yld_le _ 2 2 (fun x => x)); [reflexivity|]. intros x Hx. change (256 ^ 2) with (2 ^ 16) in Hx. lia. }
  destruct (b =? 252). { apply (yld_le _ 4 4 (fun x => x)); [reflexivity|]. intros x Hx. change (256 ^ 4) with (2 ^ 32) in Hx. lia. }
  destruct (b =? 253). { eapply yld_bind; [apply yld_any|]. intros x _. destruct (le_val x <? 2 ^ e_ub E) eqn:C; [|apply yld_fail]. apply yld_ret. apply N.ltb_lt, C. }
  destruct (253 <? b); [apply yld_fail|apply yld_ret]. cbn beta. clear - Hb H32. change (2 ^ 32) with 4294967296 in H32. eapply N.lt_le_trans; [exact Hb|]. eapply N.le_trans; [|exact H32]. discriminate.
Qed.
Lemma yld_idx_seq : forall t, yld (elems t) (de_idx_seq E t (de_ty E rec t)).
Proof.
  intros t. unfold de_idx_seq. eapply yld_bind; [apply yld_any|]. intros fl _. eapply yld_bind; [apply yld_varint|]. intros n Hn.
  destruct (N.land fl 1 =? 0).
  - eapply yld_bind; [apply yld_any|]. intros _ _. apply yld_elems; [exact Hn|apply yld_ty].
  - destruct (n * 4 <? 2 ^ e_ub E); [|apply yld_fail]. eapply yld_bind; [apply yld_any|]. intros _ _. eapply yld_bind; [apply yld_any|]. intros _ _.
    apply yld_elems; [exact Hn|apply yld_ty].
Qed.
Lemma yld_idx_map : forall k a b, yld (fun l => J (TMap k a b) (VSeq l)) (de_idx_map E k a b (de_ty E rec a) (de_ty E rec b)).
Proof.
  intros k a b. unfold de_idx_map. eapply yld_bind; [apply yld_any|]. intros fl _. eapply yld_bind; [apply yld_varint|]. intros n Hn.
  eapply yld_bind; [apply yld_any|]. intros _ _.
  destruct (N.land fl 1 =? 0).
  - eapply yld_bind; [apply yld_pairs; [exact Hn|apply yld_ty|apply yld_ty]|]. intros l [H1 H2]. apply yld_ret. apply (J_kind KHash).
    unfold build_idx_map. apply cbuild_pairs; auto.
  - destruct (n * 8 <? 2 ^ e_ub E); [|apply yld_fail]. eapply yld_bind; [apply yld_any|]. intros m _. eapply yld_bind; [apply yld_any|]. intros _ _.
    eapply yld_bind; [apply yld_any|]. intros _ _. eapply yld_bind; [apply yld_rep, yld_ty|]. intros ks [K1 K2].
    eapply yld_bind; [apply yld_any|]. intros _ _. eapply yld_bind; [apply yld_rep, yld_ty|]. intros vs [V1 V2].
    apply yld_ret. apply (J_kind KHash). unfold build_idx_map. apply cbuild_pairs; [auto| |].
    + rewrite len_map. unfold fits, len in *. rewrite combine_length. lia.
    + clear K1 V1. revert vs V2. induction K2 as [|x ks Hx K2 IH]; intros vs V2; cbn [combine map]; [constructor|].
      destruct vs as [|y vs]; [constructor|]. inversion V2; subst. cbn [map fst snd]. constructor; [split; assumption|auto].
Qed.
Lemma yld_mode : forall m t, yld (J t) (de_mode E rec m t).
Proof.
  intros m t. destruct m; cbn [de_mode].
  - replace (match t with TBool | _ => de_ty E rec t end) with (de_ty E rec t) by (destruct t; reflexivity). apply yld_ty.
  - replace (match t with TBool | _ => match fixed_of t with Some (s, w) => z <- de_fixed s w;; Ret (VInt z) | None => Crash PType end end)
      with (match fixed_of t with Some (s, w) => z <- de_fixed s w;; Ret (VInt z) | None => Crash PType end) by (destruct t; reflexivity).
    destruct (fixed_of t) as [[s w]|] eqn:Ef; [|apply yld_crash].
    assert (Hb : bulk_of t = Some (BFix s w) /\ (0 < w)%nat) by (destruct t; try discriminate; destruct i; cbn in Ef; inversion Ef; subst; split; (reflexivity || lia)).
    destruct Hb as [Hb Hw]. eapply yld_bind; [apply yld_fixed; exact Hw|]. intros z Hz. apply yld_ret. eapply bulk_fix_J; eassumption.
  - destruct t; try apply yld_crash. destruct (bulk_of t) as [k|] eqn:Hb; [|apply yld_crash].
    eapply yld_bind; [apply yld_bulk; exact Hb|]. intros l (H1 & H2 & H3). apply Forall_J in H3. apply yld_ret.
    split; [cbn; split; [exact H1|split; [exact H2|apply H3]]|]. split; [apply HT; discriminate|apply H3].
  - destruct t; try apply yld_crash. eapply yld_bind; [apply yld_idx_map|]. intros l Hl. apply yld_ret. exact Hl.
  - destruct t; try apply yld_crash; (eapply yld_bind; [apply yld_idx_seq|]; intros l (H1 & H2 & H3); apply Forall_J in H3; apply yld_ret).
    + split; [cbn; split; [exact H1|split; [exact H2|apply H3]]|]. split; [apply HT; discriminate|apply H3].
    + split; [cbn; split; [exact H1|apply H3]|]. split; [apply HT; discriminate|apply H3].
  - destruct t; try apply yld_crash. eapply yld_bind; [apply yld_idx_seq|]. intros l (H1 & H2 & H3). apply yld_ret. apply cbuild_set; assumption.
Qed.
Definition JF (r : N) (fs : list field) (l : list val) : Prop := wt_fields E recW r fs l /\ every_fields T recT r fs l.
Definition JD (s : schema) (v : val) : Prop := wt_derived E recW s v /\ every_derived T recT s v.
Lemma yld_fields : forall opt cur tgt fs0 fs, (forall f, In f fs -> In f fs0) ->
  (forall f v, In f fs0 -> falive cur f = false -> falive tgt f = true -> f_default f cur = Ok v -> J (f_ty f) v) ->
  yld (fun p => JF tgt fs (fst p) /\ forall f v, In (f, v) (snd p) -> (In f fs0 /\ falive cur f = true /\ falive tgt f = false) /\ J (f_ty f) v) (de_fields E rec opt cur tgt fs).
Proof.
  intros opt cur tgt fs0 fs Hin Hd. unfold JF, wt_fields, every_fields. induction fs as [|f fs IH]; cbn [de_fields filter].
  - apply yld_ret. cbn. split; [split; constructor|]. intros f v [].
  - assert (Hf : In f fs0) by (apply Hin; left; reflexivity). assert (IH' := IH (fun g Hg => Hin g (or_intror Hg))). clear IH.
    destruct (falive cur f) eqn:F1.
    + destruct (falive tgt f) eqn:F2.
      * eapply yld_bind; [apply yld_mode|]. intros v Hv. eapply yld_bind; [exact IH'|]. intros p [[P1 P2] P3]. apply yld_ret. cbn [fst snd].
        split; [split; (constructor; [apply Hv|assumption])|exact P3].
      * eapply yld_bind; [apply yld_mode|]. intros v Hv. eapply yld_bind; [exact IH'|]. intros p [P1 P3]. apply yld_ret. cbn [fst snd].
        split; [exact P1|]. intros g w [Hg|Hg]; [inversion Hg; subst; auto|auto].
    + destruct (falive tgt f) eqn:F2; [|exact IH'].
      eapply (yld_bind _ _ (J (f_ty f))); [apply yld_of_res; intros v Hv; eapply Hd; eassumption|].
      intros v Hv. eapply yld_bind; [exact IH'|]. intros p [[P1 P2] P3]. apply yld_ret. cbn [fst snd].
      split; [split; (constructor; [apply Hv|assumption])|exact P3].
Qed.
Lemma converts_typed : forall r tgt fs rem l l',
  (forall f l v l', In f fs -> falive r f = true -> falive tgt f = false -> JF tgt fs l -> J (f_ty f) v -> f_convert f l r v = Ok l' -> JF tgt fs l') ->
  (forall f v, In (f, v) rem -> (In f fs /\ falive r f = true /\ falive tgt f = false) /\ J (f_ty f) v) -> JF tgt fs l -> converts r l rem = Ok l' -> JF tgt fs l'.
Proof.
  intros r tgt fs rem l l' Hc. revert l. induction rem as [|[f v] rem IH]; intros l Hr Hl H; cbn [converts] in H.
  - apply Ok_inj in H. subst. exact Hl.
  - apply rbind_ok in H. destruct H as (l1 & H1 & H2). destruct (Hr f v) as [(R1 & R3 & R4) R2]; [left; reflexivity|].
    eapply (IH l1); [intros; apply Hr; right; assumption| |exact H2]. eapply Hc; eassumption.
Qed.
Lemma yld_finish : forall opt cur tgt fs (R : val -> Prop) (g : list val -> prog val),
  (forall f v, In f fs -> falive cur f = false -> falive tgt f = true -> f_default f cur = Ok v -> J (f_ty f) v) ->
  (forall f l v l', In f fs -> falive cur f = true -> falive tgt f = false -> JF tgt fs l -> J (f_ty f) v -> f_convert f l cur v = Ok l' -> JF tgt fs l') ->
  (forall l, JF tgt fs l -> yld R (g l)) ->
  yld R (p <- de_fields E rec opt cur tgt fs ;; l <- of_res (converts cur (fst p) (snd p)) ;; g l).
Proof.
  intros opt cur tgt fs R g Hd Hc Hg. eapply yld_bind; [apply (yld_fields opt cur tgt fs fs); auto|]. intros p [P1 P2].
  eapply (yld_bind _ _ (JF tgt fs)); [|exact Hg]. apply yld_of_res. intros l Hl. eapply converts_typed; [|exact P2|exact P1|exact Hl].
  intros; eapply Hc; eassumption.
Qed.
Lemma yld_vfields : forall cur fs, yld (JF cur fs) (de_vfields E rec cur fs).
Proof.
  intros cur. unfold JF, wt_fields, every_fields. induction fs as [|f fs IH]; cbn [de_vfields filter]; [apply yld_ret; split; constructor|].
  destruct (falive cur f); [|exact IH]. eapply yld_bind; [apply yld_ty|]. intros v Hv. eapply yld_bind; [exact IH|]. intros l [L1 L2].
  apply yld_ret. split; (constructor; [apply Hv|assumption]).
Qed.
Lemma Forall2_types : forall (P : ty -> val -> Prop) fs fs' l, map f_ty fs = map f_ty fs' ->
  Forall2 (fun f v => P (f_ty f) v) fs l -> Forall2 (fun f v => P (f_ty f) v) fs' l.
Proof.
  intros P fs fs' l H F. revert fs' H. induction F as [|f v fs l Hf F IH]; intros [|f' fs'] H; try discriminate; [constructor|].
  cbn [map] in H. injection H as H1 H2. constructor; [rewrite <- H1; exact Hf|apply IH, H2].
Qed.

Variable s : schema.
Hypothesis Hwf : wf_schema s.
Variable r : N.
Hypothesis Hdef : forall h fs f v, sent s r = Some h -> field_list s fs -> In f fs -> falive r f = false -> falive (scur s) f = true ->
  f_default f r = Ok v -> J (f_ty f) v.
Hypothesis Hconv : forall h fs f l v l', sent s r = Some h -> field_list s fs -> In f fs -> falive r f = true -> falive (scur s) f = false ->
  JF (scur s) fs l -> J (f_ty f) v -> f_convert f l r v = Ok l' -> JF (scur s) fs l'.
Hypothesis Hvconv : forall h vs vr l v, sent s r = Some h -> s_body s = SEnum vs -> In vr vs -> valive r vr = true -> valive (scur s) vr = false ->
  v_convert vr l r = Ok v -> JD s v.
Hypothesis Hstable : forall vs vr r h, s_body s = SEnum vs -> In vr vs ->
  sent s r = Some h -> h_opt h = true -> valive r vr = true -> valive (scur s) vr = true ->
  map f_ty (filter (falive r) (v_fields vr)) = map f_ty (filter (falive (scur s)) (v_fields vr)).

Lemma JD_variant : forall vs vr l, s_body s = SEnum vs -> In vr vs -> valive (scur s) vr = true ->
  JF (scur s) (v_fields vr) l -> JD s (VVar (v_name vr) l).
Proof.
  intros vs vr l Eb Hin Ha [L1 L2]. destruct Hwf as (_ & _ & Hb). unfold JD, wt_derived, every_derived. rewrite Eb in *.
  destruct Hb as (Hn & _ & _). split; [exists vr; auto|]. intros vr' Hin' Hk.
  assert (vr' = vr) by (eapply (NoDup_map_inj _ _ v_name); eauto). subst vr'. exact L2.
Qed.

Lemma yld_body : 0 < K -> yld (JD s) (de_body E rec s r).
Proof.
  intros HK0. unfold de_body. assert (exists o, sent s r = o) as (o & Eh) by eauto. rewrite Eh. destruct o as [h|]; [|apply yld_fail].
  pose proof Hwf as (_ & _ & Hb).
  assert (exists b, s_body s = b) as (b & Eb) by eauto. rewrite Eb in Hb |- *.
  destruct b as [fs|vs].
  - assert (Hl : field_list s fs) by (unfold field_list; rewrite Eb; reflexivity).
    assert (Hfin : forall opt, yld (JD s) (p <- de_fields E rec opt r (scur s) fs ;; l <- of_res (converts r (fst p) (snd p)) ;; Ret (VSeq l))).
    { intros opt. apply yld_finish; [intros f v ? ? ? ?; apply (Hdef h fs f v); auto|intros f l v l' ? ? ? ? ? ?; apply (Hconv h fs f l v l'); auto|].
      intros l [L1 L2]. apply yld_ret. unfold JD, wt_derived, every_derived. rewrite Eb. auto. }
    destruct (h_opt h); [|apply Hfin].
    unfold de_struct_opt, struct_payload. eapply yld_bind; [apply yld_any|]. intros n _. eapply yld_bind; [apply yld_any|]. intros _ _.
    eapply yld_bind; [apply yld_read_n|]. intros buf (B1 & B2 & B3). apply yld_in_buf; [exact B1|lia|].
    eapply yld_bind; [apply yld_any|]. intros _ _. apply Hfin.
  - destruct Hb as (Hn & _ & Hr). destruct (Hr _ _ Eh) as (ds & Hds & _ & _).
    assert (Hi : forall p, In p ds -> In (fst p) vs /\ valive r (fst p) = true).
    { intros p Hp. assert (H : In (fst p) (map fst ds)) by (apply in_map; exact Hp). rewrite (calc_disc_fst _ _ _ Hds) in H.
      apply filter_In in H. exact H. }
    assert (Hl : forall vr, In vr vs -> field_list s (v_fields vr)) by (intros vr H; unfold field_list; rewrite Eb; eauto).
    destruct (h_opt h) eqn:Eo.
    + unfold de_enum_opt. rewrite Hds. eapply yld_bind; [apply yld_any|]. intros ts _.
      destruct (find_tag _ _ ds) as [[vr d]|] eqn:Ef; [|apply yld_fail].
      apply find_some in Ef. destruct Ef as [Ef1 _]. apply Hi in Ef1. cbn [fst] in Ef1. destruct Ef1 as [Hin Ha].
      unfold de_variant_opt. eapply (yld_bind _ _ (fun buf => wfb buf /\ len buf < K)).
      * destruct (v_size vr) as [[|n|]|]; cbn [variant_buf].
        -- apply yld_ret. split; [constructor|exact HK0].
        -- eapply yld_bind; [apply yld_any|]. intros _ _. eapply yld_mono; [|apply yld_read_n]. intros x (X1 & X2 & X3). split; [exact X1|lia].
        -- eapply yld_bind; [apply yld_any|]. intros n _. eapply yld_bind; [apply yld_any|]. intros _ _.
           eapply yld_mono; [|apply yld_read_n]. intros x (X1 & X2 & X3). split; [exact X1|lia].
        -- apply yld_crash.
      * intros buf [B1 B2]. eapply yld_bind; [apply yld_in_buf; [exact B1|exact B2|apply yld_vfields]|]. intros l [L1 L2].
        destruct (valive (scur s) vr) eqn:Hc.
        -- apply yld_ret. eapply JD_variant; [exact Eb|exact Hin|exact Hc|]. unfold JF, wt_fields, every_fields in *.
           pose proof (Hstable vs vr r h Eb Hin Eh Eo Ha Hc) as Hst.
           split; [apply (Forall2_types (wt_ty E recW) _ _ _ Hst L1)|apply (Forall2_types (every_ty T recT) _ _ _ Hst L2)].
        -- apply yld_of_res. intros v Hv. apply (Hvconv h vs vr l v); auto.
    + unfold de_enum_legacy. rewrite Hds. eapply yld_bind; [apply yld_any|]. intros d _.
      destruct (find_disc d ds) as [[vr d']|] eqn:Ef; [|apply yld_fail].
      apply find_some in Ef. destruct Ef as [Ef1 _]. apply Hi in Ef1. cbn [fst] in Ef1. destruct Ef1 as [Hin Ha].
      unfold de_variant_legacy. apply yld_finish; [intros f v ? ? ? ?; apply (Hdef h (v_fields vr) f v); auto|intros f l v l' ? ? ? ? ? ?; apply (Hconv h (v_fields vr) f l v l'); auto|].
      intros l Hl'. destruct (valive (scur s) vr) eqn:Hc.
      * apply yld_ret. eapply JD_variant; eassumption.
      * apply yld_of_res. intros v Hv. apply (Hvconv h vs vr l v); auto.
Qed.
End Rec.
End Y.

Section Final.
Variables (K : N) (E : env) (T : ty -> val -> Prop) (D : nat).
Hypothesis W : wf_env E.
Hypothesis HK : 16 * K <= 2 ^ e_ub E.
Hypothesis HT : forall t v, t <> TPath -> t <> TSystemTime -> T t v.
Hypothesis HTp : forall b, utf8_ok b = true -> T TPath (VBytes b).
Hypothesis HTs : forall s n, (0 <= s)%Z -> T TSystemTime (VPair (VInt s) n).
Hypothesis HU : users_typed E T D.
Hypothesis HX : ext_typed E T.
Hypothesis HO : opt_stable E.

Lemma yld_ref : 0 < K -> forall d n, yld K (fun v => wt_ref E (d + D) n v /\ every_ref E T (d + D) n v) (de_ref E d n).
Proof.
  intros HK0. induction d as [|d IH]; intros n; cbn [de_ref]; [apply yld_crash|].
  destruct (e_sch E n) as [s|] eqn:Es; [|apply yld_crash]. unfold de_derived. eapply yld_bind; [apply yld_any|]. intros r _.
  pose proof (fun h Eh => HU n s (d + D)%nat r h Es Eh ltac:(lia)) as U.
  eapply yld_mono; [|apply (yld_body K E T W HK HT HTp HTs (de_ref E d) (wt_ref E (d + D)) (every_ref E T (d + D)) IH)].
  - intros v [V1 V2]. cbn [Nat.add wt_ref every_ref]. rewrite Es. split; assumption.
  - intros c t x y Hx. apply (HX c (d + D)%nat t x y). exact Hx.
  - exact (we_sch _ W _ _ Es).
  - intros h fs f v Eh. destruct (U h Eh) as (U1 & _). exact (U1 fs f v).
  - intros h fs f l v l' Eh. destruct (U h Eh) as (_ & U2 & _). exact (U2 fs f l v l').
  - intros h vs vr l v Eh Eb Hin Ha Hc Hv. destruct (U h Eh) as (_ & _ & U3). specialize (U3 vs vr l v Eb Hin Ha Hc Hv). destruct U3 as [V1 V2].
    unfold wt, every in *. cbn [wt_ty every_ty wt_ref every_ref] in *. rewrite Es in *. destruct V2 as [_ V2]. split; assumption.
  - intros vs vr r' h Eb. exact (HO n s vs vr r' h Es Eb).
  - exact HK0.
Qed.
Lemma yld_deserialize : forall d t, 0 < K -> yld K (ok E T (d + D) t) (deserialize E d t).
Proof.
  intros d t HK0. unfold deserialize. apply (yld_ty K E T W HK HT HTp HTs _ _ _ (yld_ref HK0 d)).
  intros c t' x y Hx. apply (HX c (d + D)%nat t' x y). exact Hx.
Qed.
End Final.
