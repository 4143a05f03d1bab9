(** Lemmas about SliceReader and Skip.  Proof part. *)

From Verif Require Import Base BaseL Prog ProgL Prim PrimL Utf8 Tag Ty De Typed DiscL RtL RtSch Agree SliceReader Skip.
From Coq Require Import List NArith ZArith Bool Lia.
Import ListNotations.
Open Scope N_scope.

(** ** [advance_read] *)

Definition drop_n (n : N) (bs : bytes) : res (unit * bytes) :=
  match split_at n bs with Some (_, y) => Ok (tt, y) | None => Err EIo end.
Lemma run_advance : forall n bs, run (advance n) bs = drop_n n bs.
Proof. intros. unfold advance, drop_n, read_n. cbn [bind run]. destruct (split_at n bs) as [[x y]|]; reflexivity. Qed.
Lemma split_at_add : forall A (l : list A) a b,
  split_at (a + b) l = match split_at a l with
                       | Some (x, y) => match split_at b y with Some (u, v) => Some (x ++ u, v) | None => None end
                       | None => None
                       end.
Proof.
  intros A l a b. destruct (split_at a l) as [[x y]|] eqn:Ea.
  - apply split_at_some in Ea. destruct Ea as [-> <-]. destruct (split_at b y) as [[u v]|] eqn:Eb.
    + apply split_at_some in Eb. destruct Eb as [-> <-]. rewrite app_assoc. apply split_at_app_n. rewrite len_app. reflexivity.
    + apply split_at_none in Eb. apply split_at_none. rewrite len_app. lia.
  - apply split_at_none in Ea. apply split_at_none. lia.
Qed.
Lemma run_adv_loop : forall f n bs, n <= 4096 * N.of_nat f -> run (adv_loop f n) bs = drop_n n bs.
Proof.
  induction f as [|f IH]; intros n bs H; cbn [adv_loop].
  - assert (n = 0) by lia. subst n. unfold drop_n. rewrite split_at_0. reflexivity.
  - destruct (N.eqb_spec n 0) as [->|Hn]; [unfold drop_n; rewrite split_at_0; reflexivity|].
    cbv zeta. rewrite run_bind. unfold read_n. cbn [run].
    set (c := N.min n 4096) in *. assert (Hd : drop_n n bs = drop_n (c + (n - c)) bs) by (f_equal; lia). rewrite Hd. clear Hd.
    unfold drop_n at 1. rewrite split_at_add. destruct (split_at c bs) as [[x y]|]; [|reflexivity].
    cbn [run]. rewrite IH by lia. unfold drop_n. destruct (split_at (n - c) y) as [[u v]|]; reflexivity.
Qed.
Lemma run_advance_read : forall n bs, run (advance_read n) bs = drop_n n bs.
Proof.
  intros n bs. unfold advance_read. apply run_adv_loop. rewrite N2Nat.id.
  pose proof (N.div_mod (n + 4095) 4096 ltac:(lia)). pose proof (N.mod_lt (n + 4095) 4096 ltac:(lia)). lia.
Qed.
Lemma run_advance_app : forall n x y, n = len x -> run (advance_read n) (x ++ y) = Ok (tt, y).
Proof. intros. rewrite run_advance_read. unfold drop_n. rewrite split_at_app_n by assumption. reflexivity. Qed.

(** ** A decoder run on a [SliceReader] *)

Definition with_orig {A} (o : N) (r : res (A * bytes)) : res (A * sreader) :=
  match r with Ok (a, y) => Ok (a, mkSR y o) | Err e => Err e | Panic x => Panic x end.
Lemma sr_read_exact_split : forall n s, sr_read_exact n s =
  match split_at n (sr_inner s) with Some (x, y) => Some (x, mkSR y (sr_orig s)) | None => None end.
Proof.
  intros n [b o]. unfold sr_read_exact. cbn [sr_exact sr_inner sr_orig].
  destruct (N.eqb_spec n 0) as [->|Hn]; [rewrite split_at_0; reflexivity|].
  unfold sr_read at 1. cbn [sr_inner sr_orig].
  destruct (N.le_gt_cases n (len b)) as [Hle|Hgt].
  - rewrite N.min_l by assumption. destruct (split_at n b) as [[x y]|] eqn:Es; [|apply split_at_none in Es; lia].
    apply split_at_some in Es. destruct Es as [_ <-].
    destruct (N.eqb_spec (len x) 0); [lia|]. rewrite N.sub_diag. cbn [N.eqb app]. reflexivity.
  - rewrite N.min_r by lia. pose proof (split_at_app _ b []) as Hs. rewrite app_nil_r in Hs. rewrite Hs.
    destruct (split_at n b) as [[x y]|] eqn:Es; [apply split_at_some in Es; destruct Es as [-> <-]; rewrite len_app in Hgt; lia|].
    destruct (N.eqb_spec (len b) 0); [reflexivity|].
    destruct (N.eqb_spec (n - len b) 0); [lia|]. unfold sr_read. cbn [sr_inner]. rewrite len_nil, N.min_0_r. reflexivity.
Qed.
Lemma sr_run_run : forall A (p : prog A) s, sr_run p s = with_orig (sr_orig s) (run p (sr_inner s)).
Proof.
  induction p as [a|e|x|n e k IH]; intros s; cbn [sr_run run]; try reflexivity.
  - destruct s; reflexivity.
  - rewrite sr_read_exact_split. destruct (split_at n (sr_inner s)) as [[x y]|]; [|reflexivity].
    rewrite IH. reflexivity.
Qed.

(** ** Slice skip and reader skip *)

Definition follows {A} (m : sm A) (p : prog A) : Prop := forall s, m s = with_orig (sr_orig s) (run p (sr_inner s)).
Lemma fol_run : forall A (p : prog A), follows (sr_run p) p.
Proof. intros A p s. apply sr_run_run. Qed.
Lemma fol_bind : forall A B (m : sm A) p (f : A -> sm B) g,
  follows m p -> (forall a, follows (f a) (g a)) -> follows (sm_bind m f) (bind p g).
Proof.
  intros A B m p f g Hm Hf s. unfold sm_bind. rewrite Hm, run_bind. destruct (run p (sr_inner s)) as [[a r]|e|x]; try reflexivity.
  cbn [with_orig]. rewrite Hf. reflexivity.
Qed.
Lemma fol_ret : forall A (a : A), follows (sm_ret a) (Ret a).
Proof. intros A a []. reflexivity. Qed.
Lemma fol_err : forall A e, @follows A (sm_err e) (Fail e).
Proof. intros A e []. reflexivity. Qed.
Lemma fol_panic : forall A e, @follows A (sm_panic e) (Crash e).
Proof. intros A e []. reflexivity. Qed.
Lemma fol_consume : forall n, follows (sm_consume n) (advance_read n).
Proof.
  intros n s. rewrite run_advance_read. unfold sm_consume, sm_op, sr_consume, drop_n.
  destruct (split_at n (sr_inner s)) as [[x y]|]; reflexivity.
Qed.
Lemma fol_rep : forall n m (p : prog unit), follows m p -> follows (sm_rep n m) (rep_ n p).
Proof. induction n as [|n IH]; intros m p H; cbn [sm_rep rep_]; [apply fol_ret|]. apply fol_bind; [assumption|]. intros _. apply IH, H. Qed.

Section Follows.
Variable E : env.
Lemma fol_blob : follows (ss_blob E) (sk_blob E).
Proof. apply fol_bind; [apply fol_run|intros; apply fol_consume]. Qed.
Lemma fol_bulk : forall k, follows (ss_bulk E k) (sk_bulk E k).
Proof.
  intros k. apply fol_bind; [apply fol_run|]. intros n. destruct k as [|s [|[|w]]|d]; try apply fol_consume;
    match goal with |- context [if ?c then _ else _] => destruct c end; first [apply fol_consume|apply fol_err].
Qed.
Lemma fol_seq : forall m p, follows m p -> follows (ss_seq E m) (sk_seq E p).
Proof. intros. apply fol_bind; [apply fol_run|]. intros n. apply fol_rep. assumption. Qed.
Variables (srec : N -> sm unit) (rec : N -> prog unit) (drec : N -> prog val).
Hypothesis Hrec : forall n, follows (srec n) (rec n).
Lemma fol_ty : forall t, follows (ss_ty E srec drec t) (sk_ty E rec drec t).
Proof.
  induction t; cbn [ss_ty sk_ty];
  try (apply fol_run); try (apply fol_blob); try (apply fol_consume); try (apply fol_ret); try assumption.
  - apply fol_bind; auto.
  - destruct (if e_spec E then bulk_of t else None); [apply fol_bulk|apply fol_seq; assumption].
  - apply fol_seq; assumption.
  - apply fol_rep; assumption.
  - apply fol_bind; [apply fol_run|]. intros b. destruct (b =? 0); [apply fol_ret|]. destruct (b =? 1); [assumption|apply fol_err].
  - apply fol_bind; [apply fol_run|]. intros b. destruct (b =? 0); [assumption|]. destruct (b =? 1); [assumption|apply fol_err].
  - apply fol_bind; [apply fol_run|]. intros b. destruct (b =? 0); [apply fol_ret|]. destruct (b =? 1); [assumption|]. destruct (b =? 2); [assumption|apply fol_err].
  - apply fol_seq. apply fol_bind; auto.
  - apply fol_seq; assumption.
  - apply fol_seq; assumption.
  - intros s. rewrite (fol_bind _ _ _ _ _ _ (fol_run _ _) (fun _ => fol_run _ _) s). f_equal. rewrite !run_bind.
    destruct (run (de_ty E drec (TInt U64)) (sr_inner s)) as [[a r]|e|x]; reflexivity.
  - destruct mirror; [apply fol_run|assumption].
  - apply Hrec.
Qed.
Lemma fol_fields : forall cur fs, follows (ss_fields E srec drec cur fs) (sk_fields E rec drec cur fs).
Proof.
  induction fs as [|f fs IH]; cbn [ss_fields sk_fields]; [apply fol_ret|]. destruct (falive cur f); [|assumption].
  apply fol_bind; [destruct (f_fixed f); [apply fol_run|apply fol_ty]|auto].
Qed.
Lemma fol_derived : forall s, follows (ss_derived E srec drec s) (sk_derived E rec drec s).
Proof.
  intros s. apply fol_bind; [apply fol_run|]. intros r. unfold ss_body, sk_body. destruct (sent s r) as [h|]; [|apply fol_err].
  destruct (s_body s) as [fs|vs]; destruct (h_opt h).
  - apply fol_bind; [apply fol_run|intros; apply fol_consume].
  - apply fol_fields.
  - unfold ss_enum_opt, sk_enum_opt. destruct (calc_disc r vs); [|apply fol_panic].
    apply fol_bind; [apply fol_run|]. intros t. apply fol_bind; [apply fol_run|]. intros [].
    + apply fol_ret.
    + destruct (nth_error _ _); [apply fol_consume|apply fol_panic].
    + apply fol_bind; [apply fol_run|intros; apply fol_consume].
  - unfold ss_enum_legacy, sk_enum_legacy. destruct (calc_disc r vs); [|apply fol_panic].
    apply fol_bind; [apply fol_run|]. intros d. destruct (find_disc d l) as [[vr x]|]; [apply fol_fields|apply fol_err].
Qed.
End Follows.
Lemma fol_skip : forall E d t, follows (skip_on_slice E d t) (skip E d t).
Proof.
  intros E d t. apply fol_ty. induction d as [|d IH]; intros n; cbn [ss_ref sk_ref]; [apply fol_panic|].
  destruct (e_sch E n); [|apply fol_panic]. apply fol_derived. exact IH.
Qed.

(** ** Skip and deserialise *)

(** Whenever [p] succeeds, [q] succeeds and stops at the same place (on inputs below [M]). *)
Definition covers (M : N) {A} (p : prog A) (q : prog unit) : Prop :=
  forall bs a r, len bs < M -> run p bs = Ok (a, r) -> run q bs = Ok (tt, r).
Section Covers.
Variable M : N.
Lemma cov_drop : forall A (p : prog A), covers M p (p ;;; Ret tt).
Proof. intros A p bs a r _ H. rewrite run_bind, H. reflexivity. Qed.
Lemma cov_bind : forall A B C (p : prog A) (f : A -> prog B) (q : prog C) g,
  (forall bs a r, len bs < M -> run p bs = Ok (a, r) -> exists c, run q bs = Ok (c, r) /\ covers M (f a) (g c)) ->
  covers M (bind p f) (bind q g).
Proof.
  intros A B C p f q g H bs b r HM. rewrite !run_bind. destruct (run p bs) as [[a y]|e|x] eqn:E; try discriminate.
  destruct (H _ _ _ HM E) as (c & -> & Hc). intros Hr. eapply Hc; [|exact Hr]. apply run_len in E. lia.
Qed.
Lemma cov_same : forall A B (p : prog A) (f : A -> prog B) g,
  (forall a, covers M (f a) (g a)) -> covers M (bind p f) (bind p g).
Proof. intros. apply cov_bind. intros bs a r _ Hr. eauto. Qed.
Lemma cov_then : forall A B (p : prog A) (f : A -> prog B) q g,
  covers M p q -> (forall a, covers M (f a) g) -> covers M (bind p f) (q ;;; g).
Proof. intros. apply cov_bind. intros bs a r HM Hr. exists tt. split; [apply (H _ _ _ HM Hr)|apply H0]. Qed.
Lemma cov_ret : forall A B (p : prog A) (f : A -> B) q, covers M p q -> covers M (x <- p ;; Ret (f x)) q.
Proof.
  intros A B p f q H bs b r HM. rewrite run_bind. destruct (run p bs) as [[a y]|e|x] eqn:E; try discriminate.
  cbn [run]. intros Hr. inversion Hr; subst. eapply H; eassumption.
Qed.
Lemma cov_Ret : forall A (a : A), covers M (Ret a) (Ret tt).
Proof. intros A a bs b r _ H. inversion H; subst. reflexivity. Qed.
Lemma cov_fail : forall A e q, covers M (@Fail A e) q.
Proof. intros A e q bs b r _ H. discriminate. Qed.
Lemma cov_crash : forall A e q, covers M (@Crash A e) q.
Proof. intros A e q bs b r _ H. discriminate. Qed.
Lemma cov_pre : forall A B (p : prog A) (f : A -> prog B) q,
  (forall a, covers M (f a) q) -> (forall bs a r, run p bs = Ok (a, r) -> r = bs) -> covers M (bind p f) q.
Proof.
  intros A B p f q H Hp bs b r HM. rewrite run_bind. destruct (run p bs) as [[a y]|e|x] eqn:E; try discriminate.
  apply Hp in E. subst y. intros Hr. eapply H; eassumption.
Qed.
Lemma cov_map_err : forall A g (p : prog A) q, covers M p q -> covers M (map_err g p) q.
Proof.
  intros A g p q H bs a r HM. rewrite run_map_err. destruct (run p bs) as [[b y]|e|x] eqn:E; try discriminate.
  intros Hr. inversion Hr; subst. eapply H; eassumption.
Qed.
Lemma cov_rep : forall A n (p : prog A) q, covers M p q -> covers M (rep n p) (rep_ n q).
Proof.
  induction n as [|n IH]; intros p q H; cbn [rep rep_]; [apply cov_Ret|].
  apply cov_then; [assumption|]. intros a. apply cov_ret. apply IH, H.
Qed.
Lemma alloc_ok : forall E n bs a r, run (alloc E n) bs = Ok (a, r) -> r = bs.
Proof.
  intros E n bs a r. unfold alloc. destruct (e_mem E) as [m|]; [|intros H; inversion H; reflexivity].
  destruct (n <=? m); intros H; inversion H; reflexivity.
Qed.
Lemma cov_alloc : forall E n A (p : prog A) q, covers M p q -> covers M (alloc E n ;;; p) q.
Proof. intros. apply cov_pre; [auto|]. apply alloc_ok. Qed.
Lemma cov_of_res : forall A B (p : prog A) (f : A -> res B) q, covers M p q -> covers M (x <- p ;; of_res (f x)) q.
Proof.
  intros A B p f q H bs b r HM. rewrite run_bind. destruct (run p bs) as [[a y]|e|x] eqn:E; try discriminate.
  rewrite run_of_res. destruct (f a); intros Hr; inversion Hr; subst. eapply H; eassumption.
Qed.
Lemma cov_read : forall n, covers M (read_n n) (advance_read n).
Proof.
  intros n bs a r _ H. apply run_read_n_ok in H. destruct H as [-> <-]. apply run_advance_app. reflexivity.
Qed.
Lemma cov_read0 : covers M (@Ret bytes []) (advance_read 0).
Proof. intros bs a r _ H. inversion H; subst. reflexivity. Qed.
End Covers.

Lemma run_rep_read16 : forall n (f : bytes -> val) bs l r, run (rep n (x <- read_n 16 ;; Ret (f x))) bs = Ok (l, r) ->
  exists x, bs = x ++ r /\ len x = 16 * N.of_nat n.
Proof.
  induction n as [|n IH]; intros f bs l r H; cbn [rep] in H.
  - inversion H; subst. exists []. split; reflexivity.
  - rewrite run_bind, run_bind in H. destruct (run (read_n 16) bs) as [[x y]|e|p] eqn:E; try discriminate.
    apply run_read_n_ok in E. destruct E as [-> Hx]. cbn [run] in H. rewrite run_bind in H.
    destruct (run (rep n (x <- read_n 16 ;; Ret (f x))) y) as [[l' y']|e|p] eqn:E; try discriminate.
    inversion H; subst. apply IH in E. destruct E as (z & -> & Hz). exists (x ++ z). rewrite <- app_assoc, len_app.
    split; [reflexivity|lia].
Qed.

(** A program that reads nothing. *)
Definition still {A} (p : prog A) : Prop := forall bs a r, run p bs = Ok (a, r) -> r = bs.
Lemma still_of_res : forall A (r : res A), still (of_res r).
Proof. intros A r bs a y. rewrite run_of_res. destruct r; intros H; inversion H; reflexivity. Qed.
Lemma still_ret : forall A (a : A), still (Ret a).
Proof. intros A a bs b r H. inversion H; reflexivity. Qed.
Lemma still_bind : forall A B (p : prog A) (f : A -> prog B), still p -> (forall a, still (f a)) -> still (bind p f).
Proof.
  intros A B p f Hp Hf bs b r. rewrite run_bind. destruct (run p bs) as [[a y]|e|x] eqn:E; try discriminate.
  intros H. apply Hf in H. apply Hp in E. congruence.
Qed.
Lemma still_in_buf : forall A (p : prog A) b, still (in_buf p b).
Proof. intros. apply still_of_res. Qed.
Lemma cov_post : forall M A B (p : prog A) (f : A -> prog B) q, covers M p q -> (forall a, still (f a)) -> covers M (bind p f) q.
Proof.
  intros M A B p f q H Hf bs b r HM. rewrite run_bind. destruct (run p bs) as [[a y]|e|x] eqn:E; try discriminate.
  intros Hr. apply Hf in Hr. subst r. eapply H; eassumption.
Qed.

(** The table of sizes. *)
Lemma set_at_length : forall i x l, length (set_at i x l) = length l.
Proof. induction i as [|i IH]; intros x [|y l]; cbn; auto. Qed.
Lemma set_at_same : forall i x l, (i < length l)%nat -> nth_error (set_at i x l) i = Some x.
Proof. induction i as [|i IH]; intros x [|y l] H; cbn in *; try lia; [reflexivity|]. apply IH. lia. Qed.
Lemma set_at_other : forall i j x l, i <> j -> nth_error (set_at i x l) j = nth_error l j.
Proof. induction i as [|i IH]; intros [|j] x [|y l] H; cbn; try congruence; try reflexivity. apply IH. congruence. Qed.
Definition put (arr : list N) (p : variant * N) : list N :=
  match v_size (fst p) with Some (SFixed n) => set_at (N.to_nat (snd p)) n arr | _ => arr end.
Lemma put_length : forall ds arr, length (fold_left put ds arr) = length arr.
Proof.
  induction ds as [|p ds IH]; intros arr; cbn [fold_left]; [reflexivity|]. rewrite IH. unfold put.
  destruct (v_size (fst p)) as [[]|]; auto using set_at_length.
Qed.
Lemma put_other : forall ds arr i, ~ In i (map snd ds) -> nth_error (fold_left put ds arr) (N.to_nat i) = nth_error arr (N.to_nat i).
Proof.
  induction ds as [|p ds IH]; intros arr i H; cbn [fold_left]; [reflexivity|]. cbn in H. rewrite IH by tauto.
  unfold put. destruct (v_size (fst p)) as [[]|]; auto. apply set_at_other. intros He. apply N2Nat.inj in He. tauto.
Qed.
Lemma put_nth : forall ds arr vr d n, NoDup (map snd ds) -> In (vr, d) ds -> v_size vr = Some (SFixed n) ->
  (N.to_nat d < length arr)%nat -> nth_error (fold_left put ds arr) (N.to_nat d) = Some n.
Proof.
  induction ds as [|p ds IH]; intros arr vr d n Hd Hi Hv Hl; [destruct Hi|]. cbn in Hd. inversion Hd as [|x l Hx Hd']; subst.
  cbn [fold_left]. destruct Hi as [->|Hi].
  - cbn [snd] in Hx. rewrite put_other by assumption. unfold put. cbn [fst snd]. rewrite Hv. apply set_at_same, Hl.
  - apply IH with vr; auto. unfold put. destruct (v_size (fst p)) as [[]|]; rewrite ?set_at_length; assumption.
Qed.
Lemma size_table_nth : forall ds vr d n, NoDup (map snd ds) -> In (vr, d) ds -> v_size vr = Some (SFixed n) -> d < 32 ->
  nth_error (size_table ds) (N.to_nat d) = Some n.
Proof. intros. unfold size_table. apply put_nth with vr; auto. rewrite repeat_length. lia. Qed.
Lemma variant_id_lt : forall t, variant_id t < 32.
Proof. intros t. unfold variant_id, VARIANT_ID_MASK. change 31 with (N.ones 5). rewrite N.land_ones. apply N.mod_lt. discriminate. Qed.
Lemma size_table_some : forall ds t, exists n, nth_error (size_table ds) (N.to_nat (variant_id t)) = Some n.
Proof.
  intros ds t. destruct (nth_error (size_table ds) (N.to_nat (variant_id t))) as [n|] eqn:E; [eauto|].
  apply nth_error_None in E. unfold size_table in E. pose proof (put_length ds (repeat 0 32)) as L. unfold put in L.
  rewrite L, repeat_length in E. pose proof (variant_id_lt t). lia.
Qed.

Definition body_fields (b : body) : list field :=
  match b with SStruct fs => fs | SEnum vs => flat_map v_fields vs end.
(** [specialised] fields only where the build encodes every such vector in bulk. *)
Definition spec_built (E : env) : Prop :=
  forall n s f, e_sch E n = Some s -> In f (body_fields (s_body s)) -> f_spec f = true -> e_spec E = true.

Section CovTy.
Variable E : env.
Variable M : N.
Hypothesis HM : M <= 2 ^ e_ub E.
Lemma cov_str : covers M (de_str E) (sk_blob E).
Proof.
  unfold de_str, sk_blob. apply cov_same. intros n. destruct (N.eqb_spec n 0) as [->|].
  - intros bs a r _ H. inversion H; subst. reflexivity.
  - apply cov_alloc. apply cov_post; [apply cov_read|]. intros x. destruct (utf8_ok x); [apply still_ret|]. intros bs a r H. discriminate.
Qed.
Lemma cov_blob : covers M (de_blob E) (sk_blob E).
Proof.
  unfold de_blob, sk_blob. apply cov_same. intros n. destruct (N.eqb_spec n 0) as [->|]; [apply cov_read0|].
  apply cov_alloc, cov_read.
Qed.
Lemma cov_bulk : forall k, covers M (de_bulk E k) (sk_bulk E k).
Proof.
  intros k. unfold de_bulk, sk_bulk. apply cov_same. intros n. destruct (N.eqb_spec n 0) as [->|Hn].
  - assert (Hp : 0 < 2 ^ e_ub E) by (apply N.neq_0_lt_0, N.pow_nonzero; discriminate). apply N.ltb_lt in Hp.
    intros bs a r _ H. inversion H; subst. destruct k as [|s [|[|w]]|d]; rewrite ?N.mul_0_l, ?Hp; reflexivity.
  - destruct k as [|s w|[]].
    + apply cov_alloc. intros bs a r HMb H.
      refine (cov_post M _ _ (read_n (div_ceil8 n)) _ _ (cov_read M _) _ bs a r HMb H). intros x.
      apply still_bind; [|intros; apply still_ret]. exact (alloc_ok E n).
    + destruct (N.ltb_spec (n * N.of_nat w) (2 ^ e_ub E)) as [Hlt|]; [|apply cov_fail].
      apply cov_alloc. destruct w as [|[|w]].
      * apply cov_post; [apply cov_read|]. intros; apply still_ret.
      * rewrite N.mul_1_r. apply cov_post; [apply cov_read|]. intros; apply still_ret.
      * apply cov_post; [apply cov_read|]. intros; apply still_ret.
    + apply cov_alloc. intros bs l r Hb H. apply run_rep_read16 in H. destruct H as (x & -> & Hx).
      rewrite N2Nat.id in Hx. rewrite len_app in Hb. replace (n * 16) with (len x) by lia.
      assert (Hlt : len x <? 2 ^ e_ub E = true) by (apply N.ltb_lt; lia). rewrite Hlt. apply run_advance_app. reflexivity.
    + destruct (n * 16 <? 2 ^ e_ub E); [|apply cov_fail]. apply cov_alloc. apply cov_post; [apply cov_read|]. intros; apply still_ret.
Qed.
Lemma cov_seq : forall sz p q, covers M p q -> covers M (de_seq E sz p) (sk_seq E q).
Proof.
  intros sz p q H. unfold de_seq, sk_seq. apply cov_same. intros n. destruct (N.eqb_spec n 0) as [->|Hn].
  - apply cov_Ret.
  - apply cov_alloc, cov_rep, H.
Qed.
Variables (rec : N -> prog unit) (drec : N -> prog val).
Hypothesis Hrec : forall n, covers M (drec n) (rec n).
Lemma cov_entry : forall a b p q, covers M a p -> covers M b q -> covers M (de_entry a b) (p ;;; q).
Proof. intros. unfold de_entry. apply cov_then; [assumption|]. intros k. apply cov_ret. assumption. Qed.
Lemma cov_ty : forall t, covers M (de_ty E drec t) (sk_ty E rec drec t).
Proof.
  induction t; cbn [sk_ty]; try (apply cov_drop); cbn [de_ty];
    try (apply cov_str); try (apply cov_ret; apply cov_blob); try (apply cov_Ret); try assumption.
  - apply cov_then; [assumption|]. intros x. apply cov_ret. assumption.
  - destruct (if e_spec E then bulk_of t else None); apply cov_ret; [apply cov_bulk|apply cov_seq; assumption].
  - apply cov_ret, cov_seq; assumption.
  - apply cov_ret, cov_rep; assumption.
  - apply cov_same. intros b. destruct (b =? 0); [apply cov_Ret|]. destruct (b =? 1); [apply cov_ret; assumption|apply cov_fail].
  - apply cov_same. intros b. destruct (b =? 0); [apply cov_ret, cov_map_err; assumption|].
    destruct (b =? 1); [apply cov_ret, cov_map_err; assumption|apply cov_fail].
  - apply cov_same. intros b. destruct (b =? 0); [apply cov_Ret|]. destruct (b =? 1); [apply cov_ret, cov_map_err; assumption|].
    destruct (b =? 2); [apply cov_ret, cov_map_err; assumption|apply cov_fail].
  - apply cov_ret, cov_seq, cov_entry; assumption.
  - apply cov_ret, cov_seq; assumption.
  - apply cov_ret, cov_seq; assumption.
  - intros bs v r Hb. rewrite ?run_bind. cbn [de_ty]. rewrite ?run_bind.
    destruct (run (de_int (e_fw E) (e_ub E) U64) bs) as [[s y]|e|x]; try discriminate. cbn [run]. rewrite ?run_bind.
    destruct (run (de_int (e_fw E) (e_ub E) U32) y) as [[n z]|e|x]; try discriminate. cbn [run]. rewrite ?run_bind, run_of_res.
    destruct (dur_new s n); cbn [rmap]; try discriminate. rewrite run_of_res. destruct (time_add E a); cbn [rmap]; intros H; inversion H; reflexivity.
  - destruct mirror; [apply cov_drop|]. apply cov_post; [assumption|]. intros x. destruct (e_ext E c x); [apply still_ret|].
    intros bs a r H; discriminate.
  - apply Hrec.
Qed.
Lemma cov_fixed : forall t, covers M (match fixed_of t with Some (s, w) => z <- de_fixed s w ;; Ret (VInt z) | None => Crash PType end) (sk_fixed t).
Proof.
  intros t. unfold sk_fixed. destruct (fixed_of t) as [[s w]|]; [|apply cov_crash].
  apply cov_ret. unfold de_fixed. apply cov_bind. intros bs a r _ H. exists a. split; [exact H|]. destruct s; apply cov_Ret.
Qed.
Lemma cov_fields : forall cur tgt fs, (forall f, In f fs -> f_spec f = true -> e_spec E = true) ->
  covers M (de_fields E drec false cur tgt fs) (sk_fields E rec drec cur fs).
Proof.
  intros cur tgt. induction fs as [|f fs IH]; intros Hs; cbn [de_fields sk_fields]; [apply cov_Ret|].
  assert (IH' := IH (fun g Hg => Hs g (or_intror Hg))). clear IH.
  assert (Hf : covers M (de_mode E drec (mode_legacy f) (f_ty f)) (if f_fixed f then sk_fixed (f_ty f) else sk_ty E rec drec (f_ty f))).
  { unfold mode_legacy. destruct (f_fixed f); [apply cov_fixed|]. destruct (f_spec f) eqn:Ef; [|apply cov_ty].
    specialize (Hs f (or_introl eq_refl) Ef). cbn [de_mode]. destruct (f_ty f); try apply cov_crash.
    cbn [sk_ty]. rewrite Hs. destruct (bulk_of t); [|apply cov_crash]. apply cov_ret, cov_bulk. }
  destruct (falive cur f).
  - destruct (falive tgt f).
    + apply cov_then; [exact Hf|]. intros v. apply cov_ret. exact IH'.
    + apply cov_then; [exact Hf|]. intros v. apply cov_ret. exact IH'.
  - destruct (falive tgt f); [|exact IH']. apply cov_pre; [|intros; eapply still_of_res; eassumption].
    intros v. apply cov_ret. exact IH'.
Qed.
Lemma cov_varlen : forall A (f : bytes -> prog A), (forall b, still (f b)) ->
  covers M (n <- read_varlen_len ;; alloc E n ;;; buf <- read_n n ;; f buf) sk_struct_opt.
Proof.
  intros A f Hf. unfold sk_struct_opt. apply cov_same. intros n. apply cov_alloc. apply cov_post; [apply cov_read|assumption].
Qed.
Lemma cov_derived : forall s, (forall f, In f (body_fields (s_body s)) -> f_spec f = true -> e_spec E = true) ->
  covers M (de_derived E drec s) (sk_derived E rec drec s).
Proof.
  intros s Hs. unfold de_derived, sk_derived. apply cov_same. intros r. unfold de_body, sk_body.
  destruct (sent s r) as [h|]; [|apply cov_fail]. destruct (s_body s) as [fs|vs]; destruct (h_opt h); cbn [body_fields] in Hs.
  - unfold de_struct_opt. apply cov_varlen. intros; apply still_in_buf.
  - unfold de_struct_legacy. apply cov_post; [apply cov_fields; assumption|].
    intros p. apply still_bind; [apply still_of_res|intros; apply still_ret].
  - unfold de_enum_opt, sk_enum_opt. destruct (calc_disc r vs) as [ds|] eqn:Ed; [|apply cov_crash].
    intros bs v y Hb. unfold read_optimised_tag. rewrite !run_bind.
    destruct (run read_tag bs) as [[t bs1]|e|x] eqn:Et; try discriminate. rewrite !run_bind, !run_of_res.
    destruct (size_class t) as [c|e|x] eqn:Ec; try discriminate. cbn [rmap run fst snd].
    destruct (find_tag (variant_id t) c ds) as [[vr d]|] eqn:Ef; [|discriminate].
    unfold find_tag in Ef. apply find_some in Ef. destruct Ef as [Hin Hc]. cbn [fst snd] in Hc.
    apply andb_prop in Hc. destruct Hc as [Hd Hc]. apply N.eqb_eq in Hd. subst d.
    assert (Hb1 : len bs1 < M) by (apply run_len in Et; lia).
    unfold de_variant_opt. destruct (v_size vr) as [sz|] eqn:Ev; [|discriminate].
    assert (Hst : forall buf, still (l <- in_buf (de_vfields E drec r (v_fields vr)) buf ;;
                   if valive (scur s) vr then Ret (VVar (v_name vr) l) else of_res (v_convert vr l r))).
    { intros buf. apply still_bind; [apply still_in_buf|]. intros l. destruct (valive (scur s) vr); [apply still_ret|apply still_of_res]. }
    destruct sz, c; try discriminate Hc; cbn [variant_buf].
    + intros H. cbn [bind] in H. apply Hst in H. subst. reflexivity.
    + rewrite (size_table_nth ds vr _ n (calc_disc_nodup _ _ _ Ed) Hin Ev (variant_id_lt t)).
      intros H. refine (cov_post M _ _ (alloc E n ;;; read_n n) _ _ _ Hst bs1 v y Hb1 H). apply cov_alloc, cov_read.
    + intros H. refine (cov_post M _ _ (n <- read_varlen_len ;; alloc E n ;;; read_n n) _ _ _ Hst bs1 v y Hb1 H).
      apply cov_same. intros n. apply cov_alloc, cov_read.
  - unfold de_enum_legacy, sk_enum_legacy. destruct (calc_disc r vs) as [ds|] eqn:Ed; [|apply cov_crash].
    apply cov_same. intros d. destruct (find_disc d ds) as [[vr d']|] eqn:Ef; [|apply cov_fail].
    unfold de_variant_legacy. apply cov_post.
    + apply cov_fields. intros f Hf. apply Hs. apply in_flat_map. exists vr. split; [|exact Hf].
      unfold find_disc in Ef. apply find_some in Ef. destruct Ef as [Hi _].
      pose proof (calc_disc_fst _ _ _ Ed) as Hfst. assert (Hv : In vr (filter (valive r) vs)) by (rewrite <- Hfst; apply in_map_iff; exists (vr, d'); auto).
      apply filter_In in Hv. tauto.
    + intros p. apply still_bind; [apply still_of_res|]. intros l. destruct (valive (scur s) vr); [apply still_ret|apply still_of_res].
Qed.
End CovTy.
Lemma cov_skip : forall E d t, spec_built E -> covers (2 ^ e_ub E) (deserialize E d t) (skip E d t).
Proof.
  intros E d t Hs. unfold deserialize, skip. apply cov_ty; [lia|]. induction d as [|d IH]; intros n; cbn [de_ref sk_ref].
  - apply cov_crash.
  - destruct (e_sch E n) as [s|] eqn:Es; [|apply cov_crash]. apply cov_derived; [lia|exact IH|]. intros f Hf. eapply Hs; eassumption.
Qed.
