(** Proofs for changing the type of a field in place. *)

From Verif Require Import Base BaseL Prog ProgL Prim PrimL Utf8 Tag Ty Ser De Typed Transp TranspL Yield Retype.
From Coq Require Import List NArith ZArith Bool Lia.
Import ListNotations.
Open Scope N_scope.

(** Whatever [p] accepts, [q] accepts with the same result. *)
Definition ler {A} (p q : prog A) : Prop := forall bs a r, wfb bs -> run p bs = Ok (a, r) -> run q bs = Ok (a, r).
Lemma ler_refl : forall A (p : prog A), ler p p.
Proof. intros A p bs a r _ H. exact H. Qed.
Lemma ler_trans : forall A (p q s : prog A), ler p q -> ler q s -> ler p s.
Proof. intros A p q s H1 H2 bs a r Hb H. apply H2; [exact Hb|]. apply H1; assumption. Qed.
Lemma ler_bindR : forall A B (R : A -> Prop) (p p' : prog A) (f f' : A -> prog B),
  (forall bs a r, wfb bs -> run p bs = Ok (a, r) -> R a) -> ler p p' -> (forall a, R a -> ler (f a) (f' a)) -> ler (bind p f) (bind p' f').
Proof.
  intros A B R p p' f f' HR Hp Hf bs a r Hb H. rewrite run_bind in *.
  destruct (run p bs) as [[x y]|e|x] eqn:E; try discriminate.
  rewrite (Hp bs x y Hb E). apply Hf; [eapply HR; eassumption| |exact H]. eapply run_wfb; eassumption.
Qed.
Lemma ler_bind : forall A B (p p' : prog A) (f f' : A -> prog B), ler p p' -> (forall a, ler (f a) (f' a)) -> ler (bind p f) (bind p' f').
Proof. intros A B p p' f f' Hp Hf. apply (ler_bindR A B (fun _ => True)); auto. Qed.
Lemma ler_map_err : forall A g (p p' : prog A), ler p p' -> ler (map_err g p) (map_err g p').
Proof.
  intros A g p p' H bs a r Hb Hr. rewrite run_map_err in *. destruct (run p bs) as [[x y]|e|x] eqn:E; try discriminate.
  rewrite (H bs x y Hb E). exact Hr.
Qed.
Lemma ler_rep : forall A n (p p' : prog A), ler p p' -> ler (rep n p) (rep n p').
Proof. induction n; intros p p' H; cbn [rep]; [apply ler_refl|]. apply ler_bind; [exact H|]. intros a. apply ler_bind; [apply IHn, H|]. intros l. apply ler_refl. Qed.
Lemma ler_in_buf : forall A (p p' : prog A) b, wfb b -> ler p p' -> ler (in_buf p b) (in_buf p' b).
Proof.
  intros A p p' b Hb H bs a r _ Hr. unfold in_buf in *. rewrite run_of_res in *. destruct (run p b) as [[x y]|e|x] eqn:E; try discriminate.
  rewrite (H b x y Hb E). exact Hr.
Qed.
Lemma read_n_wfb : forall n bs x r, wfb bs -> run (read_n n) bs = Ok (x, r) -> wfb x.
Proof. intros n bs x r Hb H. apply run_read_n_ok in H. destruct H as [-> _]. apply wfb_app in Hb. apply Hb. Qed.

(** ** Integers *)
Lemma Ok2 : forall A B (a a' : A) (b b' : B), @Ok (A * B) (a, b) = Ok (a', b') -> a = a' /\ b = b'.
Proof. intros A B a a' b b' H. assert (K : (a, b) = (a', b')) by congruence. split; congruence. Qed.
Lemma run_bind_inv : forall A B (p : prog A) (f : A -> prog B) bs b r, run (bind p f) bs = Ok (b, r) ->
  exists a y, run p bs = Ok (a, y) /\ run (f a) y = Ok (b, r).
Proof. intros A B p f bs b r H. rewrite run_bind in H. destruct (run p bs) as [[a y]|e|x]; try discriminate. exists a, y. auto. Qed.
Lemma run_bind_ok : forall A B (p : prog A) (f : A -> prog B) bs a y, run p bs = Ok (a, y) -> run (bind p f) bs = run (f a) y.
Proof. intros A B p f bs a y H. rewrite run_bind, H. reflexivity. Qed.
Lemma d64_d128 : forall bs x r, run decode_u64 bs = Ok (x, r) -> run decode_u128 bs = Ok (x, r).
Proof.
  intros bs x r H. unfold decode_u64, decode_u128 in *. apply run_bind_inv in H. destruct H as (b & y & Hb & H). rewrite (run_bind_ok _ _ _ _ _ _ _ Hb).
  destruct (b =? 251); [exact H|]. destruct (b =? 252); [exact H|]. destruct (b =? 253); [exact H|].
  destruct (b =? 254); [discriminate|exact H].
Qed.
Lemma u64_lt : forall fw bs x r, wfb bs -> run (de_u64 fw) bs = Ok (x, r) -> x < 2 ^ 64.
Proof.
  intros [] bs x r Hb H; cbn [de_u64] in H; [|eapply decode_u64_ok; eassumption]. apply run_bind_inv in H.
  destruct H as (y & z & E & H). pose proof (read_n_wfb _ _ _ _ Hb E) as Hy.
  apply run_read_n_ok in E. destruct E as [_ E]. cbn [run] in H. apply Ok2 in H. destruct H as [<- _].
  pose proof (le_val_bound y Hy) as B. rewrite E in B. exact B.
Qed.
Lemma i64_in : forall fw bs z r, wfb bs -> run (de_i64 fw) bs = Ok (z, r) -> inS 64 z.
Proof.
  intros fw bs z r Hb H.
  assert (K : exists x, x < 2 ^ 64 /\ z = gz x).
  { unfold de_i64 in H. destruct fw.
    - pose proof (u64_lt true bs) as B. unfold de_u64 in B. apply run_bind_inv in H. destruct H as (y & q & E & H). exists (le_val y). split.
      + apply (B _ q Hb). rewrite (run_bind_ok _ _ _ _ _ _ _ E). reflexivity.
      + cbn [run] in H. apply Ok2 in H. destruct H as [<- _]. rewrite gazgiz_gz. reflexivity.
    - apply run_bind_inv in H. destruct H as (y & q & E & H). exists y. split; [eapply decode_u64_ok; eassumption|].
      cbn [run] in H. apply Ok2 in H. destruct H as [<- _]. rewrite gazgiz_gz. reflexivity. }
  destruct K as (x & Hx & ->). apply gz_range; [reflexivity|exact Hx].
Qed.

(** What the 64-bit varint [x] means at type [i], and whether the type accepts it. *)
Definition vmean (i : ity) (x : N) : Z := if ity_signed i then gz x else Z.of_N x.
Definition vok (ub : N) (i : ity) (x : N) : Prop := if ity_signed i then inS (ity_bits ub i) (gz x) else x < 2 ^ ity_bits ub i.
Definition no_byte (i : ity) : Prop := i <> U8 /\ i <> I8.
Lemma narrowS_inv : forall bits z y z' r, run (narrowS bits z) y = Ok (z', r) -> inS bits z /\ z' = z /\ r = y.
Proof.
  intros bits z y z' r H. unfold narrowS in H. destruct (_ && _)%bool eqn:E in H; [|discriminate]. cbn [run] in H. apply Ok2 in H. destruct H as [-> ->].
  apply andb_true_iff in E. destruct E as [E1 E2]. apply Z.leb_le in E1. apply Z.ltb_lt in E2. repeat split; assumption.
Qed.
Lemma narrowS_ok : forall bits z y, inS bits z -> run (narrowS bits z) y = Ok (z, y).
Proof.
  intros bits z y [H1 H2]. unfold narrowS. apply Z.leb_le in H1. apply Z.ltb_lt in H2. rewrite H1, H2. reflexivity.
Qed.
Lemma narrowU_inv : forall bits z y z' r, run (narrowU bits z) y = Ok (z', r) -> z < 2 ^ bits /\ z' = z /\ r = y.
Proof.
  intros bits z y z' r H. unfold narrowU in H. destruct (z <? 2 ^ bits) eqn:E; [|discriminate]. cbn [run] in H. apply Ok2 in H. destruct H as [-> ->].
  apply N.ltb_lt in E. auto.
Qed.
Lemma narrowU_ok : forall bits z y, z < 2 ^ bits -> run (narrowU bits z) y = Ok (z, y).
Proof. intros bits z y H. unfold narrowU. apply N.ltb_lt in H. rewrite H. reflexivity. Qed.
Lemma vint_inv : forall ub i bs z r, (i = Usize \/ i = Isize -> ub = 64) -> wfb bs -> no_byte i -> i <> U128 -> i <> I128 -> run (de_int false ub i) bs = Ok (z, r) ->
  exists x, run decode_u64 bs = Ok (x, r) /\ z = vmean i x /\ vok ub i x.
Proof.
  intros ub i bs z r Hub Hb [Hi1 Hi2] Hi3 Hi4 H. unfold vmean, vok.
  destruct i; try congruence; cbn [de_int de_u16 de_u32 de_u64 de_usize de_i16 de_i32 de_i64 de_isize ity_signed ity_bits] in *.
  - apply run_bind_inv in H. destruct H as (x & y & H & Hr). apply run_bind_inv in H. destruct H as (x' & y' & H & Hn). apply narrowU_inv in Hn. destruct Hn as (Hn & -> & ->).
    cbn [run] in Hr. apply Ok2 in Hr. destruct Hr as [<- ->]. exists x'. auto.
  - apply run_bind_inv in H. destruct H as (x & y & H & Hn). apply narrowS_inv in Hn. rewrite gazgiz_gz in Hn. destruct Hn as (Hn & -> & ->). exists x. auto.
  - apply run_bind_inv in H. destruct H as (x & y & H & Hr). apply run_bind_inv in H. destruct H as (x' & y' & H & Hn). apply narrowU_inv in Hn. destruct Hn as (Hn & -> & ->).
    cbn [run] in Hr. apply Ok2 in Hr. destruct Hr as [<- ->]. exists x'. auto.
  - apply run_bind_inv in H. destruct H as (x & y & H & Hn). apply narrowS_inv in Hn. rewrite gazgiz_gz in Hn. destruct Hn as (Hn & -> & ->). exists x. auto.
  - apply run_bind_inv in H. destruct H as (x & y & H & Hr). cbn [run] in Hr. apply Ok2 in Hr. destruct Hr as [<- ->]. exists x. split; [exact H|]. split; [reflexivity|]. eapply decode_u64_ok; eassumption.
  - apply run_bind_inv in H. destruct H as (x & y & H & Hr). cbn [run] in Hr. rewrite gazgiz_gz in Hr. apply Ok2 in Hr. destruct Hr as [<- ->]. exists x. split; [exact H|]. split; [reflexivity|]. apply gz_range; [reflexivity|]. eapply decode_u64_ok; eassumption.
  - rewrite (Hub (or_introl eq_refl)) in *. apply run_bind_inv in H. destruct H as (x & y & H & Hr). cbn [run] in Hr. apply Ok2 in Hr. destruct Hr as [<- ->]. unfold de_usize, de_u64 in H. apply run_bind_inv in H. destruct H as (x' & y' & H & Hr).
    cbn [run] in Hr. apply Ok2 in Hr. destruct Hr as [<- ->]. pose proof (decode_u64_ok _ _ _ Hb H) as B. exists x'. rewrite N.mod_small by exact B. auto.
  - rewrite (Hub (or_intror eq_refl)) in *. apply run_bind_inv in H. destruct H as (x & y & H & Hr). cbn [run] in Hr. apply run_bind_inv in H. destruct H as (x' & y' & H & Hn).
    cbn [run] in Hn. rewrite gazgiz_gz in Hn. apply Ok2 in Hn. destruct Hn as [<- ->]. pose proof (gz_range 64 x' eq_refl (decode_u64_ok _ _ _ Hb H)) as B.
    rewrite castS_id in Hr by (exact B || reflexivity). apply Ok2 in Hr. destruct Hr as [<- ->]. exists x'. auto.
Qed.
Lemma vint_ok : forall ub i bs x r, 0 < ub -> no_byte i -> run decode_u64 bs = Ok (x, r) -> vok ub i x -> run (de_int false ub i) bs = Ok (vmean i x, r).
Proof.
  intros ub i bs x r Hub [Hi1 Hi2] H V. unfold vmean, vok in *.
  destruct i; try congruence; cbn [de_int ity_signed ity_bits] in *; unfold de_u16, de_u32, de_u64, de_u128, de_usize, de_i16, de_i32, de_i64, de_i128, de_isize.
  - rewrite (run_bind_ok _ _ _ _ _ x r); [reflexivity|]. rewrite (run_bind_ok _ _ _ _ _ _ _ H). apply narrowU_ok, V.
  - rewrite (run_bind_ok _ _ _ _ _ _ _ H), gazgiz_gz. apply narrowS_ok, V.
  - rewrite (run_bind_ok _ _ _ _ _ x r); [reflexivity|]. rewrite (run_bind_ok _ _ _ _ _ _ _ H). apply narrowU_ok, V.
  - rewrite (run_bind_ok _ _ _ _ _ _ _ H), gazgiz_gz. apply narrowS_ok, V.
  - rewrite (run_bind_ok _ _ _ _ _ _ _ H). reflexivity.
  - rewrite (run_bind_ok _ _ _ _ _ _ _ H), gazgiz_gz. reflexivity.
  - apply d64_d128 in H. rewrite (run_bind_ok _ _ _ _ _ _ _ H). reflexivity.
  - apply d64_d128 in H. rewrite (run_bind_ok _ _ _ _ _ _ _ H), gazgiz_gz. reflexivity.
  - rewrite (run_bind_ok _ _ _ _ _ x r); [reflexivity|]. rewrite (run_bind_ok _ _ _ _ _ _ _ H). cbn [run]. rewrite N.mod_small by exact V. reflexivity.
  - rewrite (run_bind_ok _ _ _ _ _ (gz x) r).
    + cbn [run]. rewrite castS_id by assumption. reflexivity.
    + unfold de_i64. rewrite (run_bind_ok _ _ _ _ _ _ _ H), gazgiz_gz. reflexivity.
Qed.
Lemma inS_mono : forall a b z, 0 < a -> a <= b -> inS a z -> inS b z.
Proof.
  intros a b z Ha Hab [H1 H2]. assert (P : (2 ^ (Z.of_N a - 1) <= 2 ^ (Z.of_N b - 1))%Z) by (apply Z.pow_le_mono_r; lia).
  unfold inS. remember (2 ^ (Z.of_N a - 1))%Z as M eqn:HM. remember (2 ^ (Z.of_N b - 1))%Z as M' eqn:HM'.
  clear - P H1 H2. lia.
Qed.
Lemma usize_u64 : forall fw bs, wfb bs -> run (de_usize fw 64) bs = run (de_u64 fw) bs.
Proof.
  intros fw bs Hb. unfold de_usize. rewrite run_bind. destruct (run (de_u64 fw) bs) as [[x y]|e|q] eqn:E; [|reflexivity|reflexivity].
  cbn [run]. rewrite N.mod_small by (eapply u64_lt; eassumption). reflexivity.
Qed.
Lemma isize_i64 : forall fw bs, wfb bs -> run (de_isize fw 64) bs = run (de_i64 fw) bs.
Proof.
  intros fw bs Hb. unfold de_isize. rewrite run_bind. destruct (run (de_i64 fw) bs) as [[x y]|e|q] eqn:E; [|reflexivity|reflexivity].
  cbn [run]. rewrite castS_id; [reflexivity|reflexivity|]. eapply i64_in; eassumption.
Qed.
Lemma ler_int : forall E i i', 0 < e_ub E -> wider_int E i i' = true -> ler (de_int (e_fw E) (e_ub E) i) (de_int (e_fw E) (e_ub E) i').
Proof.
  intros E i i' Hub W bs z r Hb H.
  assert (P : (i = U64 /\ i' = Usize) \/ (i = Usize /\ i' = U64) \/ (i = I64 /\ i' = Isize) \/ (i = Isize /\ i' = I64) \/
    (e_fw E = false /\ no_byte i /\ no_byte i' /\ i <> U128 /\ i <> I128 /\ (i = Usize \/ i = Isize -> e_ub E = 64) /\
     ity_signed i' = ity_signed i /\ 0 < ity_bits (e_ub E) i /\ ity_bits (e_ub E) i <= ity_bits (e_ub E) i')).
  { unfold no_byte. destruct i, i'; cbn [wider_int] in W; try discriminate W; cbn [ity_bits] in *; auto 10;
      repeat match goal with
      | H : _ && _ = true |- _ => apply andb_true_iff in H; destruct H
      | H : negb _ = true |- _ => apply negb_true_iff in H
      | H : (_ =? _) = true |- _ => apply N.eqb_eq in H
      | H : (_ <=? _) = true |- _ => apply N.leb_le in H
      end; do 4 right; repeat split; try congruence; try assumption; try lia; try (intros [K|K]; discriminate K). }
  assert (U : forall a b, (a = U64 /\ b = Usize) \/ (a = Usize /\ b = U64) \/ (a = I64 /\ b = Isize) \/ (a = Isize /\ b = I64) -> wider_int E a b = true -> e_ub E = 64).
  { intros a b [[-> ->]|[[-> ->]|[[-> ->]|[-> ->]]]] K; apply N.eqb_eq; exact K. }
  destruct P as [[-> ->]|[[-> ->]|[[-> ->]|[[-> ->]|P]]]].
  - rewrite (U U64 Usize) in * by auto. cbn [de_int] in *. rewrite run_bind in *. rewrite usize_u64 by exact Hb. exact H.
  - rewrite (U Usize U64) in * by auto. cbn [de_int] in *. rewrite run_bind in *. rewrite usize_u64 in H by exact Hb. exact H.
  - rewrite (U I64 Isize) in * by auto. cbn [de_int] in *. rewrite isize_i64 by exact Hb. exact H.
  - rewrite (U Isize I64) in * by auto. cbn [de_int] in *. rewrite isize_i64 in H by exact Hb. exact H.
  - destruct P as (F & N1 & N2 & N3 & N4 & N5 & Sg & B0 & B1). rewrite F in *.
    destruct (vint_inv _ _ _ _ _ N5 Hb N1 N3 N4 H) as (x & Hx & -> & V).
    replace (vmean i x) with (vmean i' x) by (unfold vmean; rewrite Sg; reflexivity). apply vint_ok; [exact Hub|exact N2|exact Hx|].
    unfold vok in *. rewrite Sg. destruct (ity_signed i); [eapply inS_mono; eassumption|]. eapply N.lt_le_trans; [exact V|]. apply N.pow_le_mono_r; [discriminate|exact B1].
Qed.

(** ** Containers *)
Definition is_pair (v : val) : Prop := exists a b, v = VPair a b.
Lemma rep_forall : forall A (R : A -> Prop) n (p : prog A) , (forall bs a r, run p bs = Ok (a, r) -> R a) ->
  forall bs l r, run (rep n p) bs = Ok (l, r) -> Forall R l.
Proof.
  intros A R n p H. induction n as [|n IH]; intros bs l r Hr; cbn [rep] in Hr.
  - cbn [run] in Hr. apply Ok2 in Hr. destruct Hr as [<- _]. constructor.
  - apply run_bind_inv in Hr. destruct Hr as (a & y & Ha & Hr). apply run_bind_inv in Hr. destruct Hr as (m & z & Hm & Hr).
    cbn [run] in Hr. apply Ok2 in Hr. destruct Hr as [<- _]. constructor; eauto.
Qed.
Lemma cbuild_upd : forall (R : val -> Prop) cmp key u u', (forall x e, R x -> R e -> cmp (key e) (key x) = Eq -> u x e = u' x e) ->
  (forall x e, R x -> R e -> R (u x e)) -> forall l, Forall R l -> cbuild cmp key u l = cbuild cmp key u' l.
Proof.
  intros R cmp key u u' H HR.
  assert (I : forall e m, R e -> Forall R m -> cinsert cmp key u e m = cinsert cmp key u' e m /\ Forall R (cinsert cmp key u e m)).
  { intros e m He Hm. induction Hm as [|x m Hx Hm IH]; cbn [cinsert]; [split; [reflexivity|repeat constructor; exact He]|].
    destruct (cmp (key e) (key x)) eqn:C.
    - split; [rewrite (H x e Hx He C); reflexivity|]. constructor; [apply HR; assumption|exact Hm].
    - split; [reflexivity|]. constructor; [exact He|]. constructor; assumption.
    - destruct IH as [IH1 IH2]. rewrite IH1 at 1. split; [reflexivity|]. constructor; assumption. }
  intros l Hl. unfold cbuild. assert (G : Forall R (@nil val)) by constructor. revert G. generalize (@nil val).
  induction Hl as [|e l He Hl IH]; intros acc Ha; cbn [fold_left]; [reflexivity|]. destruct (I e acc He Ha) as [I1 I2]. rewrite <- I1. apply IH, I2.
Qed.

Section R.
Variable E : env.
Variable O : Prop.
Variable S : N -> option schema.
Hypothesis HS : retyped E O S.
Hypothesis HM : e_mem E = None.
Hypothesis Hub : 0 < e_ub E.
Notation E' := (set_sch E S).

Lemma ler_alloc : forall n m A (f f' : unit -> prog A), (forall u, ler (f u) (f' u)) -> ler (bind (alloc E n) f) (bind (alloc E' m) f').
Proof. intros n m A f f' H. unfold alloc. cbn [set_sch e_mem]. rewrite HM. cbn [bind]. apply H. Qed.
Lemma ler_seq : forall n m p q, ler p q -> ler (de_seq E n p) (de_seq E' m q).
Proof.
  intros n m p q H. unfold de_seq. apply ler_bind; [apply ler_refl|]. intros k. destruct (k =? 0); [apply ler_refl|].
  apply ler_alloc. intros _. apply ler_rep, H.
Qed.
Lemma ler_entry : forall a b a' b', ler a a' -> ler b b' -> ler (de_entry a b) (de_entry a' b').
Proof. intros. unfold de_entry. apply ler_bind; [assumption|]. intros. apply ler_bind; [assumption|]. intros. apply ler_refl. Qed.
Lemma seq_forall : forall (R : val -> Prop) n p, (forall bs a r, run p bs = Ok (a, r) -> R a) ->
  forall bs l r, run (de_seq E n p) bs = Ok (l, r) -> Forall R l.
Proof.
  intros R n p H bs l r Hr. unfold de_seq in Hr. apply run_bind_inv in Hr. destruct Hr as (k & y & _ & Hr). destruct (k =? 0).
  - cbn [run] in Hr. apply Ok2 in Hr. destruct Hr as [<- _]. constructor.
  - unfold alloc in Hr. rewrite HM in Hr. cbn [bind] in Hr. eapply rep_forall; eassumption.
Qed.
Lemma entry_pair : forall a b bs v r, run (de_entry a b) bs = Ok (v, r) -> is_pair v.
Proof.
  intros a b bs v r H. unfold de_entry in H. apply run_bind_inv in H. destruct H as (x & y & _ & H). apply run_bind_inv in H. destruct H as (x' & y' & _ & H).
  cbn [run] in H. apply Ok2 in H. destruct H as [<- _]. exists x, x'. reflexivity.
Qed.
Lemma str_blob : ler (de_str E) (b <- de_blob E' ;; Ret (VBytes b)).
Proof.
  unfold de_str, de_blob. intros bs v r Hb H. apply run_bind_inv in H. destruct H as (n & y & Hn & H). rewrite run_bind, run_bind. change (de_len E') with (de_len E). rewrite Hn.
  destruct (n =? 0); [exact H|]. unfold alloc in H |- *. cbn [set_sch e_mem]. rewrite HM in H |- *. cbn [bind] in H |- *. apply run_bind_inv in H. destruct H as (x & z & Hx & H). unfold bytes in Hx |- *. rewrite Hx.
  destruct (utf8_ok x); [exact H|discriminate].
Qed.
Lemma swap_map : forall k k' a a' l, (forall x y, e_cmp E a x y = e_cmp E a' x y) -> (k = k' \/ strict_keys E a) -> Forall is_pair l ->
  build_map E k a l = build_map E' k' a' l.
Proof.
  intros k k' a a' l Hc Hk Hl. unfold build_map. rewrite <- (cbuild_ext (e_cmp E a) (e_cmp E' a') pkey _ l Hc).
  destruct Hk as [->|Hk]; [reflexivity|]. apply (cbuild_upd is_pair); [|intros x e (x1 & x2 & ->) (e1 & e2 & ->); destruct k; eexists; eexists; reflexivity|exact Hl].
  intros x e (x1 & x2 & ->) (e1 & e2 & ->) C. cbn [pkey] in C. apply Hk in C. subst x1. destruct k, k'; reflexivity.
Qed.
Lemma swap_set : forall k k' a a' l, (forall x y, e_cmp E a x y = e_cmp E a' x y) -> (k = k' \/ strict_keys E a) ->
  build_set E k a l = build_set E' k' a' l.
Proof.
  intros k k' a a' l Hc Hk. unfold build_set. rewrite <- (cbuild_ext (e_cmp E a) (e_cmp E' a') vid _ l Hc).
  destruct Hk as [->|Hk]; [reflexivity|]. apply (cbuild_upd (fun _ => True)); [|auto|apply Forall_forall; auto].
  intros x e _ _ C. unfold vid in C. apply Hk in C. subst x. destruct k, k'; reflexivity.
Qed.

Section De.
Variables rec rec' : N -> prog val.
Hypothesis Hrec : forall n, ler (rec n) (rec' n).
Lemma de_up_ty : forall t, ler (de_ty E rec t) (de_ty E' rec' t).
Proof.
  induction t; cbn [de_ty]; try apply ler_refl; try apply Hrec; try assumption.
  - apply ler_bind; [assumption|]. intros. apply ler_bind; [assumption|]. intros. apply ler_refl.
  - change (e_spec E') with (e_spec E). destruct (if e_spec E then bulk_of t else None); [apply ler_refl|].
    apply ler_bind; [apply ler_seq; assumption|]. intros. apply ler_refl.
  - apply ler_bind; [apply ler_seq; assumption|]. intros. apply ler_refl.
  - apply ler_bind; [apply ler_rep; assumption|]. intros. apply ler_refl.
  - apply ler_bind; [apply ler_refl|]. intros b. destruct (b =? 0); [apply ler_refl|]. destruct (b =? 1); [|apply ler_refl]. apply ler_bind; [assumption|]. intros. apply ler_refl.
  - apply ler_bind; [apply ler_refl|]. intros b. destruct (b =? 0); [|destruct (b =? 1); [|apply ler_refl]]; (apply ler_bind; [apply ler_map_err; assumption|]); intros; apply ler_refl.
  - apply ler_bind; [apply ler_refl|]. intros b. destruct (b =? 0); [apply ler_refl|]. destruct (b =? 1); [|destruct (b =? 2); [|apply ler_refl]]; (apply ler_bind; [apply ler_map_err; assumption|]); intros; apply ler_refl.
  - apply ler_bind; [apply ler_seq, ler_entry; assumption|]. intros. apply ler_refl.
  - apply ler_bind; [apply ler_seq; assumption|]. intros. apply ler_refl.
  - apply ler_bind; [apply ler_seq; assumption|]. intros. apply ler_refl.
  - apply ler_bind; [assumption|]. intros x. apply ler_refl.
Qed.
Lemma no_bulk : forall t, one_by_one E t -> (if e_spec E then bulk_of t else None) = None.
Proof. intros t H. destruct (e_spec E) eqn:Es; [apply H, Es|reflexivity]. Qed.
Lemma de_up : forall t t', widens E O t t' -> ler (de_ty E rec t) (de_ty E' rec' t').
Proof.
  induction 1; cbn [de_ty]; try apply ler_refl; try assumption; try change (e_spec E') with (e_spec E).
  - apply de_up_ty.
  - apply ler_bind; [exact (ler_int E i i' Hub H)|]. intros. apply ler_refl.
  - apply str_blob.
  - apply str_blob.
  - intros bs v r Hb Hr. apply run_bind_inv in Hr. destruct Hr as (x & y & Hx & Hr). destruct (e_ext E c x) as [z|] eqn:Ex; [|discriminate].
    cbn [run] in Hr. apply Ok2 in Hr. destruct Hr as [<- <-]. rewrite (H0 x z Ex). apply IHwidens; assumption.
  - apply ler_bind; [assumption|]. intros x. apply ler_refl.
  - apply ler_bind; [assumption|]. intros. apply ler_bind; [assumption|]. intros. apply ler_refl.
  - rewrite !no_bulk by assumption. apply ler_bind; [apply ler_seq; assumption|]. intros. apply ler_refl.
  - rewrite !no_bulk by assumption. apply ler_bind; [apply ler_seq; assumption|]. intros. apply ler_refl.
  - rewrite !no_bulk by assumption. apply ler_bind; [apply ler_seq; assumption|]. intros. apply ler_refl.
  - apply ler_bind; [apply ler_seq; assumption|]. intros. apply ler_refl.
  - apply ler_bind; [apply ler_rep; assumption|]. intros. apply ler_refl.
  - apply ler_bind; [apply ler_refl|]. intros b. destruct (b =? 0); [apply ler_refl|]. destruct (b =? 1); [|apply ler_refl]. apply ler_bind; [assumption|]. intros. apply ler_refl.
  - apply ler_bind; [apply ler_refl|]. intros d. destruct (d =? 0); [|destruct (d =? 1); [|apply ler_refl]]; (apply ler_bind; [apply ler_map_err; assumption|]); intros; apply ler_refl.
  - apply ler_bind; [apply ler_refl|]. intros d. destruct (d =? 0); [apply ler_refl|]. destruct (d =? 1); [|destruct (d =? 2); [|apply ler_refl]]; (apply ler_bind; [apply ler_map_err; assumption|]); intros; apply ler_refl.
  - apply (ler_bindR _ _ (Forall is_pair)).
    + intros bs l r _ Hl. eapply seq_forall; [|exact Hl]. intros bs' v r'. apply entry_pair.
    + apply ler_seq, ler_entry; assumption.
    + intros l Hl. rewrite (swap_map k k' a a' l); [apply ler_refl|assumption|assumption|assumption].
  - apply ler_bind; [apply ler_seq; assumption|]. intros l. rewrite (swap_set k k' t t' l); [apply ler_refl|assumption|assumption].
  - apply ler_bind; [apply ler_seq; assumption|]. intros. apply ler_refl.
Qed.
Lemma de_up_mode : forall m t, ler (de_mode E rec m t) (de_mode E' rec' m t).
Proof.
  intros m t.
  assert (Q : forall a, ler (de_idx_seq E a (de_ty E rec a)) (de_idx_seq E' a (de_ty E' rec' a))).
  { intros a. unfold de_idx_seq. apply ler_bind; [apply ler_refl|]. intros fl. apply ler_bind; [apply ler_refl|]. intros n. change (e_ub E') with (e_ub E).
    destruct (N.land fl 1 =? 0); [apply ler_alloc; intros _; apply ler_rep, de_up_ty|]. destruct (n * 4 <? 2 ^ e_ub E); [|apply ler_refl].
    apply ler_bind; [apply ler_refl|]. intros _. apply ler_alloc. intros _. apply ler_rep, de_up_ty. }
  destruct m; cbn [de_mode].
  - apply de_up_ty.
  - apply ler_refl.
  - apply ler_refl.
  - destruct t; try apply ler_refl. apply ler_bind; [|intros; apply ler_refl].
    unfold de_idx_map. apply ler_bind; [apply ler_refl|]. intros fl. apply ler_bind; [apply ler_refl|]. intros n. change (e_ub E') with (e_ub E).
    assert (R : forall u : unit, ler
      (if N.land fl 1 =? 0 then l <- rep (N.to_nat n) (de_entry (de_ty E rec t1) (de_ty E rec t2)) ;; Ret (build_idx_map E t1 l)
       else if n * 8 <? 2 ^ e_ub E then m <- add8 E (n * 8) ;; advance m ;;; alloc E (n * e_esize E t1) ;;; ks <- rep (N.to_nat n) (de_ty E rec t1) ;;
         alloc E (n * e_esize E t2) ;;; vs <- rep (N.to_nat n) (de_ty E rec t2) ;; Ret (build_idx_map E t1 (map (fun p => VPair (fst p) (snd p)) (combine ks vs)))
       else Fail ESubReaderOverrun)
      (if N.land fl 1 =? 0 then l <- rep (N.to_nat n) (de_entry (de_ty E' rec' t1) (de_ty E' rec' t2)) ;; Ret (build_idx_map E' t1 l)
       else if n * 8 <? 2 ^ e_ub E then m <- add8 E' (n * 8) ;; advance m ;;; alloc E' (n * e_esize E' t1) ;;; ks <- rep (N.to_nat n) (de_ty E' rec' t1) ;;
         alloc E' (n * e_esize E' t2) ;;; vs <- rep (N.to_nat n) (de_ty E' rec' t2) ;; Ret (build_idx_map E' t1 (map (fun p => VPair (fst p) (snd p)) (combine ks vs)))
       else Fail ESubReaderOverrun)).
    { intros _. destruct (N.land fl 1 =? 0).
      - apply ler_bind; [apply ler_rep, ler_entry; apply de_up_ty|]. intros. apply ler_refl.
      - destruct (n * 8 <? 2 ^ e_ub E); [|apply ler_refl]. apply ler_bind; [apply ler_refl|]. intros m. apply ler_bind; [apply ler_refl|]. intros _.
        apply ler_alloc. intros _. apply ler_bind; [apply ler_rep, de_up_ty|]. intros ks. apply ler_alloc. intros _.
        apply ler_bind; [apply ler_rep, de_up_ty|]. intros vs. apply ler_refl. }
    destruct k; [apply ler_alloc; exact R|]. apply ler_bind; [apply ler_refl|]. exact R.
  - destruct t; try apply ler_refl; (apply ler_bind; [apply Q|intros; apply ler_refl]).
  - destruct t; try apply ler_refl; (apply ler_bind; [apply Q|intros; apply ler_refl]).
Qed.

(** ** Derived types *)
Lemma re_alive : forall f f' r, retyped_field E O f f' -> falive r f' = falive r f.
Proof. intros f f' r (H1 & H2 & _). unfold falive. rewrite H1, H2. reflexivity. Qed.
Lemma re_field_ty : forall f f', retyped_field E O f f' -> widens E O (f_ty f) (f_ty f').
Proof. intros f f' (_ & _ & _ & _ & _ & _ & _ & [->|[H _]]); [apply wd_refl|exact H]. Qed.
Lemma re_mode : forall opt f f', retyped_field E O f f' -> ler (de_mode E rec (mode_of opt f) (f_ty f)) (de_mode E' rec' (mode_of opt f') (f_ty f')).
Proof.
  intros opt f f' (_ & _ & _ & _ & H1 & H2 & H3 & H). replace (mode_of opt f') with (mode_of opt f) by (unfold mode_of, mode_opt, mode_legacy; rewrite H1, H2, H3; reflexivity).
  destruct H as [->|(Hw & K1 & K2 & K3)]; [apply de_up_mode|].
  replace (mode_of opt f) with MPlain by (unfold mode_of, mode_opt, mode_legacy; rewrite K1, K2, K3; destruct opt; reflexivity). apply (de_up _ _ Hw).
Qed.
Lemma re_mode_removed : forall opt f f', retyped_field E O f f' -> ler (de_mode E rec (mode_removed opt f) (f_ty f)) (de_mode E' rec' (mode_removed opt f') (f_ty f')).
Proof.
  intros opt f f' (_ & _ & _ & _ & H1 & H2 & H3 & H). replace (mode_removed opt f') with (mode_removed opt f) by (unfold mode_removed, mode_legacy; rewrite H1, H2; reflexivity).
  destruct H as [->|(Hw & K1 & K2 & K3)]; [apply de_up_mode|].
  replace (mode_removed opt f) with MPlain by (unfold mode_removed, mode_legacy; rewrite K1, K2; destruct opt; reflexivity). apply (de_up _ _ Hw).
Qed.
(** Results related by [R]. *)
Definition lerR {A B} (R : A -> B -> Prop) (p : prog A) (q : prog B) : Prop :=
  forall bs a r, wfb bs -> run p bs = Ok (a, r) -> exists b, R a b /\ run q bs = Ok (b, r).
Lemma lerR_bind : forall A A' B B' (R : A -> A' -> Prop) (Q : B -> B' -> Prop) p p' f f',
  lerR R p p' -> (forall a a', R a a' -> lerR Q (f a) (f' a')) -> lerR Q (bind p f) (bind p' f').
Proof.
  intros A A' B B' R Q p p' f f' Hp Hf bs b r Hb H. apply run_bind_inv in H. destruct H as (a & y & Ha & H).
  destruct (Hp bs a y Hb Ha) as (a' & Hr & Ha'). destruct (Hf a a' Hr y b r (run_wfb _ _ _ _ _ Hb Ha) H) as (b' & Hq & H').
  exists b'. split; [exact Hq|]. rewrite (run_bind_ok _ _ _ _ _ _ _ Ha'). exact H'.
Qed.
Lemma lerR_eq : forall A (p q : prog A), ler p q -> lerR eq p q.
Proof. intros A p q H bs a r Hb Hr. exists a. split; [reflexivity|apply H; assumption]. Qed.
Lemma lerR_ler : forall A A' B (R : A -> A' -> Prop) p p' (f : A -> prog B) f', lerR R p p' -> (forall a a', R a a' -> ler (f a) (f' a')) -> ler (bind p f) (bind p' f').
Proof.
  intros A A' B R p p' f f' Hp Hf bs b r Hb H. apply run_bind_inv in H. destruct H as (a & y & Ha & H).
  destruct (Hp bs a y Hb Ha) as (a' & Hr & Ha'). rewrite (run_bind_ok _ _ _ _ _ _ _ Ha'). apply (Hf a a' Hr); [|exact H]. eapply run_wfb; eassumption.
Qed.
Definition re_old (p p' : field * val) : Prop := retyped_field E O (fst p) (fst p') /\ snd p' = snd p.
Definition re_pair (p p' : list val * list (field * val)) : Prop := fst p = fst p' /\ Forall2 re_old (snd p) (snd p').
Lemma de_up_fields : forall opt cur tgt fs fs', Forall2 (retyped_field E O) fs fs' -> lerR re_pair (de_fields E rec opt cur tgt fs) (de_fields E' rec' opt cur tgt fs').
Proof.
  intros opt cur tgt fs fs' H. induction H as [|f f' fs fs' Hf H IH]; cbn [de_fields].
  - intros bs a r _ Hr. cbn [run] in *. apply Ok2 in Hr. destruct Hr as [<- <-]. exists ([], []). split; [split; [reflexivity|constructor]|reflexivity].
  - rewrite !(re_alive f f' _ Hf). destruct (falive cur f).
    + destruct (falive tgt f).
      * eapply lerR_bind; [apply lerR_eq, re_mode, Hf|]. intros v v' <-. eapply lerR_bind; [exact IH|]. intros [l o] [l' o'] [Hl Ho]. intros bs a r _ Hr. cbn [run fst snd] in *.
        apply Ok2 in Hr. destruct Hr as [<- <-]. eexists. split; [|reflexivity]. split; cbn [fst snd]; [congruence|exact Ho].
      * eapply lerR_bind; [apply lerR_eq, re_mode_removed, Hf|]. intros v v' <-. eapply lerR_bind; [exact IH|]. intros [l o] [l' o'] [Hl Ho]. intros bs a r _ Hr. cbn [run fst snd] in *.
        apply Ok2 in Hr. destruct Hr as [<- <-]. eexists. split; [|reflexivity]. split; cbn [fst snd]; [congruence|]. constructor; [split; [exact Hf|reflexivity]|exact Ho].
    + destruct (falive tgt f); [|exact IH].
      replace (f_default f') with (f_default f) by (destruct Hf as (_ & _ & -> & _); reflexivity).
      eapply lerR_bind; [apply lerR_eq, ler_refl|]. intros v v' <-. eapply lerR_bind; [exact IH|]. intros [l o] [l' o'] [Hl Ho]. intros bs a r _ Hr. cbn [run fst snd] in *.
      apply Ok2 in Hr. destruct Hr as [<- <-]. eexists. split; [|reflexivity]. split; cbn [fst snd]; [congruence|exact Ho].
Qed.
Lemma re_converts : forall cur o o', Forall2 re_old o o' -> forall l, converts cur l o = converts cur l o'.
Proof.
  intros cur o o' H. induction H as [|[f v] [f' v'] o o' [Hf Hv] H IH]; intros l; cbn [converts]; [reflexivity|]. cbn [fst snd] in *. subst v'.
  replace (f_convert f') with (f_convert f) by (destruct Hf as (_ & _ & _ & -> & _); reflexivity).
  destruct (f_convert f l cur v); cbn [rbind]; [apply IH|reflexivity|reflexivity].
Qed.
Lemma de_up_content : forall A opt cur tgt fs fs' (g : list val -> prog A), Forall2 (retyped_field E O) fs fs' ->
  ler (p <- de_fields E rec opt cur tgt fs ;; l <- of_res (converts cur (fst p) (snd p)) ;; g l)
      (p <- de_fields E' rec' opt cur tgt fs' ;; l <- of_res (converts cur (fst p) (snd p)) ;; g l).
Proof.
  intros A opt cur tgt fs fs' g H. eapply lerR_ler; [apply de_up_fields, H|]. intros [l o] [l' o'] [Hl Ho]. cbn [fst snd] in *. subst l'.
  rewrite (re_converts cur o o' Ho). apply ler_refl.
Qed.
Lemma re_filter : forall cur fs fs', Forall2 (retyped_field E O) fs fs' -> len (filter (falive cur) fs') = len (filter (falive cur) fs).
Proof.
  intros cur fs fs' H. induction H as [|f f' fs fs' Hf H IH]; [reflexivity|]. cbn [filter]. rewrite (re_alive f f' cur Hf). destruct (falive cur f); [|exact IH]. rewrite !len_cons, IH. reflexivity.
Qed.
Lemma de_up_vfields : forall cur fs fs', Forall2 (retyped_field E O) fs fs' -> ler (de_vfields E rec cur fs) (de_vfields E' rec' cur fs').
Proof.
  intros cur fs fs' H. induction H as [|f f' fs fs' Hf H IH]; cbn [de_vfields]; [apply ler_refl|]. rewrite (re_alive f f' cur Hf). destruct (falive cur f); [|exact IH].
  apply ler_bind; [apply de_up, re_field_ty, Hf|]. intros v. apply ler_bind; [exact IH|]. intros. apply ler_refl.
Qed.
Lemma re_valive : forall v v' r, retyped_variant E O v v' -> valive r v' = valive r v.
Proof. intros v v' r (_ & H1 & H2 & _). unfold valive. rewrite H1, H2. reflexivity. Qed.
Definition re_disc (p p' : variant * N) : Prop := retyped_variant E O (fst p) (fst p') /\ snd p' = snd p.
Lemma re_gather : forall r vs vs', Forall2 (retyped_variant E O) vs vs' -> forall u, gather r vs' u = gather r vs u.
Proof.
  intros r vs vs' H. induction H as [|v v' vs vs' Hv H IH]; intros u; cbn [gather]; [reflexivity|].
  rewrite (re_valive v v' r Hv). destruct (valive r v); [|apply IH].
  replace (v_over v' r) with (v_over v r) by (destruct Hv as (_ & _ & _ & -> & _); reflexivity).
  destruct (v_over v r) as [d|]; [destruct (existsb _ _); [reflexivity|]|]; apply IH.
Qed.
Lemma re_assign : forall r vs vs', Forall2 (retyped_variant E O) vs vs' -> forall u n, Forall2 re_disc (assign r vs u n) (assign r vs' u n).
Proof.
  intros r vs vs' H. induction H as [|v v' vs vs' Hv H IH]; intros u n; cbn [assign]; [constructor|].
  rewrite (re_valive v v' r Hv). destruct (valive r v); [|apply IH].
  replace (v_over v' r) with (v_over v r) by (destruct Hv as (_ & _ & _ & -> & _); reflexivity).
  destruct (v_over v r) as [d|]; constructor; try apply IH; split; auto.
Qed.
Lemma re_calc : forall r vs vs', Forall2 (retyped_variant E O) vs vs' ->
  match calc_disc r vs, calc_disc r vs' with Some ds, Some ds' => Forall2 re_disc ds ds' | None, None => True | _, _ => False end.
Proof.
  intros r vs vs' H. unfold calc_disc. rewrite (re_gather r vs vs' H). destruct (gather r vs []); [|exact I]. apply re_assign, H.
Qed.
Lemma re_find : forall (f f' : variant * N -> bool) ds ds', Forall2 re_disc ds ds' -> (forall p p', re_disc p p' -> f' p' = f p) ->
  match find f ds, find f' ds' with Some p, Some p' => re_disc p p' | None, None => True | _, _ => False end.
Proof.
  intros f f' ds ds' H Hf. induction H as [|p p' ds ds' Hp H IH]; cbn [find]; [exact I|]. rewrite (Hf p p' Hp). destruct (f p); [exact Hp|exact IH].
Qed.
Lemma variant_buf_wfb : forall s bs b r, wfb bs -> run (variant_buf E s) bs = Ok (b, r) -> wfb b.
Proof.
  intros [[|n|]|] bs b r Hb H; cbn [variant_buf] in H; [| | |discriminate]; unfold alloc in H; rewrite ?HM in H; cbn [bind] in H.
  - cbn [run] in H. apply Ok2 in H. destruct H as [<- _]. constructor.
  - eapply read_n_wfb; eassumption.
  - apply run_bind_inv in H. destruct H as (n & y & Hn & H). cbn [bind] in H. apply run_wfb in Hn; [|exact Hb]. eapply read_n_wfb; eassumption.
Qed.
Lemma de_up_derived : forall s s', retyped_schema E O s s' -> ler (de_derived E rec s) (de_derived E' rec' s').
Proof.
  intros s s' [Hh Hb]. unfold de_derived. apply ler_bind; [apply ler_refl|]. intros r. unfold de_body, sent, scur. rewrite Hh.
  destruct (if r =? 0 then None else _) as [h|]; [|apply ler_refl].
  destruct (s_body s) as [fs|vs], (s_body s') as [fs'|vs']; try contradiction.
  - destruct (h_opt h).
    + unfold de_struct_opt. apply ler_bind; [apply ler_refl|]. intros n. apply ler_alloc. intros _. apply (ler_bindR _ _ wfb); [intros bs b q; apply read_n_wfb|apply ler_refl|].
      intros b Hw. apply ler_in_buf; [exact Hw|].
      unfold struct_payload. rewrite (re_filter r fs fs' Hb). apply ler_bind; [apply ler_refl|]. intros _. apply de_up_content, Hb.
    + unfold de_struct_legacy. apply de_up_content, Hb.
  - pose proof (re_calc r vs vs' Hb) as C. unfold de_enum_opt, de_enum_legacy. destruct (h_opt h).
    + destruct (calc_disc r vs) as [ds|], (calc_disc r vs') as [ds'|]; try contradiction; [|apply ler_refl]. apply ler_bind; [apply ler_refl|]. intros [t c]. cbn [fst snd]. unfold find_tag.
      match goal with |- ler (match find ?f ds with _ => _ end) (match find ?f' ds' with _ => _ end) => pose proof (re_find f f' ds ds' C) as F end.
      match type of F with ?P -> _ => assert (FP : P) end.
      { intros p p' [(_ & _ & _ & _ & Hz & _) Hd]. rewrite Hz, Hd. reflexivity. }
      specialize (F FP). destruct (find _ ds) as [[vr d]|], (find _ ds') as [[vr' d']|]; try contradiction; [|apply ler_refl].
      destruct F as [Hv Hd]. cbn [fst snd] in *. pose proof (re_valive vr vr' (len (s_hist s)) Hv) as Ha. destruct Hv as (Hn & Hs & He & Ho & Hz & Hc & Hf).
      unfold de_variant_opt. rewrite Hz, Ha, Hn, Hc. apply (ler_bindR _ _ wfb); [intros bs b q; apply variant_buf_wfb| |].
      { destruct (v_size vr) as [[|n|]|]; apply ler_refl. }
      intros buf Hw. apply ler_bind; [apply ler_in_buf; [exact Hw|apply de_up_vfields, Hf]|]. intros l. apply ler_refl.
    + destruct (calc_disc r vs) as [ds|], (calc_disc r vs') as [ds'|]; try contradiction; [|apply ler_refl]. apply ler_bind; [apply ler_refl|]. intros d. unfold find_disc.
      pose proof (re_find (fun p => snd p =? d) (fun p => snd p =? d) ds ds' C) as F.
      match type of F with ?P -> _ => assert (FP : P) end.
      { intros p p' [_ Hd]. rewrite Hd. reflexivity. }
      specialize (F FP). destruct (find _ ds) as [[vr k]|], (find _ ds') as [[vr' k']|]; try contradiction; [|apply ler_refl].
      destruct F as [Hv Hd]. cbn [fst snd] in *. pose proof (re_valive vr vr' (len (s_hist s)) Hv) as Ha. destruct Hv as (Hn & Hs & He & Ho & Hz & Hc & Hf).
      unfold de_variant_legacy. rewrite Ha, Hn, Hc. apply de_up_content, Hf.
Qed.
End De.

Lemma de_up_ref : forall d n, ler (de_ref E d n) (de_ref E' d n).
Proof.
  induction d as [|d IH]; intros n; cbn [de_ref]; [apply ler_refl|]. cbn [set_sch e_sch]. pose proof (HS n) as H.
  destruct (e_sch E n) as [s|], (S n) as [s'|]; try contradiction; [|apply ler_refl]. apply de_up_derived; [exact IH|exact H].
Qed.
Lemma deserialize_up : forall d t t', widens E O t t' -> ler (deserialize E d t) (deserialize E' d t').
Proof. intros d t t' H. unfold deserialize. apply de_up; [apply de_up_ref|exact H]. Qed.
End R.
