(** How large decoded values are.  Proofs. *)

From Verif Require Import Base BaseL Prog ProgL Prim PrimL Utf8 Tag Ty Ser De Typed Parts Users SortL DiscL RtL Agree Yield Size.
From Coq Require Import List NArith ZArith Bool Lia Permutation.
Import ListNotations.
Open Scope N_scope.

Lemma sum_nil : sum [] = 0.  Proof. reflexivity. Qed.
Lemma sum_cons : forall x l, sum (x :: l) = x + sum l.  Proof. reflexivity. Qed.
Lemma sum_perm : forall l l', Permutation l l' -> sum l = sum l'.
Proof. induction 1; rewrite ?sum_cons in *; lia. Qed.
Lemma sum_add : forall A (f g : A -> N) l, sum (map (fun x => f x + g x) l) = sum (map f l) + sum (map g l).
Proof. induction l as [|x l IH]; cbn [map]; rewrite ?sum_nil, ?sum_cons; lia. Qed.
Lemma sum_const : forall A c (l : list A), sum (map (fun _ => c) l) = c * len l.
Proof. induction l as [|x l IH]; cbn [map]; rewrite ?sum_nil, ?sum_cons, ?len_nil, ?len_cons; lia. Qed.
Lemma sum_zero : forall A (f : A -> N) l, (forall x, f x = 0) -> sum (map f l) = 0.
Proof. intros A f l H. induction l as [|x l IH]; cbn [map]; rewrite ?sum_nil, ?sum_cons, ?H; lia. Qed.

Lemma sum_cbuild : forall cmp key upd (g : val -> N) l, (forall x e, g (upd x e) <= g x + g e) ->
  sum (map g (cbuild cmp key upd l)) <= sum (map g l).
Proof.
  intros cmp key upd g l Hg. unfold cbuild.
  assert (G : forall l acc, sum (map g (fold_left (fun a e => cinsert cmp key upd e a) l acc)) <= sum (map g l) + sum (map g acc)).
  { clear l. induction l as [|e l IH]; intros acc; cbn [fold_left map]; rewrite ?sum_nil, ?sum_cons; [lia|].
    eapply N.le_trans; [apply IH|].
    assert (I : sum (map g (cinsert cmp key upd e acc)) <= g e + sum (map g acc)).
    { clear IH. induction acc as [|x acc IH]; cbn [cinsert map]; rewrite ?sum_cons; [lia|].
      specialize (Hg x e). destruct (cmp (key e) (key x)); cbn [map]; rewrite ?sum_cons; lia. }
    lia. }
  specialize (G l []). cbn [map] in G. rewrite sum_nil in G. lia.
Qed.

Section Pays.
Variables (G : N).
Definition F : N := 8 * (1 + G).
Definition pays {A} (c : N) (m : A -> N) (p : prog A) : Prop :=
  forall bs a r, run p bs = Ok (a, r) -> m a + F * len r <= F * len bs + c.

Lemma F8 : 8 <= F.  Proof. unfold F. lia. Qed.
Lemma pays_ret : forall A c (m : A -> N) a, m a <= c -> pays c m (Ret a).
Proof. intros A c m a H bs x r E. apply Ok_inj in E. inversion E; subst. lia. Qed.
Lemma pays_fail : forall A c (m : A -> N) e, pays c m (Fail e).
Proof. intros A c m e bs x r E. discriminate. Qed.
Lemma pays_crash : forall A c (m : A -> N) x, pays c m (Crash x).
Proof. intros A c m e bs x r E. discriminate. Qed.
Lemma pays_bind : forall A B c (m : A -> N) (m' : B -> N) p f, pays c m p -> (forall a, pays (m a) m' (f a)) -> pays c m' (bind p f).
Proof.
  intros A B c m m' p f Hp Hf bs b r E. rewrite run_bind in E. destruct (run p bs) as [[a y]|e|x] eqn:E1; try discriminate.
  apply Hp in E1. apply Hf in E. lia.
Qed.
Lemma pays_mono : forall A c c' (m m' : A -> N) p, c <= c' -> (forall a, m' a <= m a) -> pays c m p -> pays c' m' p.
Proof. intros A c c' m m' p Hc Hm Hp bs a r E. apply Hp in E. specialize (Hm a). lia. Qed.
Lemma pays_frame : forall A c (m : A -> N) x p, pays c m p -> pays (c + x) (fun a => m a + x) p.
Proof. intros A c m x p Hp bs a r E. apply Hp in E. cbn beta. lia. Qed.
Lemma pays_map_err : forall A c (m : A -> N) g p, pays c m p -> pays c m (map_err g p).
Proof.
  intros A c m g p H bs a r E. rewrite run_map_err in E. destruct (run p bs) as [[b y]|e|x] eqn:Er; try discriminate.
  cbn in E. apply Ok_inj in E. inversion E; subst. eapply H; eassumption.
Qed.
Lemma pays_of_res : forall A c (m : A -> N) r, (forall a, r = Ok a -> m a <= c) -> pays c m (of_res r).
Proof.
  intros A c m r H bs a y E. rewrite run_of_res in E. destruct r as [b|e|x]; try discriminate.
  cbn in E. apply Ok_inj in E. inversion E; subst. specialize (H a eq_refl). lia.
Qed.
Lemma pays_read : forall A c (m : A -> N) n e f, (forall x, len x = n -> pays (c + F * n) m (f x)) -> pays c m (Read n e f).
Proof.
  intros A c m n e f H bs a r E. cbn [run] in E. destruct (split_at n bs) as [[x y]|] eqn:Es; [|discriminate].
  apply split_at_some in Es. destruct Es as [-> Hx]. rewrite len_app. apply (H x Hx) in E. rewrite Hx. lia.
Qed.
Lemma pays_bind_read : forall B c (m : B -> N) n f, (forall x, len x = n -> pays (c + F * n) m (f x)) -> pays c m (bind (read_n n) f).
Proof. intros B c m n f H. unfold read_n. cbn [bind]. apply pays_read. exact H. Qed.
(** Any program: nothing lost; a program that reads something: at least one byte. *)
Lemma pays_any : forall A c (p : prog A), pays c (fun _ => c) p.
Proof. intros A c p bs a r E. apply run_len in E. nia. Qed.
Lemma pays_eats : forall A c (p : prog A), eats p -> pays c (fun _ => c + F) p.
Proof. intros A c p H bs a r E. apply H in E. nia. Qed.
Lemma pays_keep : forall A B c (g : A -> N) (m : B -> N) (p : prog A) f, pays 0 g p -> (forall a, pays (g a + c) m (f a)) -> pays c m (bind p f).
Proof.
  intros A B c g m p f H Hf bs b r E. rewrite run_bind in E. destruct (run p bs) as [[a y]|e|x] eqn:E1; try discriminate.
  apply H in E1. apply Hf in E. lia.
Qed.
Lemma pays_keep_c : forall A B c0 c c' (g : A -> N) (m : B -> N) (p : prog A) f, pays c0 g p -> c0 + c <= c' -> (forall a, pays (g a + c) m (f a)) -> pays c' m (bind p f).
Proof.
  intros A B c0 c c' g m p f H Hc Hf bs b r E. rewrite run_bind in E. destruct (run p bs) as [[a y]|e|x] eqn:E1; try discriminate.
  apply H in E1. apply Hf in E. lia.
Qed.
Lemma pays_rep : forall A (g : A -> N) n p, pays 0 g p -> pays 0 (fun l => sum (map g l)) (rep n p).
Proof.
  induction n as [|n IH]; intros p H; cbn [rep]; [apply pays_ret; reflexivity|].
  apply (pays_keep _ _ 0 _ _ _ _ H). intros a. apply (pays_keep _ _ _ _ _ _ _ (IH p H)).
  intros l. apply pays_ret. cbn [map]. rewrite sum_cons. lia.
Qed.
Lemma pays_in_buf : forall A c (m : A -> N) p buf, pays c m p -> pays (c + F * len buf) m (in_buf p buf).
Proof.
  intros A c m p buf H. unfold in_buf. apply pays_of_res. intros a Ha. apply rmap_ok in Ha. destruct Ha as ([b y] & Er & ->).
  cbn [fst]. apply H in Er. lia.
Qed.

(** [p] starts by reading a byte, so the rest may spend [8]. *)
Lemma pays_then : forall A B (m : B -> N) (p : prog A) f, eats p -> (forall a, pays 8 m (f a)) -> pays 0 m (bind p f).
Proof.
  intros A B m p f He Hf. eapply pays_bind; [apply pays_eats, He|]. intros a. pose proof F8. eapply pays_mono; [|intros; reflexivity|apply Hf]. lia.
Qed.
Lemma pays_skip : forall A B c (m : B -> N) (p : prog A) f, (forall a, pays c m (f a)) -> pays c m (bind p f).
Proof. intros A B c m p f H. eapply pays_bind; [apply pays_any|exact H]. Qed.

Lemma eats_len : forall E, eats (de_len E).
Proof. intros E. assert (E64 : eats decode_u64) by (apply eats_bind, eats_read_byte). unfold de_len, de_usize, de_u64. destruct (e_fw E); repeat apply eats_bind; first [exact E64|exact eats_read_byte|apply eats_read_n; reflexivity]. Qed.
Lemma eats_u32 : forall fw, eats (de_u32 fw).
Proof. intros fw. assert (E64 : eats decode_u64) by (apply eats_bind, eats_read_byte). unfold de_u32. destruct fw; repeat apply eats_bind; first [exact E64|exact eats_read_byte|apply eats_read_n; reflexivity]. Qed.
Lemma eats_u16 : forall fw, eats (de_u16 fw).
Proof. intros fw. assert (E64 : eats decode_u64) by (apply eats_bind, eats_read_byte). unfold de_u16. destruct fw; repeat apply eats_bind; first [exact E64|exact eats_read_byte|apply eats_read_n; reflexivity]. Qed.
Lemma eats_char : eats de_char.
Proof. unfold de_char. apply eats_bind, eats_read_byte. Qed.

Variable E : env.
Variable rec : N -> prog val.
Variable recL : N -> val -> N.
Hypothesis Hrec : forall n, pays 0 (fun v => recL n v + 8) (rec n).
Hypothesis Hext : forall c t x y, e_ext E c x = Some y -> load_ty recL t y <= load_ty recL t x.

Definition m_ty (t : ty) (v : val) : N := load_ty recL t v + elem_bits t.
Definition m_pair (a b : ty) (p : val) : N := match p with VPair x y => m_ty a x + m_ty b y | _ => 0 end.

Lemma elem8 : forall t, elem_bits t <= 8.
Proof. intros t. unfold elem_bits. destruct (zero_width t); discriminate. Qed.
Lemma sum_m : forall t l, sum (map (m_ty t) l) = elem_bits t * len l + sum (map (load_ty recL t) l).
Proof. intros t l. unfold m_ty. rewrite (sum_add _ (load_ty recL t) (fun _ => elem_bits t)), sum_const. lia. Qed.
Lemma elem_pair : forall a b, elem_bits (TPair a b) <= elem_bits a + elem_bits b.
Proof. intros a b. unfold elem_bits. cbn [zero_width]. destruct (zero_width a), (zero_width b); cbn; lia. Qed.
Lemma vec_elem : forall t, vec_bits t <= elem_bits t.
Proof. intros t. destruct t; cbn [vec_bits]; try reflexivity. discriminate. Qed.
Definition load_entry (a b : ty) (p : val) : N := match p with VPair x y => load_ty recL a x + load_ty recL b y | _ => 0 end.
Lemma sum_pair : forall a b l, Forall (fun p => exists x y, p = VPair x y) l ->
  elem_bits (TPair a b) * len l + sum (map (load_entry a b) l) <= sum (map (m_pair a b) l).
Proof.
  intros a b l H. induction H as [|p l (x & y & ->) H IH]; cbn [map]; rewrite ?sum_nil, ?sum_cons, ?len_nil, ?len_cons; [lia|].
  cbn [load_entry m_pair]. unfold m_ty. pose proof (elem_pair a b). lia.
Qed.
Lemma cbuild_pairs_form : forall cmp upd l, upd = upd_insert \/ upd = upd_last -> Forall (fun p => exists x y, p = VPair x y) l ->
  Forall (fun p => exists x y, p = VPair x y) (cbuild cmp pkey upd l).
Proof.
  intros cmp upd l Hu Hl. unfold cbuild. assert (Ha : Forall (fun p => exists x y, p = VPair x y) (@nil val)) by constructor. revert Ha. generalize (@nil val).
  induction Hl as [|e l He Hl IH]; intros acc Ha; cbn [fold_left]; [exact Ha|]. apply IH.
  clear - He Ha Hu. induction Ha as [|x acc Hx Ha IH]; cbn [cinsert]; [repeat constructor; exact He|].
  destruct (cmp (pkey e) (pkey x)); constructor; auto. destruct Hu as [-> | ->]; [|exact He]. unfold upd_insert. eauto.
Qed.
Lemma upd_pairs : forall a b upd x e, upd = upd_insert \/ upd = upd_last -> (exists x1 x2, x = VPair x1 x2) -> (exists x1 x2, e = VPair x1 x2) ->
  m_pair a b (upd x e) <= m_pair a b x + m_pair a b e.
Proof.
  intros a b upd x e [-> | ->] (x1 & x2 & ->) (e1 & e2 & ->); cbn; lia.
Qed.
(** As [sum_cbuild], for entries. *)
Lemma sum_cbuild_pairs : forall a b cmp upd l, upd = upd_insert \/ upd = upd_last -> Forall (fun p => exists x y, p = VPair x y) l ->
  sum (map (m_pair a b) (cbuild cmp pkey upd l)) <= sum (map (m_pair a b) l).
Proof.
  intros a b cmp upd l Hu Hl.
  set (g := fun p => m_pair a b p). pose (P := fun p : val => exists x y, p = VPair x y).
  assert (Q : forall l acc, Forall P l -> Forall P acc ->
    sum (map g (fold_left (fun a e => cinsert cmp pkey upd e a) l acc)) <= sum (map g l) + sum (map g acc)).
  { clear l Hl. induction l as [|e l IH]; intros acc Hl Ha; cbn [fold_left map]; rewrite ?sum_nil, ?sum_cons; [lia|].
    inversion Hl as [|? ? He Hl']; subst.
    assert (I : sum (map g (cinsert cmp pkey upd e acc)) <= g e + sum (map g acc) /\ Forall P (cinsert cmp pkey upd e acc)).
    { clear IH Hl. induction Ha as [|x acc Hx Ha IH]; cbn [cinsert map]; rewrite ?sum_cons; [split; [lia|repeat constructor; exact He]|].
      destruct IH as [I1 I2]. pose proof (upd_pairs a b upd x e Hu Hx He) as Hg. fold (g (upd x e)) (g x) (g e) in Hg.
      destruct (cmp (pkey e) (pkey x)); cbn [map]; rewrite ?sum_cons; (split; [lia|]); repeat (constructor; auto).
      destruct Hu as [-> | ->]; [|exact He]. unfold upd_insert. red; eauto. }
    eapply N.le_trans; [apply IH; [exact Hl'|apply I]|]. lia. }
  specialize (Q l [] Hl (Forall_nil _)). cbn [map] in Q. rewrite sum_nil in Q. unfold cbuild. fold g. lia.
Qed.
Lemma sum_cbuild_set : forall t cmp k l, sum (map (m_ty t) (cbuild cmp vid (match k with KHash => upd_first | KOrd => upd_last end) l)) <= sum (map (m_ty t) l).
Proof. intros t cmp k l. apply sum_cbuild. intros x e. destruct k; unfold upd_first, upd_last; lia. Qed.

Lemma chunks_length : forall n w bs, (length (chunks n w bs) <= n)%nat.
Proof. induction n as [|n IH]; intros w bs; cbn [chunks]; [apply le_n|]. destruct (split_at w bs) as [[x y]|]; cbn; [specialize (IH w y)|]; lia. Qed.

Lemma unpack_len : forall x n, N.of_nat n <= 8 * len x -> length (unpack n x) = n.
Proof.
  induction x as [|b x IH]; intros n H; cbn [unpack].
  - rewrite len_nil in H. cbn. lia.
  - rewrite len_cons in H. rewrite app_length, firstn_length, IH by lia. unfold bits8. rewrite map_length. cbn [length]. lia.
Qed.

Lemma bulk_load : forall t k, bulk_of t = Some k -> (forall v, load_ty recL t v = 0) /\ elem_bits t = 8 /\ (k = BBool \/ k <> BBool /\ vec_bits t = 8) /\ (k = BBool -> vec_bits t = 1).
Proof. intros t k H. destruct t; try discriminate; try destruct i; cbn in H; inversion H; subst; cbn; repeat split; auto; try (right; split; [discriminate|reflexivity]); discriminate. Qed.

Lemma pays_str : forall t, t = TStr \/ t = TPath -> pays 0 (m_ty t) (de_str E).
Proof.
  intros t Ht. pose proof F8 as HF. assert (Hm : forall b, m_ty t (VBytes b) = 8 * len b + 8) by (intros b; destruct Ht as [-> | ->]; reflexivity).
  unfold de_str. apply pays_then; [apply eats_len|]. intros n. destruct (n =? 0); [apply pays_ret; rewrite Hm, len_nil; lia|].
  apply pays_skip. intros _. apply pays_bind_read. intros x Hx. destruct (utf8_ok x); [|apply pays_fail]. apply pays_ret. rewrite Hm, Hx. nia.
Qed.
Lemma pays_blob : pays 0 (fun b => 8 * len b + 8) (de_blob E).
Proof.
  pose proof F8 as HF. unfold de_blob. apply pays_then; [apply eats_len|]. intros n. destruct (n =? 0); [apply pays_ret; rewrite len_nil; lia|].
  apply pays_skip. intros _. intros bs x r H. apply run_read_n_ok in H. destruct H as [-> Hx]. rewrite len_app, Hx. nia.
Qed.
Lemma pays_bulk : forall t k, bulk_of t = Some k -> pays 0 (fun l => m_ty (TVec t) (VSeq l)) (de_bulk E k).
Proof.
  intros t k Hb. pose proof F8 as HF. destruct (bulk_load t k Hb) as (L0 & L8 & LV & LB).
  assert (Hm : forall l, m_ty (TVec t) (VSeq l) = vec_bits t * len l + 8).
  { intros l. unfold m_ty. cbn [load_ty]. rewrite sum_zero by exact L0. cbn. lia. }
  pose proof (vec_elem t) as Hve. rewrite L8 in Hve.
  unfold de_bulk. apply pays_then; [apply eats_len|]. intros n. destruct (n =? 0); [apply pays_ret; rewrite Hm, len_nil; lia|].
  destruct k as [|s w|[]].
  - apply pays_skip. intros _. apply pays_bind_read. intros x Hx. apply pays_skip. intros _. apply pays_ret. rewrite Hm, len_map, (LB eq_refl).
    assert (Hd : n <= 8 * div_ceil8 n) by (unfold div_ceil8; pose proof (N.div_mod (n + 7) 8 ltac:(discriminate)); pose proof (N.mod_lt (n + 7) 8 ltac:(discriminate)); lia).
    assert (Hu : length (unpack (N.to_nat n) x) = N.to_nat n) by (apply unpack_len; rewrite Hx, N2Nat.id; exact Hd).
    unfold len at 1. rewrite Hu, N2Nat.id. nia.
  - destruct (n * N.of_nat w <? 2 ^ e_ub E); [|apply pays_fail]. apply pays_skip. intros _. apply pays_bind_read. intros x Hx. apply pays_ret.
    rewrite Hm, len_map. pose proof (chunks_length (N.to_nat n) (N.of_nat w) x) as Hc. unfold len. set (c := length _) in *.
    assert (Hw : (0 < w)%nat) by (destruct t; try discriminate; try destruct i; cbn in Hb; inversion Hb; subst; lia).
    assert (Hl : N.of_nat c <= n) by lia. assert (Hn : n <= n * N.of_nat w) by nia. nia.
  - apply pays_skip. intros _. eapply pays_mono; [| |apply (pays_frame _ 0 (fun l => sum (map (fun _ => 8) l)) 8)].
    + reflexivity.
    + intros l. cbn beta. rewrite Hm, sum_const. nia.
    + apply (pays_rep _ (fun _ : val => 8)). apply pays_bind_read. intros x Hx. apply pays_ret. lia.
  - destruct (n * 16 <? 2 ^ e_ub E); [|apply pays_fail]. apply pays_skip. intros _. apply pays_bind_read. intros x Hx. apply pays_ret.
    rewrite Hm, len_map. pose proof (chunks_length (N.to_nat n) 16 x) as Hc. unfold len. set (c := length _) in *.
    assert (Hl : N.of_nat c <= n) by lia. nia.
Qed.
Lemma pays_seq : forall A sz (g : A -> N) p, True -> pays 0 g p -> forall (q : prog (list A)), q = (n <- de_len E ;; if n =? 0 then Ret [] else alloc E (n * sz) ;;; rep (N.to_nat n) p) ->
  pays 0 (fun l => sum (map g l) + 8) q.
Proof.
  intros A sz g p _ H q ->. apply pays_then; [apply eats_len|]. intros n. destruct (n =? 0); [apply pays_ret; cbn [map]; rewrite sum_nil; reflexivity|].
  apply pays_skip. intros _. apply (pays_frame _ 0). apply pays_rep, H.
Qed.
Lemma pays_entry : forall a b, pays 0 (m_ty a) (de_ty E rec a) -> pays 0 (m_ty b) (de_ty E rec b) -> pays 0 (m_pair a b) (de_entry (de_ty E rec a) (de_ty E rec b)).
Proof.
  intros a b Ha Hb. unfold de_entry. apply (pays_keep _ _ 0 _ _ _ _ Ha). intros x. apply (pays_keep _ _ _ _ _ _ _ Hb). intros y. apply pays_ret. cbn [m_pair]. lia.
Qed.

Lemma rep_pairs : forall n a b bs l r, run (rep n (de_entry a b)) bs = Ok (l, r) -> Forall (fun p => exists x y, p = VPair x y) l.
Proof.
  induction n as [|n IH]; intros a b bs l r H; cbn [rep] in H.
  - apply Ok_inj in H. inversion H; subst. constructor.
  - rewrite run_bind in H. destruct (run (de_entry a b) bs) as [[p y]|e|x] eqn:E1; try discriminate.
    rewrite run_bind in H. destruct (run (rep n (de_entry a b)) y) as [[l' z]|e|x] eqn:E2; try discriminate.
    apply Ok_inj in H. inversion H; subst. constructor; [|eapply IH; exact E2].
    unfold de_entry in E1. rewrite run_bind in E1. destruct (run a bs) as [[x1 y1]|e|x] eqn:Ea; try discriminate.
    rewrite run_bind in E1. destruct (run b y1) as [[x2 y2]|e|x] eqn:Eb; try discriminate. apply Ok_inj in E1. inversion E1; subst. eauto.
Qed.
(** Programs that return entries return pairs. *)
Definition returns {A} (P : A -> Prop) (p : prog A) : Prop := forall bs a r, run p bs = Ok (a, r) -> P a.
Lemma returns_bind : forall A B (P : B -> Prop) (p : prog A) f, (forall a, returns P (f a)) -> returns P (bind p f).
Proof. intros A B P p f H bs b r E0. rewrite run_bind in E0. destruct (run p bs) as [[a y]|e|x]; try discriminate. eapply H; exact E0. Qed.
Lemma returns_ret : forall A (P : A -> Prop) a, P a -> returns P (Ret a).
Proof. intros A P a H bs b r E0. apply Ok_inj in E0. inversion E0; subst. exact H. Qed.
Lemma pays_returns : forall A B c (m : A -> N) (m' : B -> N) (P : A -> Prop) p f, pays c m p -> returns P p -> (forall a, P a -> pays (m a) m' (f a)) -> pays c m' (bind p f).
Proof.
  intros A B c m m' P p f Hp HP Hf bs b r E0. rewrite run_bind in E0. destruct (run p bs) as [[a y]|e|x] eqn:E1; try discriminate.
  apply (Hf a (HP _ _ _ E1)) in E0. apply Hp in E1. lia.
Qed.

Lemma pays_map_build : forall k a b cmp upd l c, upd = upd_insert \/ upd = upd_last -> Forall (fun p => exists x y, p = VPair x y) l ->
  sum (map (m_pair a b) l) + 8 <= c -> m_ty (TMap k a b) (VSeq (cbuild cmp pkey upd l)) <= c.
Proof.
  intros k a b cmp upd l c Hu Hl Hc. unfold m_ty. cbn [load_ty].
  pose proof (sum_cbuild_pairs a b cmp upd l Hu Hl) as H1. pose proof (sum_pair a b _ (cbuild_pairs_form cmp upd l Hu Hl)) as H2.
  change (elem_bits (TMap k a b)) with 8. unfold load_entry in H2. lia.
Qed.

Lemma pays_ty : forall t, pays 0 (m_ty t) (de_ty E rec t).
Proof.
  pose proof F8 as HF.
  induction t; cbn [de_ty].
  - apply pays_then; [apply eats_read_byte|]. intros b. destruct (b =? 0); [|destruct (b =? 1)]; try apply pays_fail; apply pays_ret; reflexivity.
  - apply pays_then; [apply eats_int|]. intros z. apply pays_ret; reflexivity.
  - apply pays_then; [apply eats_read_n; reflexivity|]. intros z. apply pays_ret; reflexivity.
  - apply pays_then; [apply eats_read_n; reflexivity|]. intros z. apply pays_ret; reflexivity.
  - apply pays_then; [apply eats_char|]. intros z. apply pays_ret; reflexivity.
  - apply pays_str; auto.
  - apply pays_str; auto.
  - eapply pays_bind; [apply pays_blob|]. intros b. apply pays_ret. reflexivity.
  - apply pays_then; [apply eats_read_n; reflexivity|]. intros z. apply pays_ret; reflexivity.
  - apply pays_then; [apply eats_read_n; reflexivity|]. intros z. apply pays_ret; reflexivity.
  - apply pays_ret. reflexivity.
  - apply (pays_keep _ _ 0 _ _ _ _ IHt1). intros x. apply (pays_keep _ _ _ _ _ _ _ IHt2). intros y. apply pays_ret. unfold m_ty. cbn [load_ty]. pose proof (elem_pair t1 t2). lia.
  - assert (HS : pays 0 (m_ty (TVec t)) (l <- de_seq E (e_esize E t) (de_ty E rec t) ;; Ret (VSeq l))).
    { eapply pays_bind; [eapply pays_seq; [exact I|exact IHt|reflexivity]|]. intros l. apply pays_ret. rewrite sum_m. unfold m_ty. cbn [load_ty].
      pose proof (vec_elem t). change (elem_bits (TVec t)) with 8. nia. }
    destruct (e_spec E); [|exact HS]. destruct (bulk_of t) as [k|] eqn:Hb; [|exact HS].
    eapply pays_bind; [apply pays_bulk, Hb|]. intros l. apply pays_ret. reflexivity.
  - eapply pays_bind; [eapply pays_seq; [exact I|exact IHt|reflexivity]|]. intros l. apply pays_ret. rewrite sum_m. unfold m_ty. cbn [load_ty]. change (elem_bits (TImVec t)) with 8. lia.
  - assert (Hn : returns (fun l => length l = n) (rep n (de_ty E rec t))).
    { clear. induction n as [|n IH]; cbn [rep]; [apply returns_ret; reflexivity|]. apply returns_bind. intros a bs l r H. rewrite run_bind in H.
      destruct (run (rep n (de_ty E rec t)) bs) as [[l' z]|e|x] eqn:E2; try discriminate. apply Ok_inj in H. inversion H; subst. cbn. f_equal. eapply IH; exact E2. }
    eapply pays_returns; [apply pays_rep, IHt|exact Hn|]. intros l Hl. cbn beta in Hl. apply pays_ret. rewrite sum_m. unfold m_ty. cbn [load_ty]. unfold elem_bits at 1. cbn [zero_width].
    destruct (n =? 0)%nat eqn:E0; cbn [orb]; [lia|]. apply Nat.eqb_neq in E0. unfold elem_bits. destruct (zero_width t); [lia|]. unfold len. lia.
  - apply pays_then; [apply eats_read_byte|]. intros b. destruct (b =? 0); [apply pays_ret; reflexivity|]. destruct (b =? 1); [|apply pays_fail].
    apply (pays_keep _ _ _ _ _ _ _ IHt). intros x. apply pays_ret. unfold m_ty. cbn [load_ty map]. rewrite sum_cons, sum_nil. change (elem_bits (TOption t)) with 8. lia.
  - apply pays_then; [apply eats_u32|]. intros b. destruct (b =? 0); [|destruct (b =? 1); [|apply pays_fail]].
    + apply (pays_keep _ _ _ _ _ _ _ (pays_map_err _ _ _ _ _ IHt1)). intros x. apply pays_ret. unfold m_ty. cbn [load_ty map N.eqb]. rewrite sum_cons, sum_nil. change (elem_bits (TResult t1 t2)) with 8. lia.
    + apply (pays_keep _ _ _ _ _ _ _ (pays_map_err _ _ _ _ _ IHt2)). intros x. apply pays_ret. unfold m_ty. cbn [load_ty map N.eqb]. rewrite sum_cons, sum_nil. change (elem_bits (TResult t1 t2)) with 8. lia.
  - apply pays_then; [apply eats_u32|]. intros b. destruct (b =? 0); [apply pays_ret; reflexivity|]. destruct (b =? 1); [|destruct (b =? 2); [|apply pays_fail]];
      (apply (pays_keep _ _ _ _ _ _ _ (pays_map_err _ _ _ _ _ IHt)); intros x; apply pays_ret; unfold m_ty; cbn [load_ty map]; rewrite sum_cons, sum_nil; change (elem_bits (TBound t)) with 8; lia).
  - eapply pays_returns; [eapply pays_seq; [exact I|apply pays_entry; [exact IHt1|exact IHt2]|reflexivity]| |].
    + instantiate (1 := Forall (fun p => exists x y, p = VPair x y)). unfold de_seq. apply returns_bind. intros n. destruct (n =? 0); [apply returns_ret; constructor|]. apply returns_bind. intros _ bs l r H. eapply rep_pairs; exact H.
    + intros l Hl. apply pays_ret. unfold build_map. apply pays_map_build; [destruct k; auto|exact Hl|lia].
  - eapply pays_bind; [eapply pays_seq; [exact I|exact IHt|reflexivity]|]. intros l. apply pays_ret. cbn beta. unfold build_set.
    pose proof (sum_cbuild_set t (e_cmp E t) k l) as H. rewrite (sum_m t (cbuild _ _ _ _)) in H. unfold m_ty at 1. cbn [load_ty]. change (elem_bits (TSet k t)) with 8. lia.
  - eapply pays_bind; [eapply pays_seq; [exact I|exact IHt|reflexivity]|]. intros l. apply pays_ret. cbn beta.
    assert (H : sum (map (m_ty t) (ssort vcmp l)) = sum (map (m_ty t) l)) by (apply sum_perm, Permutation_map, ssort_perm).
    rewrite sum_m in H. unfold m_ty at 1. cbn [load_ty]. change (elem_bits (THeap t)) with 8. lia.
  - exact IHt.
  - apply pays_then; [apply eats_int|]. intros s. apply pays_skip. intros n. apply pays_of_res. intros v _. reflexivity.
  - apply pays_then; [apply eats_int|]. intros s. apply pays_skip. intros n. apply pays_skip. intros d. apply pays_of_res. intros v _. reflexivity.
  - apply (pays_keep _ _ 0 _ _ _ _ IHt). intros x. destruct (e_ext E c x) as [y|] eqn:Ex; [|apply pays_fail]. apply pays_ret.
    specialize (Hext c t x y Ex). unfold m_ty. cbn [load_ty]. change (elem_bits (TExt c mirror t)) with (elem_bits t). lia.
  - apply Hrec.
Qed.

Lemma pays_idx_seq : forall t, pays 0 (fun l => sum (map (m_ty t) l) + 8) (de_idx_seq E t (de_ty E rec t)).
Proof.
  intros t. unfold de_idx_seq. apply pays_then; [apply eats_read_byte|]. intros fl. apply pays_skip. intros n.
  destruct (N.land fl 1 =? 0).
  - apply pays_skip. intros _. apply (pays_frame _ 0). apply pays_rep, pays_ty.
  - destruct (n * 4 <? 2 ^ e_ub E); [|apply pays_fail]. apply pays_skip. intros _. apply pays_skip. intros _. apply (pays_frame _ 0). apply pays_rep, pays_ty.
Qed.
Lemma sum_combine : forall a b ks vs,
  sum (map (m_pair a b) (map (fun p => VPair (fst p) (snd p)) (combine ks vs))) <= sum (map (m_ty a) ks) + sum (map (m_ty b) vs).
Proof.
  intros a b. induction ks as [|x ks IH]; intros vs; cbn [combine map]; rewrite ?sum_nil, ?sum_cons; [lia|].
  destruct vs as [|y vs]; cbn [combine map fst snd]; rewrite ?sum_nil, ?sum_cons; [lia|]. specialize (IH vs). cbn [m_pair]. lia.
Qed.
Lemma pays_idx_map : forall k a b, pays 0 (fun l => m_ty (TMap k a b) (VSeq l)) (de_idx_map E k a b (de_ty E rec a) (de_ty E rec b)).
Proof.
  intros k a b. unfold de_idx_map. apply pays_then; [apply eats_read_byte|]. intros fl. apply pays_skip. intros n. apply pays_skip. intros _.
  destruct (N.land fl 1 =? 0).
  - eapply pays_returns; [apply (pays_frame _ 0 (fun l => sum (map (m_pair a b) l)) 8), pays_rep, pays_entry; apply pays_ty|intros bs l r H; eapply rep_pairs; exact H|].
    intros l Hl. apply pays_ret. unfold build_idx_map. apply pays_map_build; [auto|exact Hl|lia].
  - destruct (n * 8 <? 2 ^ e_ub E); [|apply pays_fail]. apply pays_skip. intros m. apply pays_skip. intros _. apply pays_skip. intros _.
    apply (pays_keep _ _ _ _ _ _ _ (pays_rep _ _ _ _ (pays_ty a))). intros ks. apply pays_skip. intros _.
    apply (pays_keep _ _ _ _ _ _ _ (pays_rep _ _ _ _ (pays_ty b))). intros vs. apply pays_ret. unfold build_idx_map. apply pays_map_build; [auto| |].
    + apply Forall_forall. intros p Hp. apply in_map_iff in Hp. destruct Hp as ([x y] & <- & _). cbn. eauto.
    + pose proof (sum_combine a b ks vs). lia.
Qed.
Lemma pays_mode : forall m t, pays 0 (m_ty t) (de_mode E rec m t).
Proof.
  intros m t. destruct m; cbn [de_mode].
  - replace (match t with TBool | _ => de_ty E rec t end) with (de_ty E rec t) by (destruct t; reflexivity). apply pays_ty.
  - replace (match t with TBool | _ => match fixed_of t with Some (s, w) => z <- de_fixed s w;; Ret (VInt z) | None => Crash PType end end)
      with (match fixed_of t with Some (s, w) => z <- de_fixed s w;; Ret (VInt z) | None => Crash PType end) by (destruct t; reflexivity).
    destruct (fixed_of t) as [[s w]|] eqn:Ef; [|apply pays_crash].
    assert (Hb : (forall z, m_ty t (VInt z) = 8) /\ (0 < w)%nat) by (destruct t; try discriminate; destruct i; cbn in Ef; inversion Ef; subst; split; (reflexivity || lia)).
    destruct Hb as [Hb Hw]. apply pays_then; [unfold de_fixed; apply eats_bind, eats_read_n; lia|]. intros z. apply pays_ret. rewrite Hb. reflexivity.
  - destruct t; try apply pays_crash. destruct (bulk_of t) as [k|] eqn:Hb; [|apply pays_crash].
    eapply pays_bind; [apply pays_bulk; exact Hb|]. intros l. apply pays_ret. reflexivity.
  - destruct t; try apply pays_crash. eapply pays_bind; [apply pays_idx_map|]. intros l. apply pays_ret. reflexivity.
  - destruct t; try apply pays_crash; (eapply pays_bind; [apply pays_idx_seq|]; intros l; apply pays_ret; rewrite sum_m; unfold m_ty; cbn [load_ty]).
    + pose proof (vec_elem t). change (elem_bits (TVec t)) with 8. nia.
    + change (elem_bits (TImVec t)) with 8. lia.
  - destruct t; try apply pays_crash. eapply pays_bind; [apply pays_idx_seq|]. intros l. apply pays_ret. unfold build_set.
    pose proof (sum_cbuild_set t (e_cmp E t) k l) as H. rewrite (sum_m t (cbuild _ _ _ _)) in H. unfold m_ty at 1. cbn [load_ty]. change (elem_bits (TSet k t)) with 8. lia.
Qed.

Definition defs (cur tgt : N) (fs : list field) : N :=
  sum (map (fun f => match f_default f cur with Ok v => load_ty recL (f_ty f) v | _ => 0 end) (filter (fun f => negb (falive cur f) && falive tgt f) fs)).
Definition rest_load (q : list (field * val)) : N := sum (map (fun p => load_ty recL (f_ty (fst p)) (snd p)) q).
Lemma pays_mode_load : forall m t, pays 0 (load_ty recL t) (de_mode E rec m t).
Proof. intros m t. eapply pays_mono; [reflexivity| |apply pays_mode]. intros v. unfold m_ty. cbn beta. lia. Qed.
Lemma pays_fields : forall opt cur tgt fs, pays (defs cur tgt fs) (fun p => load_fields recL tgt fs (fst p) + rest_load (snd p)) (de_fields E rec opt cur tgt fs).
Proof.
  intros opt cur tgt. unfold load_fields, defs, rest_load. induction fs as [|f fs IH]; cbn [de_fields filter].
  - apply pays_ret. reflexivity.
  - destruct (falive cur f) eqn:F1; cbn [negb andb].
    + destruct (falive tgt f) eqn:F2.
      * apply (pays_keep _ _ _ _ _ _ _ (pays_mode_load _ _)). intros v. apply (pays_keep_c _ _ _ (load_ty recL (f_ty f) v) _ _ _ _ _ IH); [lia|].
        intros p. apply pays_ret. cbn [fst snd map load_tys]. lia.
      * apply (pays_keep _ _ _ _ _ _ _ (pays_mode_load _ _)). intros v. apply (pays_keep_c _ _ _ (load_ty recL (f_ty f) v) _ _ _ _ _ IH); [lia|].
        intros p. apply pays_ret. cbn [fst snd map load_tys]. rewrite sum_cons. cbn [fst snd]. lia.
    + destruct (falive tgt f) eqn:F2; [|exact IH]. cbn [map]. rewrite sum_cons.
      intros bs p r H. rewrite run_bind, run_of_res in H. destruct (f_default f cur) as [v|e|x]; try discriminate.
      cbn [rbind rmap] in H. rewrite run_bind in H. destruct (run (de_fields E rec opt cur tgt fs) bs) as [[p' y]|e|x] eqn:E1; try discriminate.
      apply IH in E1. apply Ok_inj in H. inversion H; subst. cbn [fst snd map load_tys] in *. lia.
Qed.
Lemma fields_removed : forall opt cur tgt fs0 fs, (forall f, In f fs -> In f fs0) ->
  returns (fun p => forall f v, In (f, v) (snd p) -> In f fs0 /\ falive cur f = true /\ falive tgt f = false) (de_fields E rec opt cur tgt fs).
Proof.
  intros opt cur tgt fs0 fs Hin. induction fs as [|f fs IH]; cbn [de_fields].
  - apply returns_ret. intros f v [].
  - specialize (IH (fun g Hg => Hin g (or_intror Hg))).
    assert (K : forall (g : list val * list (field * val) -> list val * list (field * val)) , (forall p f' v, In (f', v) (snd (g p)) -> In (f', v) (snd p) \/ f' = f /\ falive cur f = true /\ falive tgt f = false) ->
      returns (fun p => forall f v, In (f, v) (snd p) -> In f fs0 /\ falive cur f = true /\ falive tgt f = false) (p <- de_fields E rec opt cur tgt fs ;; Ret (g p))).
    { intros g Hg bs p r H. rewrite run_bind in H. destruct (run (de_fields E rec opt cur tgt fs) bs) as [[p' y]|e|x] eqn:E1; try discriminate.
      apply IH in E1. apply Ok_inj in H. inversion H; subst. intros f' v Hf. apply Hg in Hf. destruct Hf as [Hf|(-> & H1 & H2)]; [eauto|]. split; [apply Hin; left; reflexivity|auto]. }
    destruct (falive cur f) eqn:F1; destruct (falive tgt f) eqn:F2; try exact IH; apply returns_bind; intros v.
    + apply (K (fun p => (v :: fst p, snd p))). cbn. auto.
    + apply (K (fun p => (fst p, (f, v) :: snd p))). cbn. intros p f' v' [Hf|Hf]; [inversion Hf; auto|auto].
    + apply (K (fun p => (v :: fst p, snd p))). cbn. auto.
Qed.
Lemma converts_load : forall cur tgt fs q l l',
  (forall f l v l', In f fs -> falive cur f = true -> falive tgt f = false -> f_convert f l cur v = Ok l' ->
     load_fields recL tgt fs l' <= load_fields recL tgt fs l + load_ty recL (f_ty f) v) ->
  (forall f v, In (f, v) q -> In f fs /\ falive cur f = true /\ falive tgt f = false) -> converts cur l q = Ok l' ->
  load_fields recL tgt fs l' <= load_fields recL tgt fs l + rest_load q.
Proof.
  intros cur tgt fs q l l' Hc. revert l. induction q as [|[f v] q IH]; intros l Hr H; cbn [converts] in H.
  - apply Ok_inj in H. subst. lia.
  - apply rbind_ok in H. destruct H as (l1 & H1 & H2). destruct (Hr f v) as (R1 & R2 & R3); [left; reflexivity|].
    specialize (Hc f l v l1 R1 R2 R3 H1). specialize (IH l1 (fun f v Hf => Hr f v (or_intror Hf)) H2). unfold rest_load in *. cbn [map]. rewrite sum_cons. cbn [fst snd]. lia.
Qed.
Lemma pays_finish : forall opt cur tgt fs c m (g : list val -> prog val),
  (forall f l v l', In f fs -> falive cur f = true -> falive tgt f = false -> f_convert f l cur v = Ok l' ->
     load_fields recL tgt fs l' <= load_fields recL tgt fs l + load_ty recL (f_ty f) v) ->
  (forall l, pays (load_fields recL tgt fs l + c) m (g l)) ->
  pays (defs cur tgt fs + c) m (p <- de_fields E rec opt cur tgt fs ;; l <- of_res (converts cur (fst p) (snd p)) ;; g l).
Proof.
  intros opt cur tgt fs c m g Hc Hg. eapply pays_returns; [apply pays_frame, pays_fields|apply (fields_removed opt cur tgt fs fs); auto|].
  intros p Hp. cbn beta in Hp |- *. eapply pays_bind; [|exact Hg]. apply pays_of_res. intros l Hl. pose proof (converts_load cur tgt fs _ _ _ Hc Hp Hl). lia.
Qed.
Lemma pays_vfields : forall cur fs, pays 0 (load_fields recL cur fs) (de_vfields E rec cur fs).
Proof.
  intros cur. unfold load_fields. induction fs as [|f fs IH]; cbn [de_vfields filter]; [apply pays_ret; reflexivity|].
  destruct (falive cur f); [|exact IH].
  assert (H : pays 0 (load_ty recL (f_ty f)) (de_ty E rec (f_ty f))) by (eapply pays_mono; [reflexivity| |apply pays_ty]; intros v; unfold m_ty; cbn beta; lia).
  apply (pays_keep _ _ 0 _ _ _ _ H). intros v. apply (pays_keep _ _ _ _ _ _ _ IH). intros l. apply pays_ret. cbn [map load_tys]. lia.
Qed.

Variables (s : schema) (r : N).
Hypothesis Hwf : wf_schema s.
Hypothesis Hdef : forall h fs, sent s r = Some h -> field_list s fs -> defs r (scur s) fs <= 8 * G.
Hypothesis Hconv : forall h fs f l v l', sent s r = Some h -> field_list s fs -> In f fs -> falive r f = true -> falive (scur s) f = false ->
  f_convert f l r v = Ok l' -> load_fields recL (scur s) fs l' <= load_fields recL (scur s) fs l + load_ty recL (f_ty f) v.
Hypothesis Hvconv : forall h vs vr l v, sent s r = Some h -> s_body s = SEnum vs -> In vr vs -> valive r vr = true -> valive (scur s) vr = false ->
  v_convert vr l r = Ok v -> load_derived recL s v <= load_fields recL (if h_opt h then r else scur s) (v_fields vr) l + 8 * G.
Hypothesis Hstable : forall vs vr r h, s_body s = SEnum vs -> In vr vs ->
  sent s r = Some h -> h_opt h = true -> valive r vr = true -> valive (scur s) vr = true ->
  map f_ty (filter (falive r) (v_fields vr)) = map f_ty (filter (falive (scur s)) (v_fields vr)).

Lemma load_variant : forall vs vr l, s_body s = SEnum vs -> In vr vs -> load_derived recL s (VVar (v_name vr) l) = load_fields recL (scur s) (v_fields vr) l.
Proof.
  intros vs vr l Eb Hin. destruct Hwf as (_ & _ & Hb). unfold load_derived. rewrite Eb in *. destruct Hb as (Hn & _ & _).
  destruct (find (fun vr0 => v_name vr0 =? v_name vr) vs) as [vr'|] eqn:Ef.
  - apply find_some in Ef. destruct Ef as [E1 E2]. apply N.eqb_eq in E2. assert (vr' = vr) by (eapply (NoDup_map_inj _ _ v_name); eauto). subst vr'. reflexivity.
  - apply find_none with (x := vr) in Ef; [|exact Hin]. cbn beta in Ef. rewrite N.eqb_refl in Ef. discriminate.
Qed.

Lemma pays_body : pays (8 * G) (load_derived recL s) (de_body E rec s r).
Proof.
  assert (HFG : 8 * G <= F) by (unfold F; lia).
  unfold de_body. assert (exists o, sent s r = o) as (o & Eh) by eauto. rewrite Eh. destruct o as [h|]; [|apply pays_fail].
  pose proof Hwf as (_ & _ & Hb).
  assert (exists b, s_body s = b) as (b & Eb) by eauto. rewrite Eb in Hb |- *.
  destruct b as [fs|vs].
  - assert (Hl : field_list s fs) by (unfold field_list; rewrite Eb; reflexivity). pose proof (Hdef h fs Eh Hl) as HD.
    assert (Hfin : forall opt, pays (8 * G) (load_derived recL s) (p <- de_fields E rec opt r (scur s) fs ;; l <- of_res (converts r (fst p) (snd p)) ;; Ret (VSeq l))).
    { intros opt. eapply (pays_mono _ (defs r (scur s) fs + 0)); [lia|intros; apply N.le_refl|]. apply pays_finish; [intros; eapply (Hconv h fs); eassumption|].
      intros l. apply pays_ret. unfold load_derived. rewrite Eb. lia. }
    destruct (h_opt h); [|apply Hfin].
    unfold de_struct_opt, struct_payload. apply pays_skip. intros n. apply pays_skip. intros _. apply pays_bind_read. intros buf Hbuf. rewrite <- Hbuf.
    apply pays_in_buf. apply pays_skip. intros _. apply Hfin.
  - destruct Hb as (Hn & _ & Hr). destruct (Hr _ _ Eh) as (ds & Hds & _ & _).
    assert (Hi : forall p, In p ds -> In (fst p) vs /\ valive r (fst p) = true).
    { intros p Hp. assert (H : In (fst p) (map fst ds)) by (apply in_map; exact Hp). rewrite (calc_disc_fst _ _ _ Hds) in H.
      apply filter_In in H. exact H. }
    assert (Hl : forall vr, In vr vs -> field_list s (v_fields vr)) by (intros vr H; unfold field_list; rewrite Eb; eauto).
    destruct (h_opt h) eqn:Eo.
    + unfold de_enum_opt. rewrite Hds. apply pays_skip. intros ts.
      destruct (find_tag _ _ ds) as [[vr d]|] eqn:Ef; [|apply pays_fail].
      apply find_some in Ef. destruct Ef as [Ef1 _]. apply Hi in Ef1. cbn [fst] in Ef1. destruct Ef1 as [Hin Ha].
      unfold de_variant_opt. eapply (pays_bind _ _ _ (fun buf => 8 * G + F * len buf)).
      * destruct (v_size vr) as [[|n|]|]; cbn [variant_buf].
        -- apply pays_ret. rewrite len_nil. lia.
        -- apply pays_skip. intros _. intros bs x y H. apply run_read_n_ok in H. destruct H as [-> Hx]. rewrite len_app. lia.
        -- apply pays_skip. intros n. apply pays_skip. intros _. intros bs x y H. apply run_read_n_ok in H. destruct H as [-> Hx]. rewrite len_app. lia.
        -- apply pays_crash.
      * intros buf. apply (pays_bind _ _ _ (fun l => load_fields recL r (v_fields vr) l + 8 * G)); [apply pays_in_buf; apply (pays_frame _ 0), pays_vfields|]. intros l.
        destruct (valive (scur s) vr) eqn:Hc.
        -- apply pays_ret. rewrite (load_variant vs vr l Eb Hin). unfold load_fields.
           rewrite (Hstable vs vr r h Eb Hin Eh Eo Ha Hc). lia.
        -- apply pays_of_res. intros v Hv. pose proof (Hvconv h vs vr l v Eh Eb Hin Ha Hc Hv) as Q. rewrite Eo in Q. exact Q.
    + unfold de_enum_legacy. rewrite Hds. eapply pays_bind; [apply pays_eats, eats_u32|]. intros d.
      destruct (find_disc d ds) as [[vr d']|] eqn:Ef; [|apply pays_fail].
      apply find_some in Ef. destruct Ef as [Ef1 _]. apply Hi in Ef1. cbn [fst] in Ef1. destruct Ef1 as [Hin Ha].
      pose proof (Hdef h (v_fields vr) Eh (Hl vr Hin)) as HD.
      unfold de_variant_legacy. eapply (pays_mono _ (defs r (scur s) (v_fields vr) + 8 * G)); [lia|intros; apply N.le_refl|].
      apply pays_finish; [intros; eapply (Hconv h (v_fields vr)); eauto|].
      intros l. destruct (valive (scur s) vr) eqn:Hc.
      * apply pays_ret. rewrite (load_variant vs vr l Eb Hin). lia.
      * apply pays_of_res. intros v Hv. pose proof (Hvconv h vs vr l v Eh Eb Hin Ha Hc Hv) as Q. rewrite Eo in Q. exact Q.
Qed.
End Pays.

Lemma pays_ref : forall G E, wf_env E -> frugal E G -> opt_stable E -> forall d k n, pays G 0 (fun v => load_ref E k n v + 8) (de_ref E d n).
Proof.
  intros G E W [HU HX] HO. induction d as [|d IH]; intros k n; cbn [de_ref]; [apply pays_crash|].
  destruct (e_sch E n) as [s|] eqn:Es; [|apply pays_crash]. unfold de_derived.
  eapply pays_bind; [apply pays_eats, eats_u16|]. intros r. cbn beta.
  destruct k as [|k].
  - apply (pays_mono G _ (8 * G + 8) (0 + F G) (fun _ => 8 * G + 8)); [unfold F; lia|intros; cbn [load_ref]; lia|apply pays_any].
  - apply (pays_mono G _ (8 * G + 8) (0 + F G) (fun v => load_derived (load_ref E k) s v + 8)); [unfold F; lia|intros a; cbn [load_ref]; rewrite Es; reflexivity|].
    apply pays_frame. pose proof (fun h Eh => HU n s r h k Es Eh) as U.
    apply (pays_body G E (de_ref E d) (load_ref E k) (IH k)).
    + intros c t x y Hx. exact (HX c t k x y Hx).
    + exact (we_sch _ W _ _ Es).
    + intros h fs Eh Hl. destruct (U h Eh) as (U1 & _). exact (U1 fs Hl).
    + intros h fs f l v l' Eh. destruct (U h Eh) as (_ & U2 & _). exact (U2 fs f l v l').
    + intros h vs vr l v Eh Eb Hin Ha Hc Hv. destruct (U h Eh) as (_ & _ & U3). specialize (U3 vs vr l v Eb Hin Ha Hc Hv).
      unfold load in U3. cbn [load_ty load_ref] in U3. rewrite Es in U3. exact U3.
    + intros vs vr r' h Eb. exact (HO n s vs vr r' h Es Eb).
Qed.
Lemma pays_deserialize : forall G E, wf_env E -> frugal E G -> opt_stable E -> forall d k t, pays G 0 (fun v => load E k t v + elem_bits t) (deserialize E d t).
Proof.
  intros G E W [HU HX] HO d k t. unfold deserialize. apply (pays_ty G E _ (load_ref E k)).
  - intros n. apply pays_ref; [exact W|split; assumption|exact HO].
  - intros c t' x y Hx. exact (HX c t' k x y Hx).
Qed.
