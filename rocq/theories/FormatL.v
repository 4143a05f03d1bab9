(** Decoders accept exactly the forms of the wire format.  Proofs. *)

From Verif Require Import Base BaseL Prog ProgL Prim PrimL Utf8 Utf8L Tag Ty De Typed RtL DiscL Spec IntL PropVal Format.
From Coq Require Import List NArith ZArith Bool Lia ZifyBool.
Import ListNotations.
Open Scope N_scope.

(** What a decoder accepts and what it returns, over whole byte strings. *)
Definition means {A} (p : prog A) (F : A -> bytes -> Prop) : Prop :=
  forall a x, wfb x -> (run p x = Ok (a, []) <-> F a x).

Lemma means_run : forall A (p : prog A) F, means p F -> forall bs a rest, wfb bs ->
  (run p bs = Ok (a, rest) <-> exists x, bs = x ++ rest /\ F a x).
Proof.
  intros A p F H bs a rest Hb. split.
  - intros R. apply run_suffix in R. destruct R as (x & -> & R). exists x. split; [reflexivity|].
    apply wfb_app in Hb. apply H; [apply Hb|]. rewrite <- (app_nil_r x). apply R.
  - intros (x & -> & Fx). apply wfb_app in Hb. apply H in Fx; [|apply Hb]. apply run_app with (x := rest) in Fx. exact Fx.
Qed.
Lemma means_iff : forall A (p : prog A) F G, (forall a x, wfb x -> (F a x <-> G a x)) -> means p F -> means p G.
Proof. intros A p F G H M a x Hx. rewrite <- (H a x Hx). apply M, Hx. Qed.
Lemma means_ret : forall A (a : A), means (Ret a) (fun b x => b = a /\ x = []).
Proof.
  intros A a b x Hx. cbn [run]. split.
  - intros H. apply Ok_inj in H. inversion H; subst. auto.
  - intros [-> ->]. reflexivity.
Qed.
Lemma means_fail : forall A e, means (Fail e : prog A) (fun _ _ => False).
Proof. intros A e b x Hx. cbn [run]. split; [discriminate|contradiction]. Qed.
Lemma means_crash : forall A e, means (Crash e : prog A) (fun _ _ => False).
Proof. intros A e b x Hx. cbn [run]. split; [discriminate|contradiction]. Qed.
Lemma means_bind : forall A B (p : prog A) (f : A -> prog B) F G,
  means p F -> (forall a y, wfb y -> F a y -> means (f a) (G a)) ->
  means (bind p f) (fun b x => exists a y z, x = y ++ z /\ F a y /\ G a b z).
Proof.
  intros A B p f F G Hp Hf b x Hx. rewrite run_bind. split.
  - intros H. destruct (run p x) as [[a r]|e|q] eqn:R; try discriminate.
    apply (means_run _ _ _ Hp x a r Hx) in R. destruct R as (y & -> & Fy). apply wfb_app in Hx.
    exists a, y, r. split; [reflexivity|]. split; [exact Fy|]. exact (proj1 (Hf a y (proj1 Hx) Fy b r (proj2 Hx)) H).
  - intros (a & y & z & -> & Fy & Gz). apply wfb_app in Hx.
    assert (R : run p (y ++ z) = Ok (a, z)).
    { apply (means_run _ _ _ Hp); [apply wfb_app; exact Hx|]. exists y. auto. }
    rewrite R. apply (Hf a y); tauto.
Qed.
Lemma means_map : forall A B (p : prog A) (g : A -> B) F, means p F -> means (a <- p ;; Ret (g a)) (fun b x => exists a, b = g a /\ F a x).
Proof.
  intros A B p g F H. eapply means_iff; [|eapply means_bind; [exact H|intros; apply means_ret]].
  intros b x Hx. cbn beta. split.
  - intros (a & y & z & -> & Fy & -> & ->). rewrite app_nil_r. eauto.
  - intros (a & -> & Fx). exists a, x, []. rewrite app_nil_r. auto.
Qed.
Lemma means_map_err : forall A g (p : prog A) F, means p F -> means (map_err g p) F.
Proof.
  intros A g p F H a x Hx. rewrite run_map_err. rewrite <- (H a x Hx). destruct (run p x) as [[b y]|e|q]; cbn [rmap_err]; split; intros K; try discriminate; exact K.
Qed.
Lemma means_of_res : forall A (r : res A), means (of_res r) (fun b x => r = Ok b /\ x = []).
Proof.
  intros A [a|e|q]; cbn [of_res].
  - eapply means_iff; [|apply means_ret]. intros b x Hx. cbn beta. split; intros [H ->]; split; try reflexivity; [subst; reflexivity|apply Ok_inj in H; congruence].
  - eapply means_iff; [|apply means_fail]. intros b x Hx. cbn beta. split; [contradiction|intros [H _]; discriminate].
  - eapply means_iff; [|apply means_crash]. intros b x Hx. cbn beta. split; [contradiction|intros [H _]; discriminate].
Qed.
Lemma means_read_n : forall n, means (read_n n) (fun b x => b = x /\ len x = n).
Proof.
  intros n b x Hx. split.
  - intros H. apply run_read_n_ok in H. destruct H as [-> H]. rewrite app_nil_r. auto.
  - intros [-> H]. rewrite <- (app_nil_r x) at 1. apply run_read_n_app. symmetry. exact H.
Qed.
Lemma means_read_byte : means read_byte (fun b x => x = [b]).
Proof.
  intros b x Hx. split.
  - intros H. apply run_read_byte_ok in H. exact H.
  - intros ->. apply run_read_byte_cons.
Qed.
Lemma items_nil : forall A (F : A -> bytes -> Prop) x, items F [] x <-> x = [].
Proof.
  intros A F x. split.
  - intros (xs & H & ->). inversion H; subst. reflexivity.
  - intros ->. exists []. split; [constructor|reflexivity].
Qed.
Lemma items_cons : forall A (F : A -> bytes -> Prop) a l x, items F (a :: l) x <-> exists y z, x = y ++ z /\ F a y /\ items F l z.
Proof.
  intros A F a l x. split.
  - intros (xs & H & ->). inversion H; subst. exists y, (concat l'). split; [reflexivity|]. split; [assumption|]. exists l'. auto.
  - intros (y & z & -> & Fa & (xs & H & ->)). exists (y :: xs). split; [constructor; assumption|reflexivity].
Qed.
Lemma means_rep : forall A (p : prog A) F n, means p F -> means (rep n p) (fun l x => length l = n /\ items F l x).
Proof.
  intros A p F n H. induction n as [|n IH]; cbn [rep].
  - eapply means_iff; [|apply means_ret]. intros l x Hx. cbn beta. split.
    + intros [-> ->]. split; [reflexivity|]. apply items_nil. reflexivity.
    + intros [Hl Hi]. destruct l; [|discriminate]. split; [reflexivity|]. apply items_nil in Hi. exact Hi.
  - eapply means_iff; [|eapply means_bind; [exact H|intros; apply means_map, IH]].
    intros l x Hx. cbn beta. split.
    + intros (a & y & z & -> & Fy & (m & -> & Hm & Hi)). split; [cbn; congruence|]. apply items_cons. eauto.
    + intros [Hl Hi]. destruct l as [|a l]; [discriminate|]. apply items_cons in Hi. destruct Hi as (y & z & -> & Fa & Hi).
      exists a, y, z. split; [reflexivity|]. split; [exact Fa|]. exists l. cbn in Hl. injection Hl as Hl. auto.
Qed.
Lemma means_in_buf : forall A (p : prog A) F buf, wfb buf -> means p F -> means (in_buf p buf) (fun a x => x = [] /\ padded (F a) buf).
Proof.
  intros A p F buf Hb H. unfold in_buf. eapply means_iff; [|apply means_of_res].
  intros a x Hx. cbn beta. split.
  - intros [R ->]. split; [reflexivity|]. apply rmap_ok in R. destruct R as ([a' r] & R & ->). cbn [fst].
    apply (means_run _ _ _ H _ _ _ Hb) in R. destruct R as (y & -> & Fy). exists y, r. auto.
  - intros [-> (y & z & -> & Fy)]. split; [|reflexivity].
    assert (R : run p (y ++ z) = Ok (a, z)) by (apply (means_run _ _ _ H _ _ _ Hb); exists y; auto).
    rewrite R. reflexivity.
Qed.
Lemma means_if : forall A (b : bool) (p q : prog A) F G, (b = true -> means p F) -> (b = false -> means q G) ->
  means (if b then p else q) (fun a x => if b then F a x else G a x).
Proof. intros A [|] p q F G Hp Hq; [apply Hp|apply Hq]; reflexivity. Qed.

(** Integers. *)
Lemma means_decoder : forall w, w = 64 \/ w = 128 -> means (decoder w) (fun n x => denotes w x n).
Proof.
  intros w Hw n x Hx. pose proof (decoder_outcome w x Hw Hx) as O. split.
  - intros R. rewrite R in O. inversion O; subst. rewrite app_nil_r. assumption.
  - intros D. destruct O as [form m rest He Hd Hl|rest He Hw'|rest He|Hn _ _].
    + assert (rest = [] /\ m = n) as [-> ->]; [|reflexivity].
      inversion D; subst x; inversion Hd; subst form; cbn [app] in *; try congruence;
      match goal with
      | H1 : [_] = _ :: rest |- _ => inversion H1; subst; auto; lia
      | H1 : _ :: ?a = _ :: ?b ++ rest, H2 : len ?a = _, H3 : len ?b = _ |- _ =>
          let K := fresh in injection H1 as K; subst a; rewrite len_app in H2; assert (K : len rest = 0) by lia; apply len_0 in K; subst rest; rewrite app_nil_r; auto
      | H1 : ?u :: _ = ?v :: _ |- _ => injection H1; intros; subst; lia
      end.
    + subst w x. inversion D; subst; lia.
    + subst x. inversion D; subst; lia.
    + exfalso. apply (Hn x n []); [symmetry; apply app_nil_r|exact D].
Qed.
Lemma means_le : forall n, means (x <- read_n n ;; Ret (le_val x)) (fun v x => len x = n /\ v = le_val x).
Proof.
  intros n. eapply means_iff; [|apply means_map, means_read_n]. intros v x Hx. cbn beta. split.
  - intros (b & -> & -> & H). auto.
  - intros [H ->]. eauto.
Qed.
Lemma means_narrowU : forall b n, means (narrowU b n) (fun v x => (v = n /\ n < 2 ^ b) /\ x = []).
Proof.
  intros b n. unfold narrowU. destruct (n <? 2 ^ b) eqn:L.
  - eapply means_iff; [|apply means_ret]. intros v x _. cbn beta. split; [intros [-> ->]; repeat split; lia|intros [[-> _] ->]; auto].
  - eapply means_iff; [|apply means_fail]. intros v x _. cbn beta. split; [contradiction|intros [[-> K] ->]; lia].
Qed.
Lemma means_narrowS : forall b n, means (narrowS b n) (fun v x => (v = n /\ inS b n) /\ x = []).
Proof.
  intros b n. unfold narrowS, inS. destruct ((- 2 ^ (Z.of_N b - 1) <=? n) && (n <? 2 ^ (Z.of_N b - 1)))%Z eqn:L.
  - eapply means_iff; [|apply means_ret]. intros v x _. cbn beta. apply andb_prop in L. destruct L as [L1 L2]. apply Z.leb_le in L1. apply Z.ltb_lt in L2.
    split; [intros [-> ->]; repeat split; assumption|intros [[-> _] ->]; auto].
  - eapply means_iff; [|apply means_fail]. intros v x _. cbn beta. split; [contradiction|intros [[-> [K1 K2]] ->]].
    apply Z.leb_le in K1. apply Z.ltb_lt in K2. rewrite K1, K2 in L. discriminate.
Qed.
Lemma means_then : forall A B (p : prog A) (f : A -> prog B) F G, means p F -> (forall a, means (f a) (fun b x => G a b /\ x = [])) ->
  means (bind p f) (fun b x => exists a, F a x /\ G a b).
Proof.
  intros A B p f F G Hp Hf. eapply means_iff; [|eapply means_bind; [exact Hp|intros a y _ _; apply Hf]].
  intros b x _. cbn beta. split.
  - intros (a & y & z & -> & Fy & Hg & ->). rewrite app_nil_r. eauto.
  - intros (a & Fx & Hg). exists a, x, []. rewrite app_nil_r. auto.
Qed.
Lemma means_ret' : forall A B (g : A -> B) a, means (Ret (g a)) (fun b x => b = g a /\ x = []).
Proof. intros. apply means_ret. Qed.

Section F.
Variable E : env.
Hypothesis HW : wf_env E.
Hypothesis HM : e_mem E = None.

Lemma ub_cases : e_ub E = 32 \/ e_ub E = 64.
Proof. apply (we_ub E HW). Qed.
Lemma le_bound : forall n x, wfb x -> len x = n -> le_val x < 2 ^ (8 * n).
Proof. intros n x Hx <-. rewrite N.pow_mul_r. change (2 ^ 8) with 256. apply le_val_bound, Hx. Qed.
Lemma twos_signZ : forall w n, twos w n = signZ w n.
Proof. reflexivity. Qed.
Lemma castS_twos : forall w z, castS w z = twos w (Z.to_N (z mod 2 ^ Z.of_N w)).
Proof. reflexivity. Qed.

Lemma means_int : forall i, means (de_int (e_fw E) (e_ub E) i) (int_form E i).
Proof.
  intros i.
  assert (W : forall n w, w = 2 ^ n -> Z.of_N w = (2 ^ Z.of_N n)%Z) by (intros n w ->; apply zpow2).
  destruct i; cbn [de_int]; unfold int_form, code_form; cbn [ity_bits wire_bits];
    try change (16 / 8) with 2; try change (32 / 8) with 4; try change (64 / 8) with 8; try change (128 / 8) with 16.
  - eapply means_iff; [|apply means_map, means_read_byte]. intros z x _. cbn beta. unfold le_form. split.
    + intros (a & -> & ->). split; [reflexivity|]. cbn [le_val]. lia.
    + intros [Hl ->]. destruct x as [|b [|c x]]; [discriminate| |rewrite !len_cons in Hl; lia]. exists b. split; [cbn [le_val]; lia|reflexivity].
  - unfold de_i8. eapply means_iff; [|apply means_map, means_read_byte]. intros z x _. cbn beta. unfold le_form. change (8 * 1) with 8. split.
    + intros (a & -> & ->). split; [reflexivity|]. cbn [le_val]. replace (a + 256 * 0) with a by lia. reflexivity.
    + intros [Hl ->]. destruct x as [|b [|c x]]; [discriminate| |rewrite !len_cons in Hl; lia]. exists b. split; [cbn [le_val]; replace (b + 256 * 0) with b by lia; reflexivity|reflexivity].
  - unfold de_u16. destruct (e_fw E).
    + eapply means_iff; [|apply means_map, means_le]. intros z x Hx. cbn beta. unfold number, in_ity; cbn [ity_signed ity_bits]. unfold inU. split.
      * intros (a & -> & Hl & ->). exists (le_val x). pose proof (le_bound 2 x Hx Hl). pose proof (zpow2 16). repeat split; try assumption; change (8 * 2) with 16 in *; lia.
      * intros (n & [Hl ->] & -> & _). eauto.
    + eapply means_iff; [|apply means_map, means_then; [apply (means_decoder 64); auto|apply means_narrowU]]. intros z x Hx. cbn beta. unfold number, in_ity; cbn [ity_signed ity_bits]. unfold inU. pose proof (zpow2 16). split.
      * intros (a & -> & n & D & -> & L). exists n. repeat split; try assumption; lia.
      * intros (n & D & -> & L). exists n. split; [reflexivity|]. exists n. repeat split; try assumption; lia.
  - unfold de_i16. destruct (e_fw E).
    + eapply means_iff; [|apply means_map, means_read_n]. intros z x Hx. cbn beta. unfold number, in_ity; cbn [ity_signed ity_bits]. split.
      * intros (a & -> & -> & Hl). exists (le_val x). pose proof (le_bound 2 x Hx Hl) as L. rewrite gazgiz_gz. change unzigzag with gz. pose proof (gz_range 16 (le_val x) ltac:(lia) L).
        rewrite castS_id by (try lia; assumption). auto.
      * intros (n & [Hl ->] & -> & G). exists x. rewrite gazgiz_gz, castS_id by (try lia; exact G). auto.
    + eapply means_iff; [|apply means_then; [apply (means_decoder 64); auto|intros a; apply means_narrowS]]. intros z x Hx. cbn beta. unfold number, in_ity; cbn [ity_signed ity_bits]. split.
      * intros (n & D & -> & L). rewrite gazgiz_gz in *. exists n. auto.
      * intros (n & D & -> & L). exists n. rewrite gazgiz_gz. auto.
  - unfold de_u32. destruct (e_fw E).
    + eapply means_iff; [|apply means_map, means_le]. intros z x Hx. cbn beta. unfold number, in_ity; cbn [ity_signed ity_bits]. unfold inU. split.
      * intros (a & -> & Hl & ->). exists (le_val x). pose proof (le_bound 4 x Hx Hl). pose proof (zpow2 32). repeat split; try assumption; change (8 * 4) with 32 in *; lia.
      * intros (n & [Hl ->] & -> & _). eauto.
    + eapply means_iff; [|apply means_map, means_then; [apply (means_decoder 64); auto|apply means_narrowU]]. intros z x Hx. cbn beta. unfold number, in_ity; cbn [ity_signed ity_bits]. unfold inU. pose proof (zpow2 32). split.
      * intros (a & -> & n & D & -> & L). exists n. repeat split; try assumption; lia.
      * intros (n & D & -> & L). exists n. split; [reflexivity|]. exists n. repeat split; try assumption; lia.
  - unfold de_i32. destruct (e_fw E).
    + eapply means_iff; [|apply means_map, means_read_n]. intros z x Hx. cbn beta. unfold number, in_ity; cbn [ity_signed ity_bits]. split.
      * intros (a & -> & -> & Hl). exists (le_val x). pose proof (le_bound 4 x Hx Hl) as L. rewrite gazgiz_gz. change unzigzag with gz. pose proof (gz_range 32 (le_val x) ltac:(lia) L).
        rewrite castS_id by (try lia; assumption). auto.
      * intros (n & [Hl ->] & -> & G). exists x. rewrite gazgiz_gz, castS_id by (try lia; exact G). auto.
    + eapply means_iff; [|apply means_then; [apply (means_decoder 64); auto|intros a; apply means_narrowS]]. intros z x Hx. cbn beta. unfold number, in_ity; cbn [ity_signed ity_bits]. split.
      * intros (n & D & -> & L). rewrite gazgiz_gz in *. exists n. auto.
      * intros (n & D & -> & L). exists n. rewrite gazgiz_gz. auto.
  - unfold de_u64. destruct (e_fw E).
    + eapply means_iff; [|apply means_map, means_le]. intros z x Hx. cbn beta. unfold number, in_ity; cbn [ity_signed ity_bits]. unfold inU. split.
      * intros (a & -> & Hl & ->). exists (le_val x). pose proof (le_bound 8 x Hx Hl). pose proof (zpow2 64). repeat split; try assumption; change (8 * 8) with 64 in *; lia.
      * intros (n & [Hl ->] & -> & _). eauto.
    + eapply means_iff; [|apply means_map, (means_decoder 64); auto]. intros z x Hx. cbn beta. unfold number, in_ity; cbn [ity_signed ity_bits]. unfold inU. pose proof (zpow2 64). split.
      * intros (n & -> & D). exists n. pose proof (den_lt 64 x n (or_introl eq_refl) Hx D). repeat split; try assumption; lia.
      * intros (n & D & -> & L). eauto.
  - unfold de_i64. destruct (e_fw E).
    + eapply means_iff; [|apply means_map, means_read_n]. intros z x Hx. cbn beta. unfold number, in_ity; cbn [ity_signed ity_bits]. split.
      * intros (a & -> & -> & Hl). exists (le_val x). pose proof (le_bound 8 x Hx Hl) as L. rewrite gazgiz_gz. change unzigzag with gz. pose proof (gz_range 64 (le_val x) ltac:(lia) L). auto.
      * intros (n & [Hl ->] & -> & G). exists x. rewrite gazgiz_gz. auto.
    + eapply means_iff; [|apply means_map, (means_decoder 64); auto]. intros z x Hx. cbn beta. unfold number, in_ity; cbn [ity_signed ity_bits]. split.
      * intros (n & -> & D). exists n. rewrite gazgiz_gz. split; [exact D|]. split; [reflexivity|]. apply (gz_range 64); [lia|]. exact (den_lt 64 x n (or_introl eq_refl) Hx D).
      * intros (n & D & -> & L). exists n. rewrite gazgiz_gz. auto.
  - unfold de_u128. destruct (e_fw E).
    + eapply means_iff; [|apply means_map, means_le]. intros z x Hx. cbn beta. unfold number, in_ity; cbn [ity_signed ity_bits]. unfold inU. split.
      * intros (a & -> & Hl & ->). exists (le_val x). pose proof (le_bound 16 x Hx Hl). pose proof (zpow2 128). repeat split; try assumption; change (8 * 16) with 128 in *; lia.
      * intros (n & [Hl ->] & -> & _). eauto.
    + eapply means_iff; [|apply means_map, (means_decoder 128); auto]. intros z x Hx. cbn beta. unfold number, in_ity; cbn [ity_signed ity_bits]. unfold inU. pose proof (zpow2 128). split.
      * intros (n & -> & D). exists n. pose proof (den_lt 128 x n (or_intror eq_refl) Hx D). repeat split; try assumption; lia.
      * intros (n & D & -> & L). eauto.
  - unfold de_i128. destruct (e_fw E).
    + eapply means_iff; [|apply means_map, means_read_n]. intros z x Hx. cbn beta. unfold number, in_ity; cbn [ity_signed ity_bits]. split.
      * intros (a & -> & -> & Hl). exists (le_val x). pose proof (le_bound 16 x Hx Hl) as L. rewrite gazgiz_gz. change unzigzag with gz. pose proof (gz_range 128 (le_val x) ltac:(lia) L). auto.
      * intros (n & [Hl ->] & -> & G). exists x. rewrite gazgiz_gz. auto.
    + eapply means_iff; [|apply means_map, (means_decoder 128); auto]. intros z x Hx. cbn beta. unfold number, in_ity; cbn [ity_signed ity_bits]. split.
      * intros (n & -> & D). exists n. rewrite gazgiz_gz. split; [exact D|]. split; [reflexivity|]. apply (gz_range 128); [lia|]. exact (den_lt 128 x n (or_intror eq_refl) Hx D).
      * intros (n & D & -> & L). exists n. rewrite gazgiz_gz. auto.
  - unfold de_usize, de_u64. destruct (e_fw E).
    + eapply means_iff; [|apply means_map, means_map, means_le]. intros z x Hx. cbn beta. split.
      * intros (a & -> & n & -> & Hl & ->). eauto.
      * intros (n & [Hl ->] & ->). exists (le_val x mod 2 ^ e_ub E). split; [reflexivity|]. eauto.
    + eapply means_iff; [|apply means_map, means_map, (means_decoder 64); auto]. intros z x Hx. cbn beta. split.
      * intros (a & -> & n & -> & D). eauto.
      * intros (n & D & ->). exists (n mod 2 ^ e_ub E). split; [reflexivity|]. eauto.
  - unfold de_isize, de_i64. unfold number; cbn [ity_signed]. destruct (e_fw E).
    + eapply means_iff; [|apply means_map, means_map, means_read_n]. intros z x Hx. cbn beta. split.
      * intros (a & -> & n & -> & -> & Hl). rewrite castS_twos, gazgiz_gz. eauto.
      * intros (n & [Hl ->] & ->). exists (gazgiz 64 (le_val x)). rewrite castS_twos. split; [rewrite gazgiz_gz; reflexivity|]. eauto.
    + eapply means_iff; [|apply means_map, means_map, (means_decoder 64); auto]. intros z x Hx. cbn beta. split.
      * intros (a & -> & n & -> & D). rewrite castS_twos, gazgiz_gz. eauto.
      * intros (n & D & ->). exists (gazgiz 64 n). rewrite castS_twos. split; [rewrite gazgiz_gz; reflexivity|]. eauto.
Qed.
Lemma means_u32 : means (de_u32 (e_fw E)) (fun n x => int_form E U32 (Z.of_N n) x).
Proof.
  intros n x Hx. rewrite <- (means_int U32 (Z.of_N n) x Hx). cbn [de_int]. rewrite run_bind.
  destruct (run (de_u32 (e_fw E)) x) as [[a r]|e|q]; cbn [run]; split; intros H; try discriminate; apply Ok_inj in H; inversion H; subst; try reflexivity.
  f_equal. f_equal. lia.
Qed.
Lemma means_u16 : means (de_u16 (e_fw E)) (fun n x => int_form E U16 (Z.of_N n) x).
Proof.
  intros n x Hx. rewrite <- (means_int U16 (Z.of_N n) x Hx). cbn [de_int]. rewrite run_bind.
  destruct (run (de_u16 (e_fw E)) x) as [[a r]|e|q]; cbn [run]; split; intros H; try discriminate; apply Ok_inj in H; inversion H; subst; try reflexivity.
  f_equal. f_equal. lia.
Qed.
Lemma means_len : means (de_len E) (len_form E).
Proof.
  intros n x Hx. unfold len_form. rewrite <- (means_int Usize (Z.of_N n) x Hx). cbn [de_int]. rewrite run_bind. unfold de_len.
  destruct (run (de_usize (e_fw E) (e_ub E)) x) as [[a r]|e|q]; cbn [run]; split; intros H; try discriminate; apply Ok_inj in H; inversion H; subst; try reflexivity.
  f_equal. f_equal. lia.
Qed.

(** Containers. *)
Lemma alloc_free : forall n B (f : unit -> prog B), bind (alloc E n) f = f tt.
Proof. intros n B f. unfold alloc. rewrite HM. reflexivity. Qed.
Lemma means_both : forall A B (p : prog A) (f : A -> prog B) F G, means p F -> (forall a, means (f a) (G a)) ->
  means (bind p f) (fun b x => exists a, both (F a) (G a b) x).
Proof.
  intros A B p f F G Hp Hf. eapply means_iff; [|eapply means_bind; [exact Hp|intros a y _ _; apply Hf]].
  intros b x _. cbn beta. unfold both. split; intros H; decompose record H; subst; eauto 8.
Qed.
Lemma means_seq : forall sz p F, means p F -> means (de_seq E sz p) (counted E F).
Proof.
  intros sz p F Hp. unfold de_seq. eapply means_iff; [|eapply means_both with (G := fun n l x => length l = N.to_nat n /\ items F l x); [apply means_len|]].
  - intros l x Hx. cbn beta. unfold counted. split.
    + intros (n & y & z & -> & Hy & Hl & Hz). exists y, z. replace (len l) with n by (unfold len; lia). auto.
    + intros (y & z & -> & Hy & Hz). exists (len l), y, z. rewrite len_to_nat. auto.
  - intros n. rewrite alloc_free. destruct (N.eqb_spec n 0) as [->|Hn]; [|apply means_rep, Hp].
    change (Ret []) with (rep (N.to_nat 0) p). apply means_rep, Hp.
Qed.
Lemma means_blob : means (de_blob E) (blob E).
Proof.
  unfold de_blob. eapply means_iff; [|eapply means_both with (G := fun n b x => b = x /\ len x = n); [apply means_len|]].
  - intros b x Hx. cbn beta. unfold blob. split.
    + intros (n & y & z & -> & Hy & -> & <-). exists y, z. auto.
    + intros (y & z & -> & Hy & ->). exists (len b), y, b. auto.
  - intros n. rewrite alloc_free. destruct (N.eqb_spec n 0) as [->|Hn]; [|apply means_read_n].
    eapply means_iff; [|apply means_ret]. intros b x _. cbn beta. split; [intros [-> ->]; auto|intros [-> H]; apply len_0 in H; subst; auto].
Qed.
Lemma means_str : means (de_str E) (fun v x => exists b, v = VBytes b /\ utf8_text b /\ blob E b x).
Proof.
  unfold de_str. eapply means_iff; [|eapply means_both with (G := fun n v x => v = VBytes x /\ len x = n /\ utf8_text x); [apply means_len|]].
  - intros v x Hx. cbn beta. unfold blob. split.
    + intros (n & y & z & -> & Hy & -> & <- & U). exists z. split; [reflexivity|]. split; [exact U|]. exists y, z. auto.
    + intros (b & -> & U & y & z & -> & Hy & ->). exists (len b), y, b. auto.
  - intros n. rewrite alloc_free. destruct (N.eqb_spec n 0) as [->|Hn].
    + eapply means_iff; [|apply means_ret]. intros b x _. cbn beta. split.
      * intros [-> ->]. repeat split. exists []. split; [constructor|reflexivity].
      * intros (-> & H & _). apply len_0 in H. subst. auto.
    + eapply means_iff; [|eapply means_bind with (G := fun b v x => v = VBytes b /\ x = [] /\ utf8_text b); [apply means_read_n|]].
      * intros v x Hx. cbn beta. split.
        -- intros (a & y & z & -> & [-> Hl] & -> & -> & U). rewrite app_nil_r. auto.
        -- intros (-> & Hl & U). exists x, x, []. rewrite app_nil_r. auto.
      * intros b y Hy [-> Hl]. pose proof (C10_utf8 y Hy) as U. destruct (utf8_ok y).
        -- eapply means_iff; [|apply means_ret]. intros v x _. cbn beta. split; [intros [-> ->]; repeat split; apply U; reflexivity|intros (-> & -> & _); auto].
        -- eapply means_iff; [|apply means_fail]. intros v x _. cbn beta. split; [contradiction|intros (_ & _ & K)]. apply U in K. discriminate.
Qed.

(** Vectors in bulk form. *)
Lemma nth_bits8 : forall b i, (i < 8)%nat -> nth_error (bits8 b) i = Some (N.testbit b (N.of_nat i)).
Proof. intros b i H. do 8 (destruct i as [|i]; [reflexivity|]). lia. Qed.
Lemma bits8_length : forall b, length (bits8 b) = 8%nat.
Proof. reflexivity. Qed.
Lemma unpack_length : forall x n, N.of_nat n <= 8 * len x -> length (unpack n x) = n.
Proof.
  induction x as [|b x IH]; intros n H; cbn [unpack]; [rewrite len_nil in H; cbn [length]; lia|].
  rewrite len_cons in H. rewrite app_length, firstn_length, bits8_length, IH by lia. lia.
Qed.
Lemma nth_error_firstn : forall A (l : list A) n i, (i < n)%nat -> nth_error (firstn n l) i = nth_error l i.
Proof. intros A l. induction l as [|a l IH]; intros [|n] [|i] H; cbn; try reflexivity; try lia. apply IH. lia. Qed.
Lemma unpack_nth : forall x n i, N.of_nat n <= 8 * len x -> (i < n)%nat ->
  nth_error (unpack n x) i = Some (N.testbit (nth (i / 8) x 0) (N.of_nat (i mod 8))).
Proof.
  induction x as [|b x IH]; intros n i H Hi; [rewrite len_nil in H; lia|]. rewrite len_cons in H. cbn [unpack].
  destruct (Nat.lt_ge_cases i 8) as [L|L].
  - rewrite nth_error_app1 by (rewrite firstn_length, bits8_length; lia). rewrite nth_error_firstn by lia. rewrite nth_bits8 by exact L.
    rewrite Nat.div_small, Nat.mod_small by exact L. reflexivity.
  - rewrite nth_error_app2 by (rewrite firstn_length, bits8_length; lia). rewrite firstn_length, bits8_length.
    replace (i - Nat.min (Nat.min 8 n) 8)%nat with (i - 8)%nat by lia. rewrite IH by lia.
    replace (i / 8)%nat with (S ((i - 8) / 8)) by (replace i with (i - 8 + 1 * 8)%nat at 2 by lia; rewrite Nat.div_add by lia; lia).
    replace (i mod 8)%nat with ((i - 8) mod 8)%nat by (replace i with (i - 8 + 1 * 8)%nat at 2 by lia; rewrite Nat.mod_add by lia; reflexivity).
    reflexivity.
Qed.
Lemma nth_error_ext' : forall A (l m : list A), length l = length m -> (forall i, (i < length l)%nat -> nth_error l i = nth_error m i) -> l = m.
Proof.
  intros A l. induction l as [|a l IH]; intros [|b m] Hl H; try discriminate; [reflexivity|].
  pose proof (H 0%nat ltac:(cbn; lia)) as H0. cbn in H0. injection H0 as ->. f_equal. apply IH; [cbn in Hl; lia|].
  intros i Hi. apply (H (S i)). cbn. lia.
Qed.
Lemma N_div8 : forall i, N.to_nat (N.of_nat i / 8) = (i / 8)%nat.
Proof. intros i. change 8 with (N.of_nat 8) at 1. rewrite <- Nat2N.inj_div, Nat2N.id. reflexivity. Qed.
Lemma packed_iff : forall l x, len x = (len l + 7) / 8 -> (packed l x <-> l = map VBool (unpack (length l) x)).
Proof.
  intros l x Hx.
  assert (L : N.of_nat (length l) <= 8 * len x).
  { rewrite Hx. unfold len. pose proof (N.div_mod (N.of_nat (length l) + 7) 8 ltac:(lia)). pose proof (N.mod_lt (N.of_nat (length l) + 7) 8 ltac:(lia)). lia. }
  assert (K : forall i, (i < length l)%nat -> nth_error (map VBool (unpack (length l) x)) i = Some (VBool (N.testbit (nth (i / 8) x 0) (N.of_nat (i mod 8))))).
  { intros i Hi. apply map_nth_error. apply unpack_nth; assumption. }
  split.
  - intros [_ H]. apply nth_error_ext'; [rewrite map_length, unpack_length by exact L; reflexivity|]. intros i Hi. rewrite K by exact Hi.
    specialize (H (N.of_nat i) ltac:(unfold len; lia)). rewrite Nat2N.id, N_div8 in H. rewrite H. rewrite Nat2N.inj_mod. reflexivity.
  - intros H. split; [exact Hx|]. intros i Hi. specialize (K (N.to_nat i) ltac:(unfold len in Hi; lia)). rewrite <- H in K. rewrite K.
    rewrite <- N_div8, N2Nat.id, Nat2N.inj_mod, N2Nat.id. reflexivity.
Qed.
Lemma items_chunks : forall w (g : bytes -> val) l x, items (fun v y => len y = w /\ v = g y) l x <-> len l * w = len x /\ l = map g (chunks (length l) w x).
Proof.
  intros w g l. induction l as [|v l IH]; intros x.
  - rewrite items_nil. cbn [length chunks map]. rewrite len_nil. split; [intros ->; rewrite len_nil; split; [lia|reflexivity]|intros [H _]; symmetry in H; apply len_0 in H; exact H].
  - rewrite items_cons, len_cons. cbn [length chunks]. split.
    + intros (y & z & -> & [Hy ->] & Hz). apply IH in Hz. destruct Hz as [Hz Hl]. rewrite len_app. split; [lia|].
      rewrite (split_at_app_n _ w y z (eq_sym Hy)). cbn [map]. f_equal. exact Hl.
    + intros [Hx Hl]. destruct (split_at w x) as [[y z]|] eqn:S; [|discriminate]. apply split_at_some in S. destruct S as [-> Hy].
      cbn [map] in Hl. injection Hl as -> Hl. exists y, z. split; [reflexivity|]. split; [auto|]. apply IH. rewrite len_app in Hx. split; [lia|exact Hl].
Qed.
Lemma chunks_length : forall n w x, len x = N.of_nat n * w -> length (chunks n w x) = n.
Proof.
  induction n as [|n IH]; intros w x H; [reflexivity|]. cbn [chunks]. destruct (split_at w x) as [[y z]|] eqn:S.
  - apply split_at_some in S. destruct S as [-> Hy]. rewrite len_app in H. cbn [length]. rewrite IH by lia. reflexivity.
  - apply split_at_none in S. lia.
Qed.
Lemma items_ext : forall A (F G : A -> bytes -> Prop) l x, (forall a y, F a y <-> G a y) -> (items F l x <-> items G l x).
Proof.
  intros A F G l x H. revert x. induction l as [|a l IH]; intros x; [rewrite !items_nil; reflexivity|].
  rewrite !items_cons. split; intros (y & z & -> & H1 & H2); exists y, z; (split; [reflexivity|]); (split; [apply H, H1|apply IH, H2]).
Qed.

Lemma means_bulk : forall k, means (de_bulk E k) (bulk_form E k).
Proof.
  intros k. unfold de_bulk, bulk_form.
  eapply means_iff; [|eapply means_both with (G := fun n l x => len l = n /\ match k with
              | BBool => packed l x
              | BFix s w => len l * N.of_nat w < 2 ^ e_ub E /\ items (fun v y => exists z, v = VInt z /\ le_form s (N.of_nat w) z y) l x
              | BRaw false => len l * 16 < 2 ^ e_ub E /\ items (fun v y => len y = 16 /\ v = VBytes y) l x
              | BRaw true => items (fun v y => len y = 16 /\ v = VBytes (e_dec E y)) l x
              end); [apply means_len|]].
  - intros l x Hx. cbn beta. split.
    + intros (n & y & z & -> & Hy & <- & H). exists y, z. auto.
    + intros (y & z & -> & Hy & H). exists (len l), y, z. auto.
  - intros n.
    assert (P : 0 < 2 ^ e_ub E) by (apply N.neq_0_lt_0, N.pow_nonzero; lia).
    destruct (N.eqb_spec n 0) as [->|Hn].
    { eapply means_iff; [|apply means_ret]. intros l x _. cbn beta. split.
      - intros [-> ->]. split; [reflexivity|]. destruct k as [|s w|[|]]; rewrite ?len_nil.
        + split; [reflexivity|]. intros i Hi. rewrite len_nil in Hi. lia.
        + split; [exact P|]. apply items_nil. reflexivity.
        + apply items_nil. reflexivity.
        + split; [exact P|]. apply items_nil. reflexivity.
      - intros [Hl H]. apply len_0 in Hl. subst l. split; [reflexivity|]. destruct k as [|s w|[|]].
        + destruct H as [H _]. rewrite len_nil in H. apply len_0. exact H.
        + destruct H as [_ H]. apply items_nil in H. exact H.
        + apply items_nil in H. exact H.
        + destruct H as [_ H]. apply items_nil in H. exact H. }
    destruct k as [|s w|[|]].
    + rewrite alloc_free. eapply means_iff; [|apply means_bind with (F := fun b x => b = x /\ len x = div_ceil8 n) (G := fun b l x => l = map VBool (unpack (N.to_nat n) b) /\ x = []); [apply means_read_n|]].
      * intros l x Hx. cbn beta. unfold div_ceil8. split.
        -- intros (b & y & z & -> & [-> Hb] & -> & ->). rewrite app_nil_r.
           assert (L : N.of_nat (N.to_nat n) <= 8 * len y).
           { rewrite Hb. pose proof (N.div_mod (n + 7) 8 ltac:(lia)). pose proof (N.mod_lt (n + 7) 8 ltac:(lia)). lia. }
           assert (Q : len (map VBool (unpack (N.to_nat n) y)) = n).
           { unfold len. rewrite map_length, unpack_length by exact L. lia. }
           split; [exact Q|]. apply packed_iff; [rewrite Q; exact Hb|]. rewrite map_length, unpack_length by exact L. reflexivity.
        -- intros [<- H]. pose proof H as [Hb _]. exists x, x, []. rewrite app_nil_r. split; [reflexivity|]. split; [auto|]. split; [|reflexivity].
           apply packed_iff in H; [|exact Hb]. rewrite len_to_nat. exact H.
      * intros b y Hy _. rewrite alloc_free. apply means_ret.
    + destruct (n * N.of_nat w <? 2 ^ e_ub E) eqn:L.
      * rewrite alloc_free. eapply means_iff; [|apply means_map, means_read_n]. intros l x Hx. cbn beta.
        rewrite (items_ext _ _ (fun v y => len y = N.of_nat w /\ v = VInt (fixed_val s w y)) l x)
          by (intros v y; unfold le_form, fixed_val; split; [intros (z & -> & H & ->); auto|intros [H ->]; eauto]).
        rewrite items_chunks with (g := fun y => VInt (fixed_val s w y)). rewrite <- len_to_nat. split.
        -- intros (b & -> & -> & Hb).
           assert (Q : len (map (fun c => VInt (fixed_val s w c)) (chunks (N.to_nat n) (N.of_nat w) x)) = n).
           { rewrite len_map. unfold len. rewrite chunks_length by lia. lia. }
           rewrite Q. split; [reflexivity|]. split; [lia|]. split; [lia|reflexivity].
        -- intros (<- & _ & Hl & Hm). exists x. split; [exact Hm|]. split; [reflexivity|]. lia.
      * eapply means_iff; [|apply means_fail]. intros l x _. cbn beta. split; [contradiction|intros (<- & H & _); lia].
    + rewrite alloc_free. eapply means_iff; [|apply means_rep, means_map, means_read_n]. intros l x Hx. cbn beta.
      rewrite (items_ext _ _ (fun v y => len y = 16 /\ v = VBytes (e_dec E y)) l x)
        by (intros v y; split; [intros (b & -> & -> & H); auto|intros [H ->]; eauto]).
      unfold len at 2. split; intros [H1 H2]; (split; [lia|exact H2]).
    + destruct (n * 16 <? 2 ^ e_ub E) eqn:L.
      * rewrite alloc_free. eapply means_iff; [|apply means_map, means_read_n]. intros l x Hx. cbn beta.
        rewrite items_chunks with (g := VBytes). rewrite <- len_to_nat. split.
        -- intros (b & -> & -> & Hb).
           assert (Q : len (map VBytes (chunks (N.to_nat n) 16 x)) = n).
           { rewrite len_map. unfold len. rewrite chunks_length by lia. lia. }
           rewrite Q. split; [reflexivity|]. split; [lia|]. split; [lia|reflexivity].
        -- intros (<- & _ & Hl & Hm). exists x. split; [exact Hm|]. split; [reflexivity|]. lia.
      * eapply means_iff; [|apply means_fail]. intros l x _. cbn beta. split; [contradiction|intros (<- & H & _); lia].
Qed.

Section Rec.
Variable rec : N -> prog val.
Variable frec : N -> val -> bytes -> Prop.
Hypothesis Hrec : forall n, means (rec n) (frec n).

Lemma means_entry : forall p q F G, means p F -> means q G -> means (de_entry p q) (entry_form F G).
Proof.
  intros p q F G Hp Hq. unfold de_entry. eapply means_iff; [|eapply means_both; [exact Hp|intros a; apply means_map, Hq]].
  intros v x Hx. cbn beta. unfold entry_form, both. split.
  - intros (a & y & z & -> & Fy & b & -> & Gz). exists a, b. eauto 6.
  - intros (a & b & -> & y & z & -> & Fy & Gz). exists a, y, z. eauto 6.
Qed.

Lemma means_dur : means (s <- de_int (e_fw E) (e_ub E) U64 ;; n <- de_int (e_fw E) (e_ub E) U32 ;; of_res (dur_new s n)) (time_form E (2 ^ 64)).
Proof.
  eapply means_iff; [|eapply means_both with (G := fun s v x => exists n, int_form E U32 n x /\ dur_new s n = Ok v); [apply means_int|intros s; eapply means_then; [apply means_int|intros n; apply means_of_res]]].
  intros v x Hx. cbn beta. unfold time_form, dur_new. split.
  - intros (s & y & z & -> & Hs & n & Hn & R). destruct (s + n / 1000000000 <? 2 ^ 64)%Z eqn:L; [|discriminate]. apply Ok_inj in R.
    exists s, n. split; [exists y, z; auto|]. split; [lia|]. split; [lia|]. symmetry. exact R.
  - intros (s & n & (y & z & -> & Hs & Hn) & L & _ & ->). exists s, y, z. split; [reflexivity|]. split; [exact Hs|]. exists n. split; [exact Hn|].
    replace (s + n / 1000000000 <? 2 ^ 64)%Z with true by lia. reflexivity.
Qed.
Lemma means_time : means (s <- de_int (e_fw E) (e_ub E) U64 ;; n <- de_int (e_fw E) (e_ub E) U32 ;; d <- of_res (dur_new s n) ;; of_res (time_add E d)) (time_form E (e_time E)).
Proof.
  eapply means_iff; [|eapply means_both with (G := fun s v x => exists n, int_form E U32 n x /\ exists d, dur_new s n = Ok d /\ time_add E d = Ok v);
    [apply means_int|intros s; eapply means_then; [apply means_int|intros n]]].
  - intros v x Hx. cbn beta. unfold time_form, dur_new. split.
    + intros (s & y & z & -> & Hs & n & Hn & d & R & T). destruct (s + n / 1000000000 <? 2 ^ 64)%Z eqn:L; [|discriminate]. apply Ok_inj in R. subst d. cbn [time_add] in T.
      destruct (s + n / 1000000000 <=? e_time E)%Z eqn:L2; [|discriminate]. apply Ok_inj in T.
      exists s, n. split; [exists y, z; auto|]. split; [lia|]. split; [lia|]. symmetry. exact T.
    + intros (s & n & (y & z & -> & Hs & Hn) & L & L2 & ->). exists s, y, z. split; [reflexivity|]. split; [exact Hs|]. exists n. split; [exact Hn|].
      replace (s + n / 1000000000 <? 2 ^ 64)%Z with true by lia. eexists. split; [reflexivity|]. cbn [time_add].
      replace (s + n / 1000000000 <=? e_time E)%Z with true by lia. reflexivity.
  - eapply means_iff; [|eapply means_both with (G := fun d v x => time_add E d = Ok v /\ x = []); [apply means_of_res|intros d; apply means_of_res]].
    intros v x _. cbn beta. split.
    + intros (d & y & z & -> & [R ->] & T & ->). split; [eauto|reflexivity].
    + intros [(d & R & T) ->]. exists d, [], []. auto.
Qed.

Lemma means_ty : forall t, means (de_ty E rec t) (form_ty E frec t).
Proof.
  induction t; cbn [de_ty form_ty].
  - eapply means_iff; [|eapply means_both with (G := fun b v x => ((b = 0 /\ v = VBool false) \/ (b = 1 /\ v = VBool true)) /\ x = []); [apply means_read_byte|]].
    + intros v x _. cbn beta. split.
      * intros (b & y & z & -> & -> & [[-> ->]|[-> ->]] & ->); [left|right]; auto.
      * intros [[-> ->]|[-> ->]]; [exists 0, [0], []|exists 1, [1], []]; repeat split; auto.
    + intros b. destruct (N.eqb_spec b 0) as [->|H0]; [|destruct (N.eqb_spec b 1) as [->|H1]].
      * eapply means_iff; [|apply means_ret]. intros v x _. cbn beta. split; [intros [-> ->]; auto|intros [[[_ ->]|[H _]] ->]; [auto|discriminate]].
      * eapply means_iff; [|apply means_ret]. intros v x _. cbn beta. split; [intros [-> ->]; auto|intros [[[H _]|[_ ->]] ->]; [discriminate|auto]].
      * eapply means_iff; [|apply means_fail]. intros v x _. cbn beta. split; [contradiction|intros [[[H _]|[H _]] ->]; contradiction].
  - apply means_map, means_int.
  - eapply means_iff; [|apply means_map, means_read_n]. intros v x _. cbn beta. unfold le_form. split; [intros (b & -> & -> & H); eauto|intros (z & -> & H & ->); eauto].
  - eapply means_iff; [|apply means_map, means_read_n]. intros v x _. cbn beta. unfold le_form. split; [intros (b & -> & -> & H); eauto|intros (z & -> & H & ->); eauto].
  - apply means_map. intros c x Hx. split.
    + intros R. apply (de_char_ok x c [] Hx) in R. rewrite app_nil_r in R. exact R.
    + intros [Hc ->]. rewrite <- (app_nil_r (utf8_encode c)). apply rt_char. exact Hc.
  - apply means_str.
  - apply means_str.
  - apply means_map, means_blob.
  - eapply means_iff; [|apply means_map, means_read_n]. intros v x _. cbn beta. split; [intros (b & -> & -> & H); auto|intros [H ->]; eauto].
  - eapply means_iff; [|apply means_map, means_read_n]. intros v x _. cbn beta. split; [intros (b & -> & -> & H); auto|intros [H ->]; eauto].
  - apply means_ret.
  - apply means_entry; assumption.
  - destruct (if e_spec E then bulk_of t else None) as [k|]; apply means_map; [apply means_bulk|apply means_seq, IHt].
  - apply means_map, means_seq, IHt.
  - apply means_map, means_rep, IHt.
  - eapply means_iff; [|eapply means_both with (G := fun b v x => (b = 0 /\ v = VVar 0 [] /\ x = []) \/ (b = 1 /\ exists y, v = VVar 1 [y] /\ form_ty E frec t y x)); [apply means_read_byte|]].
    + intros v x _. cbn beta. split.
      * intros (b & y & z & -> & -> & [(-> & -> & ->)|(-> & u & -> & Hu)]); [left; auto|right]. exists u. split; [reflexivity|]. exists [1], z. auto.
      * intros [[-> ->]|(u & -> & y & z & -> & <- & Hu)]; [exists 0, [0], []|exists 1, [1], z]; repeat split; auto. right. eauto.
    + intros b. destruct (N.eqb_spec b 0) as [->|H0]; [|destruct (N.eqb_spec b 1) as [->|H1]].
      * eapply means_iff; [|apply means_ret]. intros v x _. cbn beta. split; [intros [-> ->]; auto|intros [(_ & -> & ->)|[H _]]; [auto|discriminate]].
      * eapply means_iff; [|apply means_map, IHt]. intros v x _. cbn beta. split; [intros (u & -> & Hu); right; eauto|intros [(H & _)|[_ H]]; [discriminate|exact H]].
      * eapply means_iff; [|apply means_fail]. intros v x _. cbn beta. split; [contradiction|intros [[H _]|[H _]]; contradiction].
  - eapply means_iff; [|eapply means_both with (G := fun b v x => (b = 0 /\ exists y, v = VVar 0 [y] /\ form_ty E frec t1 y x) \/ (b = 1 /\ exists y, v = VVar 1 [y] /\ form_ty E frec t2 y x)); [apply means_u32|]].
    + intros v x _. cbn beta. split.
      * intros (b & y & z & -> & Hb & [(-> & u & -> & Hu)|(-> & u & -> & Hu)]); exists u; [left|right]; (split; [reflexivity|]); exists y, z; auto.
      * intros (u & [[-> (y & z & -> & Hb & Hu)]|[-> (y & z & -> & Hb & Hu)]]); [exists 0, y, z|exists 1, y, z]; (split; [reflexivity|]); (split; [exact Hb|]); eauto.
    + intros b. destruct (N.eqb_spec b 0) as [->|H0]; [|destruct (N.eqb_spec b 1) as [->|H1]].
      * eapply means_iff; [|apply means_map, means_map_err, IHt1]. intros v x _. cbn beta. split; [intros (u & -> & Hu); left; eauto|intros [[_ H]|(H & _)]; [exact H|discriminate]].
      * eapply means_iff; [|apply means_map, means_map_err, IHt2]. intros v x _. cbn beta. split; [intros (u & -> & Hu); right; eauto|intros [(H & _)|[_ H]]; [discriminate|exact H]].
      * eapply means_iff; [|apply means_fail]. intros v x _. cbn beta. split; [contradiction|intros [[H _]|[H _]]; contradiction].
  - eapply means_iff; [|eapply means_both with (G := fun b v x => (b = 0 /\ v = VVar 0 [] /\ x = []) \/ (b = 1 /\ exists y, v = VVar 1 [y] /\ form_ty E frec t y x) \/ (b = 2 /\ exists y, v = VVar 2 [y] /\ form_ty E frec t y x)); [apply means_u32|]].
    + intros v x _. cbn beta. split.
      * intros (b & y & z & -> & Hb & [(-> & -> & ->)|[(-> & u & -> & Hu)|(-> & u & -> & Hu)]]); [left; rewrite app_nil_r; auto|right; exists u; left|right; exists u; right]; (split; [reflexivity|]); exists y, z; auto.
      * intros [[-> Hb]|(u & [[-> (y & z & -> & Hb & Hu)]|[-> (y & z & -> & Hb & Hu)]])]; [exists 0, x, []; rewrite app_nil_r|exists 1, y, z|exists 2, y, z]; (split; [reflexivity|]); (split; [exact Hb|]); eauto 6.
    + intros b. destruct (N.eqb_spec b 0) as [->|H0]; [|destruct (N.eqb_spec b 1) as [->|H1]; [|destruct (N.eqb_spec b 2) as [->|H2]]].
      * eapply means_iff; [|apply means_ret]. intros v x _. cbn beta. split; [intros [-> ->]; auto|intros [(_ & -> & ->)|[[H _]|[H _]]]; [auto|discriminate|discriminate]].
      * eapply means_iff; [|apply means_map, means_map_err, IHt]. intros v x _. cbn beta. split; [intros (u & -> & Hu); right; left; eauto|intros [(H & _)|[[_ H]|[H _]]]; [discriminate|exact H|discriminate]].
      * eapply means_iff; [|apply means_map, means_map_err, IHt]. intros v x _. cbn beta. split; [intros (u & -> & Hu); right; right; eauto|intros [(H & _)|[[H _]|[_ H]]]; [discriminate|discriminate|exact H]].
      * eapply means_iff; [|apply means_fail]. intros v x _. cbn beta. split; [contradiction|intros [[H _]|[[H _]|[H _]]]; contradiction].
  - apply means_map, means_seq, means_entry; assumption.
  - apply means_map, means_seq, IHt.
  - apply means_map, means_seq, IHt.
  - exact IHt.
  - apply means_dur.
  - apply means_time.
  - eapply means_iff; [|eapply means_then with (G := fun y v => e_ext E c y = Some v); [exact IHt|]].
    + intros v x _. cbn beta. reflexivity.
    + intros y. destruct (e_ext E c y) as [w|].
      * eapply means_iff; [|apply means_ret]. intros v x _. cbn beta. split; [intros [-> ->]; auto|intros [H ->]; injection H as ->; auto].
      * eapply means_iff; [|apply means_fail]. intros v x _. cbn beta. split; [contradiction|intros [H _]; discriminate].
  - apply Hrec.
Qed.

(** Fields. *)
Lemma means_varint : means (read_varint E) (idx_len_form E).
Proof.
  intros n x Hx. unfold idx_len_form. rewrite <- (means_decoder 64 (or_introl eq_refl) n x Hx). unfold decoder. cbn [N.eqb Pos.eqb].
  unfold read_varint, decode_u64. rewrite !run_bind.
  assert (U : 2 ^ 32 <= 2 ^ e_ub E) by (apply N.pow_le_mono_r; [lia|]; pose proof ub_cases; lia).
  destruct (run read_byte x) as [[b r]|e|q] eqn:Rb; [|split; [discriminate|intros [H _]; discriminate]|split; [discriminate|intros [H _]; discriminate]].
  apply run_read_byte_ok in Rb. subst x. apply wfb_cons in Hx. destruct Hx as [Hb Hr].
  assert (K : forall k, k <= 4 -> (run (x <- read_n k ;; Ret (le_val x)) r = Ok (n, []) <-> run (x <- read_n k ;; Ret (le_val x)) r = Ok (n, []) /\ n < 2 ^ e_ub E)).
  { intros k Hk. split; [|tauto]. intros R. split; [exact R|]. apply (means_le k n r Hr) in R. destruct R as [Hl ->]. pose proof (le_bound k r Hr Hl).
    pose proof (N.pow_le_mono_r 2 (8 * k) 32 ltac:(lia) ltac:(lia)). lia. }
  destruct (N.eqb_spec b 251); [apply K; lia|]. destruct (N.eqb_spec b 252); [apply K; lia|].
  destruct (N.eqb_spec b 253).
  - rewrite !run_bind. destruct (run (read_n 8) r) as [[y z]|e1|q1]; [|split; [discriminate|intros [H _]; discriminate]|split; [discriminate|intros [H _]; discriminate]].
    destruct (le_val y <? 2 ^ e_ub E) eqn:L; cbn [run].
    + split; [intros R; split; [exact R|]; apply Ok_inj in R; injection R as <- _; lia|tauto].
    + split; [discriminate|]. intros [R L2]. apply Ok_inj in R. injection R as <- _. lia.
  - destruct (253 <? b) eqn:L.
    + cbn [run]. split; [discriminate|]. intros [R _]. destruct (N.eqb_spec b 254); [discriminate|]. destruct (N.eqb_spec b 255); [discriminate|]. lia.
    + replace (b =? 254) with false by lia. replace (b =? 255) with false by lia. cbn [run]. split; [|tauto].
      intros R. split; [exact R|]. apply Ok_inj in R. injection R as <- _. change (2 ^ 32) with 4294967296 in U. lia.
Qed.
Lemma odd_land : forall f, (N.land f 1 =? 0) = negb (N.odd f).
Proof.
  intros f. destruct f as [|[p|p|]]; reflexivity.
Qed.
Lemma means_advance : forall m, means (advance m) (fun _ x => len x = m).
Proof.
  intros m. unfold advance. eapply means_iff; [|eapply means_then with (G := fun _ (_ : unit) => True); [apply means_read_n|]].
  - intros u x _. cbn beta. split; [intros (a & [-> H] & _); exact H|intros H; eauto].
  - intros a. eapply means_iff; [|apply means_ret]. intros [] x _. cbn beta. tauto.
Qed.
Lemma means_add8 : forall n, n * 8 < 2 ^ e_ub E -> means (add8 E (n * 8)) (fun m x => table_len E n = Some m /\ x = []).
Proof.
  intros n Hn. unfold add8, table_len. destruct (n * 8 + 8 <? 2 ^ e_ub E) eqn:L.
  - eapply means_iff; [|apply means_ret]. intros m x _. cbn beta. split; [intros [-> ->]; auto|intros [H ->]; injection H as ->; auto].
  - destruct (e_dbg E).
    + eapply means_iff; [|apply means_crash]. intros m x _. cbn beta. split; [contradiction|intros [H _]; discriminate].
    + eapply means_iff; [|apply means_ret]. intros m x _. cbn beta.
      assert (U : 2 ^ 32 <= 2 ^ e_ub E) by (apply N.pow_le_mono_r; [lia|]; pose proof ub_cases; lia). change (2 ^ 32) with 4294967296 in U.
      replace ((n * 8 + 8) mod 2 ^ e_ub E) with (n * 8 + 8 - 2 ^ e_ub E); [split; [intros [-> ->]; auto|intros [H ->]; injection H as ->; auto]|].
      remember (2 ^ e_ub E) as M. clear - L Hn U. apply (N.mod_unique _ _ 1); lia.
Qed.
Lemma means_flag : forall A (p q : prog A) F G, means p F -> means q G ->
  means (f <- read_byte ;; if N.land f 1 =? 0 then p else q) (fun a x => both (flagged false) (F a) x \/ both (flagged true) (G a) x).
Proof.
  intros A p q F G Hp Hq. eapply means_iff; [|eapply means_both with (G := fun f a x => if N.odd f then G a x else F a x); [apply means_read_byte|]].
  - intros a x _. cbn beta. unfold flagged, both. split.
    + intros (f & y & z & -> & -> & H). destruct (N.odd f) eqn:O; [right|left]; exists [f], z; eauto.
    + intros [(y & z & -> & (f & -> & O) & H)|(y & z & -> & (f & -> & O) & H)]; exists f, [f], z; rewrite O; auto.
  - intros f. rewrite odd_land. destruct (N.odd f); assumption.
Qed.
Lemma means_counted_idx : forall A (p : N -> prog A) (F : N -> A -> bytes -> Prop), (forall n, means (p n) (F n)) ->
  means (n <- read_varint E ;; p n) (fun a x => exists n, both (idx_len_form E n) (F n a) x).
Proof. intros A p F H. apply means_both; [apply means_varint|exact H]. Qed.
Lemma entries_map : forall ks vs : list val, length ks = length vs -> len (map (fun p => VPair (fst p) (snd p)) (combine ks vs)) = len ks.
Proof. intros ks vs H. unfold len. rewrite map_length, combine_length. lia. Qed.

Lemma run_swap_bind : forall A B C (p : prog A) (q : A -> prog B) (f : B -> prog C) x, run (b <- (a <- p ;; q a) ;; f b) x = run (a <- p ;; b <- q a ;; f b) x.
Proof. intros. rewrite !run_bind. destruct (run p x) as [[a r]|e|z]; try reflexivity. rewrite run_bind. reflexivity. Qed.

Lemma means_idx_map : forall k a b da db F G, means da F -> means db G ->
  means (de_idx_map E k a b da db) (fun l0 x => exists l, l0 = build_idx_map E a l /\
    (both (flagged false) (both (idx_len_form E (len l)) (items (entry_form F G) l)) x
    \/ exists ks vs m, l = map (fun p => VPair (fst p) (snd p)) (combine ks vs) /\ length ks = length vs /\ len l * 8 < 2 ^ e_ub E /\ table_len E (len l) = Some m
       /\ both (flagged true) (both (idx_len_form E (len l)) (both (any m) (both (items F ks) (items G vs)))) x)).
Proof.
  intros k a b da db F G Ha Hb. unfold de_idx_map.
  eapply means_iff; [|eapply means_both with (G := fun f l0 x => exists n, both (idx_len_form E n)
     (fun y => exists l, l0 = build_idx_map E a l /\ if N.odd f then n * 8 < 2 ^ e_ub E /\ exists ks vs m, l = map (fun p => VPair (fst p) (snd p)) (combine ks vs)
          /\ len ks = n /\ len vs = n /\ table_len E n = Some m /\ both (any m) (both (items F ks) (items G vs)) y
        else len l = n /\ items (entry_form F G) l y) x);
    [apply means_read_byte|intros f; apply means_counted_idx; intros n]].
  - intros l0 x Hx. cbn beta. split.
    + intros (f & y & z & -> & -> & n & y2 & z2 & -> & Hn & l & -> & H). exists l. split; [reflexivity|]. destruct (N.odd f) eqn:O.
      * destruct H as (L & ks & vs & m & -> & Hk & Hv & Hm & H).
        assert (Q : length ks = length vs) by (unfold len in *; lia). right. exists ks, vs, m.
        rewrite entries_map, Hk by exact Q. split; [reflexivity|]. split; [exact Q|]. split; [exact L|]. split; [exact Hm|].
        exists [f], (y2 ++ z2). split; [reflexivity|]. split; [exists f; auto|]. exists y2, z2. auto.
      * destruct H as [<- H]. left. exists [f], (y2 ++ z2). split; [reflexivity|]. split; [exists f; auto|]. exists y2, z2. auto.
    + intros (l & -> & [(y & z & -> & (f & -> & O) & y2 & z2 & -> & Hn & H)|(ks & vs & m & -> & Q & L & Hm & y & z & -> & (f & -> & O) & y2 & z2 & -> & Hn & H)]).
      * exists f, [f], (y2 ++ z2). split; [reflexivity|]. split; [reflexivity|]. exists (len l), y2, z2. split; [reflexivity|]. split; [exact Hn|].
        exists l. rewrite O. auto.
      * exists f, [f], (y2 ++ z2). split; [reflexivity|]. split; [reflexivity|]. rewrite entries_map in * by exact Q. exists (len ks), y2, z2. split; [reflexivity|]. split; [exact Hn|].
        eexists. split; [reflexivity|]. rewrite O. split; [exact L|]. exists ks, vs, m. split; [reflexivity|]. split; [reflexivity|]. split; [unfold len; rewrite Q; reflexivity|]. auto.
  - assert (Z : bind (match k with KHash => alloc E (n * e_esize E (TPair a b)) | KOrd => Ret tt end) (fun _ =>
        if N.land f 1 =? 0 then l <- rep (N.to_nat n) (de_entry da db) ;; Ret (build_idx_map E a l)
        else if n * 8 <? 2 ^ e_ub E then
          m <- add8 E (n * 8) ;; advance m ;;; alloc E (n * e_esize E a) ;;; ks <- rep (N.to_nat n) da ;;
          alloc E (n * e_esize E b) ;;; vs <- rep (N.to_nat n) db ;;
          Ret (build_idx_map E a (map (fun p => VPair (fst p) (snd p)) (combine ks vs)))
        else Fail ESubReaderOverrun) =
        if N.land f 1 =? 0 then l <- rep (N.to_nat n) (de_entry da db) ;; Ret (build_idx_map E a l)
        else if n * 8 <? 2 ^ e_ub E then
          m <- add8 E (n * 8) ;; advance m ;;; alloc E (n * e_esize E a) ;;; ks <- rep (N.to_nat n) da ;;
          alloc E (n * e_esize E b) ;;; vs <- rep (N.to_nat n) db ;;
          Ret (build_idx_map E a (map (fun p => VPair (fst p) (snd p)) (combine ks vs)))
        else Fail ESubReaderOverrun) by (destruct k; [apply alloc_free|reflexivity]).
    rewrite Z. clear Z. rewrite odd_land. destruct (N.odd f); cbn [negb].
    + destruct (n * 8 <? 2 ^ e_ub E) eqn:L.
      * apply N.ltb_lt in L.
        eapply means_iff; [|eapply means_both; [apply means_add8, L|intros m; eapply means_both; [apply means_advance|intros u; rewrite alloc_free;
           eapply means_both; [apply means_rep, Ha|intros ks; rewrite alloc_free; apply means_map, means_rep, Hb]]]].
        intros l0 x Hx. cbn beta. split.
        -- intros (m & y & z & -> & [Hm ->] & _ & t & z2 & -> & Ht & ks & y3 & z3 & -> & [Hk Ik] & vs & -> & [Hv Iv]).
           eexists. split; [reflexivity|]. split; [exact L|]. exists ks, vs, m. split; [reflexivity|]. split; [unfold len; lia|]. split; [unfold len; lia|]. split; [exact Hm|].
           cbn [app]. exists t, (y3 ++ z3). split; [reflexivity|]. split; [exact Ht|]. exists y3, z3. auto.
        -- intros (l & -> & _ & ks & vs & m & -> & Hk & Hv & Hm & t & z & -> & Ht & y3 & z3 & -> & Ik & Iv).
           exists m, [], (t ++ y3 ++ z3). split; [reflexivity|]. split; [auto|]. exists tt, t, (y3 ++ z3). split; [reflexivity|]. split; [exact Ht|].
           exists ks, y3, z3. split; [reflexivity|]. split; [split; [unfold len in Hk; lia|exact Ik]|]. exists vs. split; [reflexivity|]. split; [unfold len in Hv; lia|exact Iv].
      * apply N.ltb_ge in L. eapply means_iff; [|apply means_fail]. intros l0 x _. cbn beta. split; [contradiction|intros (l & _ & L2 & _); lia].
    + eapply means_iff; [|apply means_map, means_rep, means_entry; eassumption]. intros l0 x _. cbn beta. split.
      * intros (l & -> & Hl & H). exists l. split; [reflexivity|]. split; [unfold len; lia|exact H].
      * intros (l & -> & Hl & H). exists l. split; [reflexivity|]. split; [unfold len in Hl; lia|exact H].
Qed.

Lemma means_idx_seq : forall a da F, means da F ->
  means (de_idx_seq E a da) (fun l x => both (flagged false) (both (idx_len_form E (len l)) (items F l)) x
  \/ (len l * 4 < 2 ^ e_ub E /\ both (flagged true) (both (idx_len_form E (len l)) (both (any (len l * 4)) (items F l))) x)).
Proof.
  intros a da F Ha. unfold de_idx_seq.
  eapply means_iff; [|eapply means_both with (G := fun f l x => exists n, both (idx_len_form E n)
     (fun y => len l = n /\ if N.odd f then n * 4 < 2 ^ e_ub E /\ both (any (n * 4)) (items F l) y else items F l y) x);
    [apply means_read_byte|intros f; apply means_counted_idx; intros n]].
  - intros l x Hx. cbn beta. split.
    + intros (f & y & z & -> & -> & n & y2 & z2 & -> & Hn & <- & H). destruct (N.odd f) eqn:O.
      * destruct H as (L & H). right. split; [exact L|]. exists [f], (y2 ++ z2). split; [reflexivity|]. split; [exists f; auto|]. exists y2, z2. auto.
      * left. exists [f], (y2 ++ z2). split; [reflexivity|]. split; [exists f; auto|]. exists y2, z2. auto.
    + intros [(y & z & -> & (f & -> & O) & y2 & z2 & -> & Hn & H)|(L & y & z & -> & (f & -> & O) & y2 & z2 & -> & Hn & H)].
      * exists f, [f], (y2 ++ z2). split; [reflexivity|]. split; [reflexivity|]. exists (len l), y2, z2. rewrite O. auto.
      * exists f, [f], (y2 ++ z2). split; [reflexivity|]. split; [reflexivity|]. exists (len l), y2, z2. rewrite O. auto.
  - rewrite odd_land. destruct (N.odd f); cbn [negb].
    + destruct (n * 4 <? 2 ^ e_ub E) eqn:L.
      * apply N.ltb_lt in L. eapply means_iff; [|eapply means_both; [apply means_advance|intros u; rewrite alloc_free; apply means_rep, Ha]].
        intros l x _. cbn beta. split.
        -- intros (_ & t & z & -> & Ht & Hl & H). split; [unfold len; lia|]. split; [exact L|]. exists t, z. auto.
        -- intros (Hl & _ & t & z & -> & Ht & H). exists tt, t, z. split; [reflexivity|]. split; [exact Ht|]. split; [unfold len in Hl; lia|exact H].
      * apply N.ltb_ge in L. eapply means_iff; [|apply means_fail]. intros l0 x _. cbn beta. split; [contradiction|intros (_ & L2 & _); lia].
    + rewrite alloc_free. eapply means_iff; [|apply means_rep, Ha]. intros l x _. cbn beta. unfold len. split; intros [H1 H2]; (split; [lia|exact H2]).
Qed.

Lemma means_mode : forall m t, means (de_mode E rec m t) (mode_form E frec m t).
Proof.
  intros m t. unfold mode_form. destruct m; cbn [de_mode].
  - destruct t; apply means_ty.
  - assert (K : means match fixed_of t with Some (s, w) => z <- de_fixed s w ;; Ret (VInt z) | None => Crash PType end
      (fun v x => match fixed_of t with Some (s, w) => exists z, v = VInt z /\ le_form s (N.of_nat w) z x | None => False end)).
    { destruct (fixed_of t) as [[s w]|]; [|apply means_crash]. apply means_map. unfold de_fixed. eapply means_iff; [|apply means_map, means_read_n].
      intros z x _. cbn beta. unfold le_form. split; [intros (b & -> & -> & H); auto|intros [H ->]; eauto]. }
    destruct t; exact K.
  - destruct t; try apply means_crash. destruct (bulk_of t) as [k|]; [|apply means_crash]. apply means_map, means_bulk.
  - destruct t; try apply means_crash. eapply means_iff; [|apply means_map, means_idx_map; apply means_ty]. intros v x _. cbn beta. unfold idx_map_form. split.
    + intros (l0 & -> & l & -> & H). exists l. auto.
    + intros (l & -> & H). exists (build_idx_map E t1 l). split; [reflexivity|]. exists l. auto.
  - destruct t; try apply means_crash; apply means_map, means_idx_seq, means_ty.
  - destruct t; try apply means_crash; apply means_map, means_idx_seq, means_ty.
Qed.

(** Derived types. *)
Lemma means_fields : forall opt cur tgt fs, means (de_fields E rec opt cur tgt fs) (fun p x => fields_form (mode_form E frec) opt cur tgt fs (fst p) (snd p) x).
Proof.
  intros opt cur tgt fs. induction fs as [|f fs IH]; cbn [de_fields].
  - eapply means_iff; [|apply means_ret]. intros [l old] x _. cbn [fst snd]. split.
    + intros [H ->]. inversion H; subst. constructor.
    + intros H. inversion H; subst. auto.
  - destruct (falive cur f) eqn:C; destruct (falive tgt f) eqn:T.
    + eapply means_iff; [|eapply means_both; [apply means_mode|intros v; apply means_map, IH]]. intros [l old] x _. cbn [fst snd]. split.
      * intros (v & y & z & -> & Hv & [l2 old2] & H & Hz). cbn [fst snd] in *. inversion H; subst. constructor; assumption.
      * intros H. inversion H; subst; try congruence. exists v, x0, y. split; [reflexivity|]. split; [assumption|]. exists (l0, old). auto.
    + eapply means_iff; [|eapply means_both; [apply means_mode|intros v; apply means_map, IH]]. intros [l old] x _. cbn [fst snd]. split.
      * intros (v & y & z & -> & Hv & [l2 old2] & H & Hz). cbn [fst snd] in *. inversion H; subst. constructor; assumption.
      * intros H. inversion H; subst; try congruence. exists v, x0, y. split; [reflexivity|]. split; [assumption|]. exists (l, old0). auto.
    + eapply means_iff; [|eapply means_both; [apply means_of_res|intros v; apply means_map, IH]]. intros [l old] x _. cbn [fst snd]. split.
      * intros (v & y & z & -> & [Hv ->] & [l2 old2] & H & Hz). cbn [fst snd] in *. inversion H; subst. cbn [app]. eapply ff_added; eassumption.
      * intros H. inversion H; subst; try congruence. exists v, [], x. split; [reflexivity|]. split; [auto|]. exists (l0, old). auto.
    + eapply means_iff; [|exact IH]. intros [l old] x _. cbn [fst snd]. split.
      * intros H. apply ff_neither; assumption.
      * intros H. inversion H; subst; congruence.
Qed.
Lemma converted_iff : forall cur old l l', converts cur l old = Ok l' <-> converted cur l old l'.
Proof.
  intros cur old. induction old as [|[f v] old IH]; intros l l'; cbn [converts].
  - split; [intros H; apply Ok_inj in H; subst; constructor|intros H; inversion H; subst; reflexivity].
  - split.
    + intros H. apply rbind_ok in H. destruct H as (l1 & H1 & H2). econstructor; [exact H1|]. apply IH. exact H2.
    + intros H. inversion H; subst.
      match goal with A : f_convert f l cur v = Ok _ |- _ => rewrite A end. cbn [rbind]. apply IH. assumption.
Qed.
Lemma means_content : forall opt cur tgt fs, means (p <- de_fields E rec opt cur tgt fs ;; of_res (converts cur (fst p) (snd p))) (content_form E frec opt cur tgt fs).
Proof.
  intros opt cur tgt fs. eapply means_iff; [|eapply means_then with (G := fun p l => converts cur (fst p) (snd p) = Ok l); [apply means_fields|intros p; apply means_of_res]].
  intros l x _. cbn beta. unfold content_form. split.
  - intros ([l0 old] & H & C). exists l0, old. split; [exact H|]. apply converted_iff. exact C.
  - intros (l0 & old & H & C). exists (l0, old). split; [exact H|]. apply converted_iff. exact C.
Qed.
Lemma means_run_eq : forall A (p q : prog A) F, (forall x, run p x = run q x) -> means p F -> means q F.
Proof. intros A p q F H M a x Hx. rewrite <- H. apply M, Hx. Qed.
Lemma run_content : forall B opt cur tgt fs (g : list val -> prog B) x,
  run (l <- (p <- de_fields E rec opt cur tgt fs ;; of_res (converts cur (fst p) (snd p))) ;; g l) x
  = run (p <- de_fields E rec opt cur tgt fs ;; l <- of_res (converts cur (fst p) (snd p)) ;; g l) x.
Proof. intros. apply run_swap_bind. Qed.

Lemma means_sized : forall A (p : prog A) F, means p F -> means (n <- read_varlen_len ;; alloc E n ;;; buf <- read_n n ;; in_buf p buf) (fun a x => sized (F a) x).
Proof.
  intros A p F Hp.
  eapply means_iff; [|eapply means_both with (G := fun n a x => len x = n /\ padded (F a) x); [unfold read_varlen_len; apply means_le|]].
  - intros a x _. cbn beta. unfold sized. split.
    + intros (n & y & z & -> & [Hy ->] & Hz & H). exists y, z. auto.
    + intros (y & z & -> & Hy & Hz & H). exists (le_val y), y, z. auto.
  - intros n. rewrite alloc_free. eapply means_iff; [|eapply means_bind with (G := fun b a x => x = [] /\ padded (F a) b); [apply means_read_n|]].
    + intros a x _. cbn beta. split.
      * intros (b & y & z & -> & [-> Hl] & -> & H). rewrite app_nil_r. split; [exact Hl|exact H].
      * intros [Hl H]. exists x, x, []. rewrite app_nil_r. split; [reflexivity|]. split; [auto|]. split; [reflexivity|exact H].
    + intros b y Hy [-> _]. apply means_in_buf; assumption.
Qed.
Lemma means_read_any : forall n e, means (Read n e (fun _ => Ret tt)) (fun _ x => len x = n).
Proof.
  intros n e [] x _. cbn [run]. split.
  - intros H. destruct (split_at n x) as [[y z]|] eqn:S; [|discriminate]. apply Ok_inj in H. injection H as ->. apply split_at_some in S. destruct S as [-> S]. rewrite app_nil_r. exact S.
  - intros H. rewrite <- (app_nil_r x), (split_at_app_n _ n x [] (eq_sym H)). reflexivity.
Qed.
Lemma means_struct : forall h cur tgt fs,
  means (if h_opt h then de_struct_opt E rec (h_idx h) cur tgt fs else de_struct_legacy E rec cur tgt fs) (struct_form E frec h cur tgt fs).
Proof.
  intros h cur tgt fs. unfold struct_form. destruct (h_opt h).
  - unfold de_struct_opt. eapply means_iff; [|apply means_sized].
    2: { unfold struct_payload. eapply means_both with (F := fun _ x => len x = if h_idx h then 4 * len (filter (falive cur) fs) else 0)
           (G := fun _ v x => exists l, v = VSeq l /\ content_form E frec true cur tgt fs l x).
         - destruct (h_idx h).
           + apply means_read_any.
           + eapply means_iff; [|apply means_ret]. intros [] x _. cbn beta. split; [intros [_ ->]; reflexivity|intros H; apply len_0 in H; auto].
         - intros _. eapply means_run_eq; [intros x; apply run_content|]. apply means_map, means_content. }
    intros v x Hx. cbn beta. split.
    + intros (y & z & -> & Hy & Hz & u & w & -> & _ & a & b & -> & Ha & l & -> & C). exists l. split; [reflexivity|]. exists y, ((a ++ b) ++ w).
      repeat split; try assumption. exists (a ++ b), w. split; [reflexivity|]. exists a, b. auto.
    + intros (l & -> & y & z & -> & Hy & Hz & u & w & -> & a & b & -> & Ha & C). exists y, ((a ++ b) ++ w). repeat split; try assumption.
      exists (a ++ b), w. split; [reflexivity|]. exists tt, a, b. repeat split; try assumption. exists l. auto.
  - unfold de_struct_legacy. eapply means_run_eq; [intros x; apply run_content|]. apply means_map, means_content.
Qed.
Lemma find_unique : forall (ds : list (variant * N)) (f : variant -> bool) d vr k, NoDup (map snd ds) ->
  (find (fun p => (snd p =? d) && f (fst p)) ds = Some (vr, k) <-> In (vr, d) ds /\ f vr = true /\ k = d).
Proof.
  intros ds f d vr k. induction ds as [|[w j] ds IH]; intros Hn; cbn [find map In fst snd] in *.
  - split; [discriminate|intros [[] _]].
  - inversion Hn; subst. destruct (N.eqb_spec j d) as [->|Hj]; cbn [andb].
    + destruct (f w) eqn:Fw.
      * split.
        -- intros H. injection H as -> ->. auto.
        -- intros ([H|H] & Fv & ->); [injection H as ->; reflexivity|]. exfalso. apply H1. apply (in_map snd) in H. exact H.
      * rewrite IH by assumption. split; [tauto|]. intros ([H|H] & Fv & ->); [injection H as ->; congruence|auto].
    + rewrite IH by assumption. split; [tauto|]. intros ([H|H] & Fv & ->); [injection H as -> ->; congruence|auto].
Qed.
Lemma find_disc_iff : forall ds d vr k, NoDup (map snd ds) -> (find_disc d ds = Some (vr, k) <-> In (vr, d) ds /\ k = d).
Proof.
  intros ds d vr k Hn. pose proof (find_unique ds (fun _ => true) d vr k Hn) as H. unfold find_disc.
  assert (Q : forall l : list (variant * N), find (fun p => (snd p =? d) && true) l = find (fun p => snd p =? d) l).
  { intros l. induction l as [|p l IH]; [reflexivity|]. cbn [find]. rewrite andb_true_r, IH. reflexivity. }
  rewrite Q in H. rewrite H. tauto.
Qed.
Lemma means_variant : forall cur tgt vr l,
  means (if valive tgt vr then Ret (VVar (v_name vr) l) else of_res (v_convert vr l cur)) (fun v x => variant_value cur tgt vr l v /\ x = []).
Proof. intros cur tgt vr l. unfold variant_value. destruct (valive tgt vr); [apply means_ret|apply means_of_res]. Qed.
Lemma means_vfields : forall cur fs, means (de_vfields E rec cur fs) (opt_fields_form E frec cur fs).
Proof.
  intros cur fs. unfold opt_fields_form. induction fs as [|f fs IH]; cbn [de_vfields filter].
  - eapply means_iff; [|apply means_ret]. intros l x _. cbn beta. split.
    + intros [-> ->]. split; [apply items_nil; reflexivity|reflexivity].
    + intros [H Hl]. destruct l; [|discriminate]. apply items_nil in H. auto.
  - destruct (falive cur f) eqn:C; [|exact IH].
    eapply means_iff; [|eapply means_both; [apply means_ty|intros v; apply means_map, IH]]. intros l x _. cbn beta. split.
    + intros (v & y & z & -> & Hv & l2 & -> & H & Hl). cbn [combine length]. split; [|congruence]. apply items_cons. exists y, z. auto.
    + intros [H Hl]. destruct l as [|v l]; [discriminate|]. cbn [combine length] in *. apply items_cons in H. destruct H as (y & z & -> & Hv & H).
      exists v, y, z. split; [reflexivity|]. split; [exact Hv|]. exists l. auto.
Qed.
Lemma means_payload : forall A s (p : prog A) F, means p F ->
  means (buf <- variant_buf E (Some s) ;; in_buf p buf) (fun a x => payload_form s (F a) x).
Proof.
  intros A s p F Hp. destruct s as [|n|]; cbn [variant_buf payload_form].
  - cbn [bind]. eapply means_iff; [|apply means_in_buf; [constructor|exact Hp]]. intros a x _. cbn beta. split.
    + intros [-> (y & z & H & K)]. symmetry in H. apply app_eq_nil in H. destruct H as [-> ->]. auto.
    + intros [-> H]. split; [reflexivity|]. exists [], []. auto.
  - rewrite alloc_free. eapply means_iff; [|eapply means_bind with (G := fun b a x => x = [] /\ padded (F a) b); [apply means_read_n|]].
    + intros a x _. cbn beta. split.
      * intros (b & y & z & -> & [-> Hl] & -> & H). rewrite app_nil_r. split; [exact Hl|exact H].
      * intros [Hl H]. exists x, x, []. rewrite app_nil_r. split; [reflexivity|]. split; [auto|]. split; [reflexivity|exact H].
    + intros b y Hy [-> _]. apply means_in_buf; assumption.
  - eapply means_run_eq; [|apply means_sized, Hp]. intros x. rewrite !run_bind. destruct (run read_varlen_len x) as [[n r]|e|q]; [|reflexivity|reflexivity].
    rewrite !alloc_free. rewrite !run_bind. reflexivity.
Qed.
Lemma tag_class : forall t, t < 256 -> forall s, size_class t = Ok s <-> t / 32 mod 4 = to_bits s.
Proof.
  intros t Ht s. unfold size_class.
  assert (Q : N.shiftr (N.land t SIZE_CLASS_MASK) SIZE_CLASS_SHIFT = t / 32 mod 4).
  { unfold SIZE_CLASS_MASK, SIZE_CLASS_SHIFT. rewrite N.shiftr_land. change (N.shiftr 96 5) with (N.ones 2). rewrite N.land_ones, N.shiftr_div_pow2. reflexivity. }
  rewrite Q. pose proof (N.mod_lt (t / 32) 4 ltac:(lia)) as L. remember (t / 32 mod 4) as c. clear - L. unfold from_bits.
  destruct (N.eqb_spec c 0) as [->|]; [|destruct (N.eqb_spec c 1) as [->|]; [|destruct (N.eqb_spec c 2) as [->|]]]; destruct s; cbn [to_bits]; split; intros H; try reflexivity; try discriminate; lia.
Qed.
Lemma variant_id_mod : forall t, variant_id t = t mod 32.
Proof. intros t. unfold variant_id, VARIANT_ID_MASK. change 31 with (N.ones 5). rewrite N.land_ones. reflexivity. Qed.
Lemma class_code_bits : forall s, class_code s = to_bits (class_of s).
Proof. intros []; reflexivity. Qed.
Lemma sclass_eqb_eq : forall a b, sclass_eqb a b = true <-> a = b.
Proof. intros [] []; cbn; split; intros H; try reflexivity; discriminate. Qed.
Lemma to_bits_inj : forall a b, to_bits a = to_bits b -> a = b.
Proof. intros [] []; cbn; intros H; try reflexivity; discriminate. Qed.

Lemma means_variant_opt : forall cur tgt vr s, v_size vr = Some s ->
  means (de_variant_opt E rec cur tgt vr) (fun v x => exists l, variant_value cur tgt vr l v /\ payload_form s (opt_fields_form E frec cur (v_fields vr) l) x).
Proof.
  intros cur tgt vr s Hs. unfold de_variant_opt. rewrite Hs.
  eapply means_run_eq; [intros x; apply run_swap_bind|].
  eapply means_iff; [|eapply means_then; [apply means_payload, means_vfields|intros l; apply (means_variant cur tgt vr)]].
  intros v x _. cbn beta. split; intros (l & H1 & H2); exists l; auto.
Qed.
Lemma means_enum : forall h cur tgt vs,
  means (if h_opt h then de_enum_opt E rec cur tgt vs else de_enum_legacy E rec cur tgt vs) (enum_form E frec h cur tgt vs).
Proof.
  intros h cur tgt vs. unfold enum_form, de_enum_opt, de_enum_legacy. destruct (calc_disc cur vs) as [ds|] eqn:Ds.
  2: { assert (K : means (Crash PType : prog val) (fun v x => exists ds vr l, None = Some ds /\ variant_value cur tgt vr l v /\
          if h_opt h then
            exists tag s, v_size vr = Some s /\ In (vr, tag mod 32) ds /\ tag / 32 mod 4 = class_code s
              /\ both (eq [tag]) (payload_form s (opt_fields_form E frec cur (v_fields vr) l)) x
          else exists k, In (vr, k) ds /\ both (int_form E U32 (Z.of_N k)) (content_form E frec false cur tgt (v_fields vr) l) x)).
       { eapply means_iff; [|apply means_crash]. intros v x _. cbn beta. split; [contradiction|]. intros (? & ? & ? & H & _). discriminate. }
       destruct (h_opt h); exact K. }
  pose proof (calc_disc_nodup _ _ _ Ds) as Hn. destruct (h_opt h).
  - unfold read_optimised_tag, read_tag.
    eapply means_iff; [|eapply means_bind with (F := fun ts x => x = [fst ts] /\ size_class (fst ts) = Ok (snd ts))
       (G := fun ts v x => exists vr s l, v_size vr = Some s /\ class_of s = snd ts /\ In (vr, variant_id (fst ts)) ds /\ variant_value cur tgt vr l v /\ payload_form s (opt_fields_form E frec cur (v_fields vr) l) x)].
    + intros v x Hx. cbn beta. split.
      * intros ([t c] & y & z & -> & [-> Hc] & vr & s & l & Hs & Hk & Hi & Hv & Hp). cbn [fst snd] in *. exists ds, vr, l. split; [reflexivity|]. split; [exact Hv|].
        exists t, s. split; [exact Hs|]. rewrite <- variant_id_mod. split; [exact Hi|]. split; [|exists [t], z; auto].
        apply wfb_cons in Hx. rewrite class_code_bits, Hk. apply tag_class; [apply Hx|exact Hc].
      * intros (ds' & vr & l & H & Hv & t & s & Hs & Hi & Hc & y & z & -> & <- & Hp). injection H as <-. exists (t, class_of s), [t], z. cbn [fst snd].
        split; [reflexivity|]. split.
        -- split; [reflexivity|]. apply wfb_cons in Hx. apply tag_class; [apply Hx|]. rewrite Hc. apply class_code_bits.
        -- exists vr, s, l. rewrite variant_id_mod. auto.
    + eapply means_iff; [|eapply means_bind with (F := fun t x => x = [t]) (G := fun t ts x => x = [] /\ fst ts = t /\ size_class t = Ok (snd ts)); [apply means_read_byte|intros t y _ _]].
      * intros [t c] x _. cbn [fst snd]. split.
        -- intros (t' & y & z & -> & -> & -> & -> & H). auto.
        -- intros [-> H]. exists t, [t], []. auto.
      * eapply means_iff; [|apply means_map, means_of_res]. intros [t' c] x _. cbn [fst snd]. split.
        -- intros (c' & H & Hc & ->). injection H as -> ->. auto.
        -- intros (-> & -> & Hc). exists c. auto.
    + intros [t c] y Hy [-> Hc]. cbn [fst snd] in *.
      pose proof (fun vr k => find_unique ds (fun vr => match v_size vr with Some s => sclass_eqb (class_of s) c | None => false end) (variant_id t) vr k Hn) as FU.
      unfold find_tag. destruct (find _ ds) as [[vr k]|].
      * destruct (proj1 (FU vr k) eq_refl) as (Hi & Hs & ->). destruct (v_size vr) as [s|] eqn:Sz; [|discriminate]. apply sclass_eqb_eq in Hs.
        eapply means_iff; [|apply means_variant_opt; exact Sz]. intros v x _. cbn beta. split.
        -- intros (l & Hv & Hp). exists vr, s, l. auto.
        -- intros (vr2 & s2 & l & Sz2 & Hs2 & Hi2 & Hv & Hp).
           assert (Q : Some (vr, variant_id t) = Some (vr2, variant_id t)).
           { apply FU. split; [exact Hi2|]. rewrite Sz2. split; [apply sclass_eqb_eq; exact Hs2|reflexivity]. }
           injection Q as <-. rewrite Sz in Sz2. injection Sz2 as <-. exists l. auto.
      * eapply means_iff; [|apply means_fail]. intros v x _. cbn beta. split; [contradiction|]. intros (vr2 & s2 & l & Sz2 & Hs2 & Hi2 & _).
        assert (Q : None = Some (vr2, variant_id t)); [|discriminate].
        apply FU. split; [exact Hi2|]. rewrite Sz2. split; [apply sclass_eqb_eq; exact Hs2|reflexivity].
  - eapply means_iff; [|eapply means_both with (G := fun k v x => exists vr l, In (vr, k) ds /\ variant_value cur tgt vr l v /\ content_form E frec false cur tgt (v_fields vr) l x); [apply means_u32|intros k]].
    + intros v x _. cbn beta. split.
      * intros (k & y & z & -> & Hk & vr & l & Hi & Hv & Hc). exists ds, vr, l. split; [reflexivity|]. split; [exact Hv|]. exists k. split; [exact Hi|]. exists y, z. auto.
      * intros (ds' & vr & l & H & Hv & k & Hi & y & z & -> & Hk & Hc). injection H as <-. exists k, y, z. split; [reflexivity|]. split; [exact Hk|]. exists vr, l. auto.
    + pose proof (fun vr j => find_disc_iff ds k vr j Hn) as FU. destruct (find_disc k ds) as [[vr j]|].
      * destruct (proj1 (FU vr j) eq_refl) as (Hi & ->). unfold de_variant_legacy. eapply means_run_eq; [intros x; apply run_content|].
        eapply means_iff; [|eapply means_then; [apply means_content|intros l; apply (means_variant cur tgt vr)]]. intros v x _. cbn beta. split.
        -- intros (l & Hc & Hv). exists vr, l. auto.
        -- intros (vr2 & l & Hi2 & Hv & Hc). assert (Q : Some (vr, k) = Some (vr2, k)) by (apply FU; auto). injection Q as <-. exists l. auto.
      * eapply means_iff; [|apply means_fail]. intros v x _. cbn beta. split; [contradiction|]. intros (vr2 & l & Hi2 & _).
        assert (Q : None = Some (vr2, k)) by (apply FU; auto). discriminate.
Qed.
Lemma means_derived : forall s, means (de_derived E rec s) (derived_form E frec s).
Proof.
  intros s. unfold de_derived, derived_form.
  eapply means_iff; [|eapply means_both with (G := fun r v x => exists h, sent s r = Some h /\ match s_body s with SStruct fs => struct_form E frec h r (scur s) fs v x | SEnum vs => enum_form E frec h r (scur s) vs v x end); [apply means_u16|intros r]].
  - intros v x _. cbn beta. split.
    + intros (r & y & z & -> & Hr & h & Hh & H). exists r, h. split; [exact Hh|]. exists y, z. auto.
    + intros (r & h & Hh & y & z & -> & Hr & H). exists r, y, z. split; [reflexivity|]. split; [exact Hr|]. exists h. auto.
  - unfold de_body. destruct (sent s r) as [h|].
    + destruct (s_body s) as [fs|vs].
      * eapply means_iff; [|apply means_struct]. intros v x _. cbn beta. split; [intros H; exists h; split; [reflexivity|exact H]|intros (h' & Q & H); injection Q as <-; exact H].
      * eapply means_iff; [|apply means_enum]. intros v x _. cbn beta. split; [intros H; exists h; split; [reflexivity|exact H]|intros (h' & Q & H); injection Q as <-; exact H].
    + eapply means_iff; [|apply means_fail]. intros v x _. cbn beta. split; [contradiction|intros (h & Q & _); discriminate].
Qed.
End Rec.

Lemma means_ref : forall d n, means (de_ref E d n) (form_ref E d n).
Proof.
  induction d as [|d IH]; intros n; cbn [de_ref form_ref]; [apply means_crash|].
  destruct (e_sch E n) as [s|].
  - eapply means_iff; [|apply means_derived, IH]. intros v x _. cbn beta. split; [intros H; exists s; split; [reflexivity|exact H]|intros (s' & Q & H); injection Q as <-; exact H].
  - eapply means_iff; [|apply means_crash]. intros v x _. cbn beta. split; [contradiction|intros (s & Q & _); discriminate].
Qed.
Lemma means_deserialize : forall d t, means (deserialize E d t) (form E d t).
Proof. intros d t. apply means_ty, means_ref. Qed.
End F.
