(** Lemmas about Base.  Proof part. *)

From Verif Require Import Base.
From Coq Require Import List NArith ZArith Bool Lia ZifyBool ZifyN ZifyNat.
Import ListNotations.
Open Scope N_scope.

Lemma len_nil : forall A, len (@nil A) = 0.
Proof. reflexivity. Qed.
Lemma len_cons : forall A (x : A) l, len (x :: l) = 1 + len l.
Proof. intros; unfold len; cbn [length]; lia. Qed.
Lemma len_app : forall A (l1 l2 : list A), len (l1 ++ l2) = len l1 + len l2.
Proof. intros; unfold len; rewrite app_length; lia. Qed.
Lemma len_map : forall A B (f : A -> B) l, len (map f l) = len l.
Proof. intros; unfold len; rewrite map_length; reflexivity. Qed.
Lemma len_0 : forall A (l : list A), len l = 0 -> l = [].
Proof. intros A [|x l]; [reflexivity|rewrite len_cons; lia]. Qed.
Lemma len_to_nat : forall A (l : list A), N.to_nat (len l) = length l.
Proof. intros; unfold len; lia. Qed.

Lemma split_at_app : forall A (x y : list A), split_at (len x) (x ++ y) = Some (x, y).
Proof.
  induction x as [|a x IH]; intros y.
  - destruct y; reflexivity.
  - rewrite len_cons. cbn [app split_at].
    destruct (1 + len x) eqn:E; [lia|]. rewrite <- E.
    replace (N.pred (1 + len x)) with (len x) by lia. rewrite IH. reflexivity.
Qed.

Lemma split_at_app_n : forall A n (x y : list A), n = len x -> split_at n (x ++ y) = Some (x, y).
Proof. intros; subst; apply split_at_app. Qed.

Lemma split_at_some : forall A (l : list A) n x y,
  split_at n l = Some (x, y) -> l = x ++ y /\ len x = n.
Proof.
  induction l as [|a l IH]; intros n x y H.
  - destruct n; cbn in H; inversion H; subst; auto.
  - destruct n as [|p]; cbn [split_at] in H.
    + inversion H; subst; auto.
    + destruct (split_at (N.pred (N.pos p)) l) as [[x' y']|] eqn:E; [|discriminate].
      inversion H; subst. apply IH in E. destruct E as [-> E].
      split; [reflexivity|]. rewrite len_cons. lia.
Qed.

Lemma split_at_none : forall A (l : list A) n, split_at n l = None <-> len l < n.
Proof.
  induction l as [|a l IH]; intros n.
  - rewrite len_nil. destruct n as [|p]; cbn; split; intros; try discriminate; try lia; auto.
  - rewrite len_cons. destruct n as [|p]; cbn [split_at].
    + split; [discriminate|lia].
    + destruct (split_at (N.pred (N.pos p)) l) as [[x y]|] eqn:E.
      * split; [discriminate|]. intros H. exfalso.
        assert (H1 : split_at (N.pred (N.pos p)) l = None) by (apply IH; lia). congruence.
      * apply IH in E. split; [lia|reflexivity].
Qed.

Lemma split_at_le : forall A (l : list A) n, n <= len l ->
  exists x y, split_at n l = Some (x, y) /\ l = x ++ y /\ len x = n.
Proof.
  intros A l n H. destruct (split_at n l) as [[x y]|] eqn:E.
  - exists x, y. split; [reflexivity|]. apply split_at_some; assumption.
  - apply split_at_none in E. lia.
Qed.

Lemma split_at_0 : forall A (l : list A), split_at 0 l = Some ([], l).
Proof. destruct l; reflexivity. Qed.

Lemma le_bytes_length : forall k n, length (le_bytes k n) = k.
Proof. induction k; intros; cbn [le_bytes length]; auto. Qed.
Lemma le_bytes_len : forall k n, len (le_bytes k n) = N.of_nat k.
Proof. intros; unfold len; rewrite le_bytes_length; reflexivity. Qed.
Lemma le_bytes_wf : forall k n, wfb (le_bytes k n).
Proof.
  induction k; intros n; cbn [le_bytes]; constructor; [|apply IHk].
  apply N.mod_lt; lia.
Qed.

Lemma pow256_S : forall k, 256 ^ N.of_nat (S k) = 256 * 256 ^ N.of_nat k.
Proof. intros. rewrite Nat2N.inj_succ, N.pow_succ_r'. reflexivity. Qed.

Lemma le_val_bytes : forall k n, n < 256 ^ N.of_nat k -> le_val (le_bytes k n) = n.
Proof.
  induction k; intros n H; cbn [le_bytes le_val].
  - cbn in H. lia.
  - rewrite pow256_S in H. rewrite IHk; [|apply N.div_lt_upper_bound; lia].
    pose proof (N.div_mod n 256). lia.
Qed.

Lemma le_val_bytes_mod : forall k n, le_val (le_bytes k n) = n mod 256 ^ N.of_nat k.
Proof.
  induction k; intros n; cbn [le_bytes le_val].
  - cbn. rewrite N.mod_1_r. reflexivity.
  - rewrite IHk, pow256_S. rewrite N.mod_mul_r; [reflexivity|lia|apply N.pow_nonzero; lia].
Qed.

Lemma le_val_bound : forall l, wfb l -> le_val l < 256 ^ len l.
Proof.
  induction l as [|b l IH]; intros H; cbn [le_val].
  - cbn. lia.
  - inversion H; subst. specialize (IH H3). rewrite len_cons, N.pow_add_r.
    change (256 ^ 1) with 256. nia.
Qed.

Lemma le_bytes_val : forall l, wfb l -> le_bytes (length l) (le_val l) = l.
Proof.
  induction l as [|b l IH]; intros H; cbn [length le_bytes le_val]; [reflexivity|].
  inversion H; subst. f_equal.
  - rewrite N.mul_comm, N.mod_add by lia. apply N.mod_small; assumption.
  - rewrite N.mul_comm, N.div_add by lia. rewrite (N.div_small b) by assumption.
    rewrite N.add_0_l. apply IH; assumption.
Qed.

Lemma le_bytes_mod : forall k n, le_bytes k (n mod 256 ^ N.of_nat k) = le_bytes k n.
Proof.
  intros k n. rewrite <- le_val_bytes_mod.
  rewrite <- (le_bytes_length k n) at 1. apply le_bytes_val, le_bytes_wf.
Qed.

Lemma le_bytes_inj : forall k a b, a < 256 ^ N.of_nat k -> b < 256 ^ N.of_nat k ->
  le_bytes k a = le_bytes k b -> a = b.
Proof.
  intros k a b Ha Hb H. rewrite <- (le_val_bytes k a Ha), <- (le_val_bytes k b Hb), H. reflexivity.
Qed.

Lemma wfb_app : forall a b, wfb (a ++ b) <-> wfb a /\ wfb b.
Proof. intros; unfold wfb; apply Forall_app. Qed.
Lemma wfb_nil : wfb [].
Proof. constructor. Qed.
Lemma wfb_cons : forall x l, wfb (x :: l) <-> x < 256 /\ wfb l.
Proof. intros; unfold wfb; rewrite Forall_cons_iff; reflexivity. Qed.
Lemma wfbb_iff : forall l, wfbb l = true <-> wfb l.
Proof.
  unfold wfbb, wfb. intros. rewrite forallb_forall, Forall_forall.
  split; intros H x Hx; specialize (H x Hx); lia.
Qed.

Lemma wrapZ_bound : forall bits z, wrapZ bits z < 2 ^ bits.
Proof.
  intros. unfold wrapZ.
  assert (0 < 2 ^ Z.of_N bits)%Z by (apply Z.pow_pos_nonneg; lia).
  pose proof (Z.mod_pos_bound z (2 ^ Z.of_N bits) H).
  rewrite <- (N2Z.id (2 ^ bits)). rewrite N2Z.inj_pow. change (Z.of_N 2) with 2%Z. lia.
Qed.

Lemma pow2_split : forall bits, 0 < bits -> (2 ^ bits = 2 * 2 ^ (bits - 1))%N.
Proof.
  intros. replace bits with (N.succ (bits - 1)) at 1 by lia. rewrite N.pow_succ_r'. reflexivity.
Qed.
Lemma zpow2 : forall bits, (Z.of_N (2 ^ bits) = 2 ^ Z.of_N bits)%Z.
Proof. intros; rewrite N2Z.inj_pow; reflexivity. Qed.

(** signed range *)
Definition inS (bits : N) (z : Z) : Prop := (- 2 ^ (Z.of_N bits - 1) <= z < 2 ^ (Z.of_N bits - 1))%Z.
Definition inU (bits : N) (z : Z) : Prop := (0 <= z < 2 ^ Z.of_N bits)%Z.

Lemma zpow2_split : forall bits, 0 < bits -> (2 ^ Z.of_N bits = 2 * 2 ^ (Z.of_N bits - 1))%Z.
Proof.
  intros. replace (Z.of_N bits) with (Z.succ (Z.of_N bits - 1)) at 1 by lia.
  rewrite Z.pow_succ_r by lia. reflexivity.
Qed.

Lemma signZ_wrapZ : forall bits z, 0 < bits -> inS bits z -> signZ bits (wrapZ bits z) = z.
Proof.
  intros bits z Hb [H1 H2]. unfold signZ, wrapZ.
  pose proof (zpow2_split bits Hb) as E.
  pose proof (zpow2 (bits - 1)) as E1. rewrite N2Z.inj_sub in E1 by lia.
  change (Z.of_N 1) with 1%Z in E1.
  set (P := (2 ^ (Z.of_N bits - 1))%Z) in *.
  assert (0 < P)%Z by (apply Z.pow_pos_nonneg; lia).
  set (Q := (2 ^ Z.of_N bits)%Z) in *.
  destruct (Z_lt_le_dec z 0).
  - assert (Em : (z mod Q = z + Q)%Z).
    { rewrite <- (Z.mod_small (z + Q) Q) by lia.
      rewrite <- (Z_mod_plus_full z 1 Q). f_equal; lia. }
    rewrite Em.
    destruct (Z.to_N (z + Q) <? 2 ^ (bits - 1)) eqn:F; lia.
  - rewrite Z.mod_small by lia.
    destruct (Z.to_N z <? 2 ^ (bits - 1)) eqn:F; lia.
Qed.

Lemma signZ_range : forall bits n, 0 < bits -> n < 2 ^ bits -> inS bits (signZ bits n).
Proof.
  intros bits n Hb H. unfold signZ, inS.
  pose proof (zpow2_split bits Hb) as E.
  pose proof (zpow2 (bits - 1)) as E1. rewrite N2Z.inj_sub in E1 by lia.
  pose proof (zpow2 bits) as E2.
  change (Z.of_N 1) with 1%Z in E1.
  set (P := (2 ^ (Z.of_N bits - 1))%Z) in *.
  assert (0 < P)%Z by (apply Z.pow_pos_nonneg; lia).
  set (Q := (2 ^ Z.of_N bits)%Z) in *.
  destruct (n <? 2 ^ (bits - 1)) eqn:F; lia.
Qed.

Lemma wrapZ_signZ : forall bits n, 0 < bits -> n < 2 ^ bits -> wrapZ bits (signZ bits n) = n.
Proof.
  intros bits n Hb H. unfold signZ, wrapZ.
  pose proof (zpow2 bits) as E2.
  set (Q := (2 ^ Z.of_N bits)%Z) in *.
  destruct (n <? 2 ^ (bits - 1)) eqn:F.
  - rewrite Z.mod_small by lia. lia.
  - assert (Em : ((Z.of_N n - Q) mod Q = Z.of_N n)%Z).
    { rewrite <- (Z.mod_small (Z.of_N n) Q) at 2 by lia.
      rewrite <- (Z_mod_plus_full (Z.of_N n - Q) 1 Q). f_equal; lia. }
    rewrite Em. lia.
Qed.

Lemma wrapZ_unsigned : forall bits z, inU bits z -> wrapZ bits z = Z.to_N z.
Proof. intros bits z [H1 H2]. unfold wrapZ. rewrite Z.mod_small by lia. reflexivity. Qed.

Lemma rmap_ok : forall A B (f : A -> B) r b, rmap f r = Ok b -> exists a, r = Ok a /\ b = f a.
Proof. intros A B f [a|e|p] b H; cbn in H; inversion H; subst; eauto. Qed.
Lemma rbind_ok : forall A B (r : res A) (f : A -> res B) b, rbind r f = Ok b ->
  exists a, r = Ok a /\ f a = Ok b.
Proof. intros A B [a|e|p] f b H; cbn in H; try discriminate; eauto. Qed.

Lemma firstn_len : forall A (l : list A) k, (k <= length l)%nat -> len (firstn k l) = N.of_nat k.
Proof. intros. unfold len. rewrite firstn_length. lia. Qed.
