(** Discriminant assignment.  Proofs. *)

From Verif Require Import Base BaseL Ty.
From Coq Require Import List NArith Bool Lia.
Import ListNotations.
Open Scope N_scope.

Lemma existsb_eqb : forall d l, existsb (N.eqb d) l = true <-> In d l.
Proof.
  intros d l. rewrite existsb_exists. split.
  - intros (x & Hx & E). apply N.eqb_eq in E. subst. assumption.
  - intros H. exists d. split; [assumption|apply N.eqb_refl].
Qed.
Lemma existsb_eqb_false : forall d l, existsb (N.eqb d) l = false <-> ~ In d l.
Proof. intros d l. rewrite <- existsb_eqb. destruct (existsb (N.eqb d) l); split; congruence. Qed.

(** Number of used values at or above [n]. *)
Definition above (n : N) (used : list N) : nat := length (filter (fun d => n <=? d) used).
Lemma above_len : forall n used, (above n used <= length used)%nat.
Proof. intros n used. unfold above. induction used; cbn; [lia|]. destruct (n <=? a); cbn; lia. Qed.
Lemma above_mono : forall n used, (above (n + 1) used <= above n used)%nat.
Proof.
  intros n used. unfold above. induction used as [|a used IH]; cbn; [lia|].
  destruct (n + 1 <=? a) eqn:E, (n <=? a) eqn:F; cbn; lia.
Qed.
Lemma above_in : forall n used, In n used -> (above (n + 1) used < above n used)%nat.
Proof.
  intros n. induction used as [|a used IH]; intros H; [destruct H|].
  unfold above in *. cbn. destruct H as [->|H].
  - replace (n + 1 <=? n) with false by lia. replace (n <=? n) with true by lia. cbn.
    pose proof (above_mono n used). unfold above in *. lia.
  - specialize (IH H). destruct (n + 1 <=? a) eqn:E, (n <=? a) eqn:F; cbn; lia.
Qed.
Lemma next_free_fresh : forall fuel used n, (above n used <= fuel)%nat -> ~ In (next_free fuel used n) used.
Proof.
  induction fuel as [|f IH]; intros used n H; cbn.
  - intros F. apply above_in in F. lia.
  - destruct (existsb (N.eqb n) used) eqn:E.
    + apply IH. apply existsb_eqb, above_in in E. lia.
    + apply existsb_eqb_false; assumption.
Qed.
Lemma next_free_ge : forall fuel used n, n <= next_free fuel used n.
Proof.
  induction fuel as [|f IH]; intros used n; cbn; [lia|].
  destruct (existsb (N.eqb n) used); [|lia]. specialize (IH used (n + 1)). lia.
Qed.
(** Least: everything skipped was used. *)
Lemma next_free_least : forall fuel used n d, n <= d -> d < next_free fuel used n -> In d used.
Proof.
  induction fuel as [|f IH]; intros used n d H1 H2; cbn in H2; [lia|].
  destruct (existsb (N.eqb n) used) eqn:E; [|lia].
  assert (d = n \/ n + 1 <= d) as [->|H] by lia.
  - apply existsb_eqb; assumption.
  - apply (IH used (n + 1)); assumption.
Qed.

(** The variants alive at [r] are assigned, in order. *)
Lemma assign_fst : forall r vs used n, map fst (assign r vs used n) = filter (valive r) vs.
Proof.
  induction vs as [|v vs IH]; intros used n; cbn; [reflexivity|].
  destruct (valive r v); [|apply IH]. destruct (v_over v r); cbn; f_equal; apply IH.
Qed.
Lemma calc_disc_fst : forall r vs ds, calc_disc r vs = Some ds -> map fst ds = filter (valive r) vs.
Proof.
  intros r vs ds H. unfold calc_disc in H. destruct (gather r vs []); [|discriminate].
  inversion H; subst. apply assign_fst.
Qed.

(** Overrides of the alive variants. *)
Fixpoint overs (r : N) (vs : list variant) : list N :=
  match vs with
  | [] => []
  | v :: vs' => if valive r v then match v_over v r with Some d => d :: overs r vs' | None => overs r vs' end
                else overs r vs'
  end.
Lemma gather_spec : forall r vs used u, NoDup used -> gather r vs used = Some u ->
  NoDup u /\ (forall d, In d u <-> In d used \/ In d (overs r vs)) /\ NoDup (overs r vs)
  /\ (forall d, In d (overs r vs) -> ~ In d used).
Proof.
  induction vs as [|v vs IH]; intros used u Hn H; cbn in H.
  - inversion H; subst. cbn. repeat split; auto; try tauto. constructor.
  - cbn [overs]. destruct (valive r v); [|eauto].
    destruct (v_over v r) as [d|] eqn:Ev; [|eauto].
    destruct (existsb (N.eqb d) used) eqn:E; [discriminate|].
    apply existsb_eqb_false in E.
    destruct (IH (d :: used) u) as (H1 & H2 & H3 & H4); [constructor; assumption|assumption|].
    split; [assumption|]. split; [|split].
    + intros x. rewrite H2. cbn. tauto.
    + constructor; [|assumption]. intros Hd. apply (H4 d Hd). left; reflexivity.
    + intros x [<-|Hx] Hu; [contradiction|]. apply (H4 x Hx). right; assumption.
Qed.
(** The entry of an overridden variant is its override; the others get values outside [used]. *)
Lemma assign_nodup : forall r vs used n,
  NoDup (overs r vs) -> (forall d, In d (overs r vs) -> In d used) ->
  NoDup (map snd (assign r vs used n)) /\
  (forall d, In d (map snd (assign r vs used n)) -> In d (overs r vs) \/ ~ In d used).
Proof.
  induction vs as [|v vs IH]; intros used n Hn Hi; cbn [assign overs] in *.
  - split; [constructor|intros d []].
  - destruct (valive r v); [|auto]. destruct (v_over v r) as [d|].
    + inversion Hn as [|? ? Hn1 Hn2]; subst.
      destruct (IH used n Hn2) as [I1 I2]; [intros; apply Hi; right; assumption|]. cbn [map snd]. split.
      * constructor; [|assumption]. intros Hd. apply I2 in Hd. destruct Hd as [Hd|Hd]; [contradiction|].
        apply Hd, Hi. left; reflexivity.
      * intros x [<-|Hx]; [left; left; reflexivity|]. apply I2 in Hx. destruct Hx; [left; right; assumption|right; assumption].
    + set (d := next_free (length used) used n).
      assert (Hd : ~ In d used) by (apply next_free_fresh, above_len).
      destruct (IH (d :: used) d Hn) as [I1 I2]; [intros x Hx; right; apply Hi; assumption|].
      cbn [map snd]. split.
      * constructor; [|assumption]. intros Hx. apply I2 in Hx. destruct Hx as [Hx|Hx].
        -- apply Hd, Hi, Hx.
        -- apply Hx. left; reflexivity.
      * intros x [<-|Hx]; [right; assumption|]. apply I2 in Hx. destruct Hx as [Hx|Hx]; [left; assumption|].
        right. intros Hu. apply Hx. right; assumption.
Qed.
(** C22 *)
Lemma calc_disc_nodup : forall r vs ds, calc_disc r vs = Some ds -> NoDup (map snd ds).
Proof.
  intros r vs ds H. unfold calc_disc in H. destruct (gather r vs []) as [u|] eqn:G; [|discriminate].
  inversion H; subst. destruct (gather_spec r vs [] u (NoDup_nil _) G) as (_ & H2 & H3 & _).
  apply assign_nodup; [assumption|]. intros d Hd. apply H2. right; assumption.
Qed.
Lemma assign_over : forall r vs used n v d o, In (v, d) (assign r vs used n) -> v_over v r = Some o -> d = o.
Proof.
  induction vs as [|w vs IH]; intros used n v d o H Ho; cbn in H; [destruct H|].
  destruct (valive r w); [|eauto]. destruct (v_over w r) as [d'|] eqn:E.
  - destruct H as [H|H]; [inversion H; subst; congruence|eauto].
  - destruct H as [H|H]; [inversion H; subst; congruence|eauto].
Qed.
Lemma calc_disc_over : forall r vs ds v d o, calc_disc r vs = Some ds -> In (v, d) ds -> v_over v r = Some o -> d = o.
Proof.
  intros r vs ds v d o H Hi Ho. unfold calc_disc in H. destruct (gather r vs []); [|discriminate].
  inversion H; subst. eapply assign_over; eauto.
Qed.
(** Compilation fails exactly when two alive variants have the same override. *)
Lemma gather_none : forall r vs used, NoDup used -> gather r vs used = None ->
  ~ NoDup (overs r vs) \/ exists d, In d used /\ In d (overs r vs).
Proof.
  induction vs as [|v vs IH]; intros used Hn H; cbn in H; [discriminate|]. cbn [overs].
  destruct (valive r v); [|auto]. destruct (v_over v r) as [d|]; [|auto].
  destruct (existsb (N.eqb d) used) eqn:E.
  - apply existsb_eqb in E. right. exists d. cbn; auto.
  - apply existsb_eqb_false in E. destruct (IH (d :: used)) as [H1|(x & [<-|H1] & H2)]; auto.
    + constructor; assumption.
    + left. intros F. inversion F; contradiction.
    + left. intros F. inversion F; subst. contradiction.
    + right. exists x. cbn; auto.
Qed.
Lemma calc_disc_defined : forall r vs, NoDup (overs r vs) <-> exists ds, calc_disc r vs = Some ds.
Proof.
  intros r vs. unfold calc_disc. destruct (gather r vs []) as [u|] eqn:G.
  - split; [intros _; eauto|intros _]. apply (gather_spec r vs [] u (NoDup_nil _)) in G. tauto.
  - split; [|intros (ds & H); discriminate]. intros Hn. exfalso.
    apply gather_none in G; [|constructor]. destruct G as [G|(d & [] & _)]. contradiction.
Qed.

(** ** Evolution *)
(** Variants not alive at [r] do not matter. *)
Lemma gather_dead : forall r vs used, gather r vs used = gather r (filter (valive r) vs) used.
Proof.
  induction vs as [|v vs IH]; intros used; cbn; [reflexivity|]. destruct (valive r v) eqn:E; [|apply IH].
  cbn. rewrite E. destruct (v_over v r); [|apply IH]. destruct (existsb _ used); [reflexivity|apply IH].
Qed.
Lemma assign_dead : forall r vs used n, assign r vs used n = assign r (filter (valive r) vs) used n.
Proof.
  induction vs as [|v vs IH]; intros used n; cbn; [reflexivity|]. destruct (valive r v) eqn:E; [|apply IH].
  cbn. rewrite E. destruct (v_over v r); f_equal; apply IH.
Qed.
Lemma calc_disc_dead : forall r vs, calc_disc r vs = calc_disc r (filter (valive r) vs).
Proof. intros r vs. unfold calc_disc. rewrite <- gather_dead. destruct (gather r vs []); [|reflexivity]. f_equal. apply assign_dead. Qed.

(** Numbers assigned to a prefix of the variants do not depend on later variants that have no
    override. *)
Lemma gather_app : forall r a b used, gather r (a ++ b) used =
  match gather r a used with Some u => gather r b u | None => None end.
Proof.
  induction a as [|v a IH]; intros b used; cbn; [reflexivity|].
  destruct (valive r v); [|apply IH]. destruct (v_over v r) as [d|]; [|apply IH].
  destruct (existsb (N.eqb d) used); [reflexivity|apply IH].
Qed.
Lemma gather_no_over : forall r b used, (forall v, In v b -> v_over v r = None) -> gather r b used = Some used.
Proof.
  induction b as [|v b IH]; intros used H; cbn; [reflexivity|].
  destruct (valive r v); [rewrite (H v (or_introl eq_refl))|]; apply IH; intros; apply H; right; assumption.
Qed.
Lemma assign_app : forall r a b used n, exists used' n',
  assign r (a ++ b) used n = assign r a used n ++ assign r b used' n'.
Proof.
  induction a as [|v a IH]; intros b used n; cbn; [eauto|].
  destruct (valive r v); [|apply IH]. destruct (v_over v r) as [d|].
  - destruct (IH b used n) as (u & m & ->). exists u, m. reflexivity.
  - destruct (IH b (next_free (length used) used n :: used) (next_free (length used) used n)) as (u & m & ->).
    exists u, m. reflexivity.
Qed.
(** C23 *)
Lemma calc_disc_append : forall r vs new ds, (forall v, In v new -> v_over v r = None) ->
  calc_disc r vs = Some ds -> exists ds', calc_disc r (vs ++ new) = Some (ds ++ ds').
Proof.
  intros r vs new ds Hn H. unfold calc_disc in *. rewrite gather_app.
  destruct (gather r vs []) as [u|]; [|discriminate]. rewrite gather_no_over by assumption.
  inversion H; subst. destruct (assign_app r vs new u 0) as (u' & m & ->). eauto.
Qed.
(** Without overrides the numbers are 0, 1, 2, ... *)
Lemma next_free_seq : forall n, next_free (N.to_nat n) (rev (map N.of_nat (seq 0 (N.to_nat n)))) (N.pred n) = n.
Proof.
  intros n. set (used := rev (map N.of_nat (seq 0 (N.to_nat n)))).
  assert (Hin : forall d, In d used <-> d < n).
  { intros d. unfold used. rewrite <- in_rev, in_map_iff. split.
    - intros (k & <- & Hk). apply in_seq in Hk. lia.
    - intros Hd. exists (N.to_nat d). split; [lia|]. apply in_seq. lia. }
  assert (n = 0 \/ 0 < n) as [->|Hp] by lia.
  - reflexivity.
  - assert (L : length used = N.to_nat n) by (unfold used; rewrite rev_length, map_length, seq_length; reflexivity).
    pose proof (next_free_fresh (N.to_nat n) used (N.pred n)) as F.
    rewrite <- L in F at 1. specialize (F (above_len _ _)). rewrite Hin in F.
    set (d := next_free (N.to_nat n) used (N.pred n)) in *.
    assert (d <= n); [|lia].
    assert (~ n < d); [|lia]. intros Hlt.
    assert (In n used); [|apply Hin in H; lia].
    eapply (next_free_least (N.to_nat n) used (N.pred n)); [lia|exact Hlt].
Qed.
Lemma assign_seq : forall r vs k, (forall v, In v vs -> v_over v r = None) -> (forall v, In v vs -> valive r v = true) ->
  map snd (assign r vs (rev (map N.of_nat (seq 0 (N.to_nat k)))) (N.pred k)) = map N.of_nat (seq (N.to_nat k) (length vs)).
Proof.
  induction vs as [|v vs IH]; intros k Ho Ha; cbn [assign map length seq]; [reflexivity|].
  rewrite (Ha v (or_introl eq_refl)), (Ho v (or_introl eq_refl)).
  rewrite rev_length, map_length, seq_length, next_free_seq. cbn [map snd]. f_equal; [lia|].
  specialize (IH (k + 1)). replace (N.to_nat (k + 1)) with (S (N.to_nat k)) in IH by lia.
  rewrite seq_S, map_app, rev_app_distr in IH. cbn [plus map rev app] in IH.
  replace (N.of_nat (N.to_nat k)) with k in IH by lia. replace (N.pred (k + 1)) with k in IH by lia.
  apply IH; intros; [apply Ho|apply Ha]; right; assumption.
Qed.
Lemma calc_disc_seq : forall r vs, (forall v, In v vs -> v_over v r = None) ->
  exists ds, calc_disc r vs = Some ds /\ map fst ds = filter (valive r) vs
             /\ map snd ds = map N.of_nat (seq 0 (length (filter (valive r) vs))).
Proof.
  intros r vs Ho. rewrite calc_disc_dead. set (a := filter (valive r) vs).
  assert (H1 : forall v, In v a -> v_over v r = None) by (intros v Hv; apply filter_In in Hv; apply Ho; tauto).
  assert (H2 : forall v, In v a -> valive r v = true) by (intros v Hv; apply filter_In in Hv; tauto).
  unfold calc_disc. rewrite gather_no_over by assumption. eexists. split; [reflexivity|]. split.
  - rewrite assign_fst. unfold a. clear. induction vs as [|v vs IH]; cbn; [reflexivity|].
    destruct (valive r v) eqn:E; cbn; [rewrite E; f_equal; apply IH|apply IH].
  - apply (assign_seq r a 0 H1 H2).
Qed.

(** Looking a variant up. *)
Lemma find_some_uniq : forall A (f : A -> bool) l x, In x l -> f x = true ->
  (forall y, In y l -> f y = true -> y = x) -> find f l = Some x.
Proof.
  intros A f. induction l as [|a l IH]; intros x Hx Hf Hu; [destruct Hx|]. cbn.
  destruct (f a) eqn:E.
  - rewrite (Hu a (or_introl eq_refl) E). reflexivity.
  - destruct Hx as [->|Hx]; [congruence|]. apply IH; auto. intros; apply Hu; [right; assumption|assumption].
Qed.
Lemma NoDup_map_inj : forall A B (f : A -> B) l x y, NoDup (map f l) -> In x l -> In y l -> f x = f y -> x = y.
Proof.
  intros A B f. induction l as [|a l IH]; intros x y Hn Hx Hy E; [destruct Hx|].
  cbn in Hn. inversion Hn as [|? ? Hn1 Hn2]; subst.
  destruct Hx as [->|Hx], Hy as [->|Hy]; auto.
  - exfalso. apply Hn1. rewrite E. apply in_map; assumption.
  - exfalso. apply Hn1. rewrite <- E. apply in_map; assumption.
Qed.
