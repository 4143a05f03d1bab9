(** Orders, sorting and association lists.  Proofs. *)

From Verif Require Import Base BaseL Ty Typed.
From Coq Require Import List NArith ZArith Bool Lia Sorted Permutation.
Import ListNotations.
Open Scope N_scope.

(** ** Comparison functions *)

Record order {A} (cmp : A -> A -> comparison) : Prop := {
  o_sym : forall x y, cmp y x = CompOpp (cmp x y);
  o_lt : forall x y z, cmp x y = Lt -> cmp y z = Lt -> cmp x z = Lt;
  o_eq : forall x y z, cmp x y = Eq -> cmp y z = cmp x z
}.
Lemma lawful_order : forall cmp, lawful cmp <-> order cmp.
Proof. intros cmp; split; intros [a b c]; split; assumption. Qed.

Lemma o_refl : forall A (cmp : A -> A -> comparison), order cmp -> forall x, cmp x x = Eq.
Proof. intros A cmp H x. pose proof (o_sym _ H x x) as E. destruct (cmp x x); [reflexivity|discriminate|discriminate]. Qed.
Lemma o_gt : forall A (cmp : A -> A -> comparison), order cmp -> forall x y, cmp x y = Gt <-> cmp y x = Lt.
Proof. intros A cmp H x y. rewrite (o_sym _ H x y). destruct (cmp x y); cbn; split; congruence. Qed.
Lemma o_eq_r : forall A (cmp : A -> A -> comparison), order cmp ->
  forall x y z, cmp y z = Eq -> cmp x y = cmp x z.
Proof.
  intros A cmp H x y z E. pose proof (o_eq _ H y z x E) as F.
  rewrite (o_sym _ H x y), (o_sym _ H x z) in F. destruct (cmp x y), (cmp x z); cbn in F; congruence.
Qed.
Lemma o_le_lt : forall A (cmp : A -> A -> comparison), order cmp ->
  forall x y z, cmp x y <> Gt -> cmp y z = Lt -> cmp x z = Lt.
Proof.
  intros A cmp H x y z E F. destruct (cmp x y) eqn:G; [|eapply o_lt; eauto|congruence].
  rewrite <- (o_eq _ H x y z G). exact F.
Qed.
Lemma o_le_trans : forall A (cmp : A -> A -> comparison), order cmp ->
  forall x y z, cmp x y <> Gt -> cmp y z <> Gt -> cmp x z <> Gt.
Proof.
  intros A cmp H x y z E F. destruct (cmp y z) eqn:G; [| |congruence].
  - rewrite <- (o_eq_r _ _ H x y z G). exact E.
  - rewrite (o_le_lt _ _ H x y z E G). discriminate.
Qed.

(** A total order: comparing equal means being equal. *)
Definition strict_eq {A} (cmp : A -> A -> comparison) : Prop := forall x y, cmp x y = Eq -> x = y.

Lemma order_pull : forall A B (f : A -> B) cmp, order cmp -> order (fun x y => cmp (f x) (f y)).
Proof. intros A B f cmp [a b c]. split; intros; eauto. Qed.

(** ** Lexicographic byte order *)
Lemma bcmp_sym : forall x y, bcmp y x = CompOpp (bcmp x y).
Proof.
  induction x as [|a x IH]; intros [|b y]; cbn; try reflexivity.
  rewrite (N.compare_antisym a b). destruct (a ?= b); cbn; auto.
Qed.
Lemma bcmp_eq : forall x y, bcmp x y = Eq <-> x = y.
Proof.
  induction x as [|a x IH]; intros [|b y]; cbn; try (split; congruence).
  destruct (a ?= b) eqn:E.
  - apply N.compare_eq in E. subst. rewrite IH. split; congruence.
  - split; [discriminate|]. intros F. inversion F; subst. rewrite N.compare_refl in E. discriminate.
  - split; [discriminate|]. intros F. inversion F; subst. rewrite N.compare_refl in E. discriminate.
Qed.
Lemma bcmp_lt : forall x y z, bcmp x y = Lt -> bcmp y z = Lt -> bcmp x z = Lt.
Proof.
  induction x as [|a x IH]; intros [|b y] [|c z] H1 H2; cbn in *; try congruence.
  destruct (a ?= b) eqn:E1, (b ?= c) eqn:E2; try discriminate.
  - apply N.compare_eq in E1, E2. subst. rewrite N.compare_refl. eauto.
  - apply N.compare_eq in E1. subst. rewrite E2. reflexivity.
  - apply N.compare_eq in E2. subst. rewrite E1. reflexivity.
  - rewrite N.compare_lt_iff in *. assert (a < c) by lia. apply N.compare_lt_iff in H. rewrite H. reflexivity.
Qed.
Lemma bcmp_order : order bcmp.
Proof.
  split; [exact bcmp_sym|exact bcmp_lt|].
  intros x y z E. apply bcmp_eq in E. subst. reflexivity.
Qed.
Lemma bcmp_strict : strict_eq bcmp.
Proof. intros x y. apply bcmp_eq. Qed.

(** ** Structural order on values *)
Fixpoint lcmp (x y : list val) {struct x} : comparison :=
  match x, y with
  | [], [] => Eq
  | [], _ :: _ => Lt
  | _ :: _, [] => Gt
  | u :: x', w :: y' => match vcmp u w with Eq => lcmp x' y' | c => c end
  end.
Lemma vcmp_eqn : forall a b, vcmp a b =
  match a, b with
  | VBool x, VBool y => bcomp x y
  | VInt x, VInt y => (x ?= y)%Z
  | VBytes x, VBytes y => bcmp x y
  | VUnit, VUnit => Eq
  | VPair x1 x2, VPair y1 y2 => match vcmp x1 y1 with Eq => vcmp x2 y2 | c => c end
  | VSeq x, VSeq y => lcmp x y
  | VVar k x, VVar k' y => match k ?= k' with Eq => lcmp x y | c => c end
  | _, _ => vtag a ?= vtag b
  end.
Proof.
  intros a b. destruct a as [| | | | |x|k x], b as [| | | | |y|k' y]; try reflexivity.
Qed.

Section ValInd.
Variable P : val -> Prop.
Hypothesis Hb : forall b, P (VBool b).
Hypothesis Hi : forall z, P (VInt z).
Hypothesis Hy : forall b, P (VBytes b).
Hypothesis Hu : P VUnit.
Hypothesis Hp : forall a b, P a -> P b -> P (VPair a b).
Hypothesis Hs : forall l, Forall P l -> P (VSeq l).
Hypothesis Hv : forall k l, Forall P l -> P (VVar k l).
Fixpoint val_ind' (v : val) : P v :=
  match v with
  | VBool b => Hb b
  | VInt z => Hi z
  | VBytes b => Hy b
  | VUnit => Hu
  | VPair a b => Hp a b (val_ind' a) (val_ind' b)
  | VSeq l => Hs l ((fix f (l : list val) : Forall P l :=
                 match l with [] => Forall_nil _ | x :: r => Forall_cons _ (val_ind' x) (f r) end) l)
  | VVar k l => Hv k l ((fix f (l : list val) : Forall P l :=
                 match l with [] => Forall_nil _ | x :: r => Forall_cons _ (val_ind' x) (f r) end) l)
  end.
End ValInd.

Definition sym_at (x : val) : Prop := forall y, vcmp y x = CompOpp (vcmp x y).
Lemma lcmp_sym : forall x, Forall sym_at x -> forall y, lcmp y x = CompOpp (lcmp x y).
Proof.
  induction 1 as [|a x Ha Hx IH]; intros [|b y]; cbn; try reflexivity.
  rewrite (Ha b). destruct (vcmp a b); cbn; auto.
Qed.
Lemma vcmp_sym : forall x, sym_at x.
Proof.
  induction x using val_ind'; intros y; rewrite (vcmp_eqn y), (vcmp_eqn _ y); destruct y; try reflexivity.
  - destruct b, b0; reflexivity.
  - apply Z.compare_antisym.
  - apply bcmp_sym.
  - rewrite IHx1. destruct (vcmp x1 y1); cbn; auto.
  - apply lcmp_sym; assumption.
  - rewrite (N.compare_antisym k k0). destruct (k ?= k0); cbn; auto. apply lcmp_sym; assumption.
Qed.
Definition eq_at (x : val) : Prop := forall y, vcmp x y = Eq <-> x = y.
Lemma lcmp_eq : forall x, Forall eq_at x -> forall y, lcmp x y = Eq <-> x = y.
Proof.
  induction 1 as [|a x Ha Hx IH]; intros [|b y]; cbn; try (split; congruence).
  specialize (Ha b). destruct (vcmp a b).
  - destruct Ha as [Ha _]. rewrite (Ha eq_refl), IH. split; congruence.
  - split; [discriminate|]. intros F. inversion F; subst. destruct Ha as [_ Ha]. discriminate Ha; reflexivity.
  - split; [discriminate|]. intros F. inversion F; subst. destruct Ha as [_ Ha]. discriminate Ha; reflexivity.
Qed.
Lemma vcmp_eq : forall x, eq_at x.
Proof.
  induction x using val_ind'; intros y; rewrite vcmp_eqn; destruct y; cbn [vtag]; try (split; [discriminate|congruence]).
  - destruct b, b0; cbn; split; congruence.
  - rewrite Z.compare_eq_iff. split; congruence.
  - rewrite bcmp_eq. split; congruence.
  - split; congruence.
  - specialize (IHx1 y1). specialize (IHx2 y2). destruct (vcmp x1 y1).
    + destruct IHx1 as [IHx1 _]. rewrite (IHx1 eq_refl), IHx2. split; congruence.
    + split; [discriminate|]. intros F. inversion F; subst. destruct IHx1 as [_ IHx1]. discriminate IHx1; reflexivity.
    + split; [discriminate|]. intros F. inversion F; subst. destruct IHx1 as [_ IHx1]. discriminate IHx1; reflexivity.
  - rewrite lcmp_eq by assumption. split; congruence.
  - destruct (k ?= k0) eqn:E.
    + apply N.compare_eq in E. subst. rewrite lcmp_eq by assumption. split; congruence.
    + split; [discriminate|]. intros F. inversion F; subst. rewrite N.compare_refl in E. discriminate.
    + split; [discriminate|]. intros F. inversion F; subst. rewrite N.compare_refl in E. discriminate.
Qed.
Definition lt_at (x : val) : Prop := forall y z, vcmp x y = Lt -> vcmp y z = Lt -> vcmp x z = Lt.
Lemma vcmp_is_eq : forall x y, vcmp x y = Eq -> x = y.
Proof. intros x y. apply vcmp_eq. Qed.
Lemma vcmp_refl : forall x, vcmp x x = Eq.
Proof. intros x. apply vcmp_eq. reflexivity. Qed.
Lemma lcmp_lt : forall x, Forall lt_at x -> forall y z, lcmp x y = Lt -> lcmp y z = Lt -> lcmp x z = Lt.
Proof.
  induction 1 as [|a x Ha Hx IH]; intros [|b y] [|c z] H1 H2; cbn in *; try congruence.
  destruct (vcmp a b) eqn:E1, (vcmp b c) eqn:E2; try discriminate.
  - apply vcmp_is_eq in E1, E2. subst. rewrite vcmp_refl. eauto.
  - apply vcmp_is_eq in E1. subst. rewrite E2. reflexivity.
  - apply vcmp_is_eq in E2. subst. rewrite E1. reflexivity.
  - rewrite (Ha _ _ E1 E2). reflexivity.
Qed.
Lemma vtag_lt : forall x y, (vtag x ?= vtag y) = Lt -> vcmp x y = Lt.
Proof. intros x y H. destruct x, y; cbn in H; try discriminate; reflexivity. Qed.
Lemma vcmp_tag : forall x y, vcmp x y = Lt -> (vtag x <= vtag y).
Proof. intros x y H. rewrite vcmp_eqn in H. destruct x, y; cbn [vtag] in *; try discriminate; lia. Qed.
Lemma vcmp_lt : forall x, lt_at x.
Proof.
  assert (K : forall x y z, vcmp x y = Lt -> vcmp y z = Lt -> vtag x <> vtag z -> vcmp x z = Lt).
  { intros x y z H1 H2 Ht. apply vcmp_tag in H1, H2. apply vtag_lt, N.compare_lt_iff. lia. }
  induction x using val_ind'; intros y w H1 H2; destruct w;
    try (apply (K _ _ _ H1 H2); cbn [vtag]; lia);
    destruct y; try (apply vcmp_tag in H1; apply vcmp_tag in H2; cbn [vtag] in *; lia);
    rewrite vcmp_eqn in *; cbn [vtag] in *.
  - destruct b, b0, b1; cbn in *; congruence.
  - rewrite Z.compare_lt_iff in *. lia.
  - eapply bcmp_lt; eauto.
  - discriminate.
  - destruct (vcmp x1 y1) eqn:E1, (vcmp y1 w1) eqn:E2; try discriminate.
    + apply vcmp_is_eq in E1, E2. subst. rewrite vcmp_refl. eauto.
    + apply vcmp_is_eq in E1. subst. rewrite E2. reflexivity.
    + apply vcmp_is_eq in E2. subst. rewrite E1. reflexivity.
    + rewrite (IHx1 _ _ E1 E2). reflexivity.
  - eapply lcmp_lt; eauto.
  - destruct (k ?= k1) eqn:E1, (k1 ?= k0) eqn:E2; try discriminate.
    + apply N.compare_eq in E1, E2. subst. rewrite N.compare_refl. eapply lcmp_lt; eauto.
    + apply N.compare_eq in E1. subst. rewrite E2. reflexivity.
    + apply N.compare_eq in E2. subst. rewrite E1. reflexivity.
    + rewrite N.compare_lt_iff in *. assert (k < k0) as F by lia. apply N.compare_lt_iff in F. rewrite F. reflexivity.
Qed.
Lemma vcmp_order : order vcmp.
Proof.
  split; [exact vcmp_sym|exact vcmp_lt|].
  intros x y z E. apply vcmp_is_eq in E. subst. reflexivity.
Qed.
Lemma vcmp_lawful : lawful vcmp.
Proof. apply lawful_order, vcmp_order. Qed.

(** ** Stable insertion sort *)
Lemma sinsert_perm : forall A (cmp : A -> A -> comparison) x l, Permutation (sinsert cmp x l) (x :: l).
Proof.
  induction l as [|y l IH]; cbn; [reflexivity|].
  destruct (cmp x y); try reflexivity. rewrite IH. apply perm_swap.
Qed.
Lemma ssort_perm : forall A (cmp : A -> A -> comparison) l, Permutation (ssort cmp l) l.
Proof. induction l as [|x l IH]; cbn; [reflexivity|]. rewrite sinsert_perm, IH. reflexivity. Qed.

Section Sorted.
Context {A : Type} (cmp : A -> A -> comparison) (O : order cmp).
Let le x y := cmp x y <> Gt.
Lemma sinsert_sorted : forall x l, StronglySorted le l -> StronglySorted le (sinsert cmp x l).
Proof.
  induction l as [|y l IH]; intros Hl; cbn; [repeat constructor|].
  inversion Hl as [|? ? Hs Hf]; subst.
  assert (C : cmp x y = Gt \/ le x y) by (unfold le; destruct (cmp x y); [right|right|left]; congruence).
  destruct C as [C|C].
  - rewrite C. constructor; [auto|].
    apply (Permutation_Forall (Permutation_sym (sinsert_perm _ cmp x l))).
    constructor; [|assumption]. unfold le. apply (o_gt _ _ O) in C. rewrite C. discriminate.
  - assert (E : (match cmp x y with Gt => y :: sinsert cmp x l | _ => x :: y :: l end) = x :: y :: l).
    { unfold le in C. destruct (cmp x y); congruence. }
    rewrite E. constructor; [assumption|]. constructor; [assumption|].
    eapply Forall_impl; [|exact Hf]. intros z Hz. cbv beta in Hz. unfold le in *. eapply (o_le_trans _ _ O); eauto.
Qed.
Lemma ssort_sorted : forall l, StronglySorted le (ssort cmp l).
Proof. induction l; cbn; [constructor|apply sinsert_sorted; assumption]. Qed.

(** Sorted lists with the same elements are equal, for total orders. *)
Lemma sorted_unique : strict_eq cmp -> forall a b,
  StronglySorted le a -> StronglySorted le b -> Permutation a b -> a = b.
Proof.
  intros S. induction a as [|x a IH]; intros b Ha Hb P.
  - apply Permutation_nil in P. subst; reflexivity.
  - destruct b as [|y b]; [apply Permutation_sym, Permutation_nil in P; discriminate|].
    inversion Ha as [|? ? Ha1 Ha2]; subst. inversion Hb as [|? ? Hb1 Hb2]; subst.
    assert (x = y).
    { assert (Hx : In x (y :: b)) by (eapply Permutation_in; [exact P|left; reflexivity]).
      assert (Hy : In y (x :: a)) by (eapply Permutation_in; [exact (Permutation_sym P)|left; reflexivity]).
      destruct Hx as [Hx|Hx]; [auto|]. destruct Hy as [Hy|Hy]; [auto|].
      rewrite Forall_forall in Ha2, Hb2. specialize (Ha2 _ Hy). specialize (Hb2 _ Hx). unfold le in *.
      apply S. pose proof (o_sym _ O x y) as F.
      destruct (cmp x y), (cmp y x); cbn in F; congruence. }
    subst y. f_equal. apply IH; auto. eapply Permutation_cons_inv; exact P.
Qed.
End Sorted.

Lemma ssort_unique : forall A (cmp : A -> A -> comparison), order cmp -> strict_eq cmp -> forall l l',
  StronglySorted (fun x y => cmp x y <> Gt) l -> Permutation l' l -> ssort cmp l' = l.
Proof.
  intros A cmp O S l l' H P. eapply (sorted_unique cmp O); auto.
  - apply ssort_sorted; assumption.
  - rewrite ssort_perm. assumption.
Qed.

Lemma sinsert_map : forall A B (f : A -> B) c1 c2, (forall x y, c1 x y = c2 (f x) (f y)) ->
  forall x l, sinsert c2 (f x) (map f l) = map f (sinsert c1 x l).
Proof.
  intros A B f c1 c2 H x. induction l as [|y l IH]; cbn; [reflexivity|].
  rewrite H. destruct (c2 (f x) (f y)); cbn; try reflexivity. rewrite IH. reflexivity.
Qed.
Lemma ssort_map : forall A B (f : A -> B) c1 c2, (forall x y, c1 x y = c2 (f x) (f y)) ->
  forall l, ssort c2 (map f l) = map f (ssort c1 l).
Proof.
  intros A B f c1 c2 H. induction l as [|x l IH]; cbn; [reflexivity|].
  rewrite IH. apply sinsert_map; assumption.
Qed.
Lemma ssort_length : forall A (cmp : A -> A -> comparison) l, length (ssort cmp l) = length l.
Proof. intros. apply Permutation_length, ssort_perm. Qed.
Lemma perm_len : forall A (a b : list A), Permutation a b -> len a = len b.
Proof. intros A a b P. unfold len. rewrite (Permutation_length P). reflexivity. Qed.

(** ** Association lists built by insertion *)
Section Build.
Variables (cmp : val -> val -> comparison) (key : val -> val) (upd : val -> val -> val).
Hypothesis O : order cmp.
Let lt x y := cmp (key x) (key y) = Lt.

Lemma cinsert_fresh : forall e l, (forall x, In x l -> cmp (key e) (key x) <> Eq) ->
  StronglySorted lt l ->
  StronglySorted lt (cinsert cmp key upd e l) /\ Permutation (cinsert cmp key upd e l) (e :: l).
Proof.
  intros e. induction l as [|x l IH]; intros Hf Hs; cbn.
  - split; [repeat constructor|reflexivity].
  - inversion Hs as [|? ? Hs1 Hs2]; subst.
    destruct (cmp (key e) (key x)) eqn:C.
    + exfalso. apply (Hf x); [left; reflexivity|assumption].
    + split; [|reflexivity]. constructor; [assumption|]. constructor; [exact C|].
      eapply Forall_impl; [|exact Hs2]. intros z Hz. unfold lt in *. eapply (o_lt _ O); eauto.
    + destruct IH as [I1 I2]; [intros; apply Hf; right; assumption|assumption|]. split.
      * constructor; [assumption|].
        apply (Permutation_Forall (Permutation_sym I2)). constructor; [|assumption].
        unfold lt. apply (o_gt _ _ O). exact C.
      * rewrite I2. apply perm_swap.
Qed.

Lemma cbuild_fold : forall l acc,
  StronglySorted lt acc -> NoDup l ->
  (forall x y, In x l -> In y acc -> cmp (key x) (key y) <> Eq) ->
  (forall x y, In x l -> In y l -> x <> y -> cmp (key x) (key y) <> Eq) ->
  let r := fold_left (fun a e => cinsert cmp key upd e a) l acc in
  StronglySorted lt r /\ Permutation r (l ++ acc).
Proof.
  induction l as [|e l IH]; intros acc Hs Hn H1 H2; cbn.
  - split; [assumption|reflexivity].
  - inversion Hn as [|? ? Hn1 Hn2]; subst.
    destruct (cinsert_fresh e acc) as [I1 I2]; [intros x Hx; apply H1; [left; reflexivity|assumption]|assumption|].
    destruct (IH (cinsert cmp key upd e acc)) as [J1 J2]; auto.
    + intros x y Hx Hy. apply (Permutation_in _ I2) in Hy. destruct Hy as [<-|Hy].
      * intros F. assert (e = x \/ e <> x) as [->|Hd].
        { destruct (vcmp e x) eqn:C; [left; apply vcmp_is_eq; assumption| |];
            right; intros ->; rewrite vcmp_refl in C; discriminate. }
        -- contradiction.
        -- apply (H2 x e); [right; assumption|left; reflexivity|congruence|assumption].
      * apply H1; [right; assumption|assumption].
    + intros x y Hx Hy. apply H2; right; assumption.
    + split; [assumption|]. rewrite J2, I2. symmetry. apply Permutation_middle.
Qed.

Lemma sorted_lt_distinct : forall l, StronglySorted lt l ->
  NoDup l /\ forall x y, In x l -> In y l -> x <> y -> cmp (key x) (key y) <> Eq.
Proof.
  induction 1 as [|x l Hs [IH1 IH2] Hf].
  - split; [constructor|intros ? ? []].
  - rewrite Forall_forall in Hf. split.
    + constructor; [|assumption]. intros Hx. specialize (Hf _ Hx). unfold lt in Hf.
      rewrite (o_refl _ _ O) in Hf. discriminate.
    + intros a b [<-|Ha] [<-|Hb] Hd.
      * congruence.
      * rewrite (Hf _ Hb). discriminate.
      * specialize (Hf _ Ha). unfold lt in Hf. apply (o_gt _ _ O) in Hf. rewrite Hf. discriminate.
      * apply IH2; assumption.
Qed.
Lemma sorted_lt_unique : forall a b, StronglySorted lt a -> StronglySorted lt b -> Permutation a b -> a = b.
Proof.
  induction a as [|x a IH]; intros b Ha Hb P.
  - apply Permutation_nil in P. subst; reflexivity.
  - destruct b as [|y b]; [apply Permutation_sym, Permutation_nil in P; discriminate|].
    inversion Ha as [|? ? Ha1 Ha2]; subst. inversion Hb as [|? ? Hb1 Hb2]; subst.
    assert (x = y).
    { assert (Hx : In x (y :: b)) by (eapply Permutation_in; [exact P|left; reflexivity]).
      assert (Hy : In y (x :: a)) by (eapply Permutation_in; [exact (Permutation_sym P)|left; reflexivity]).
      destruct Hx as [Hx|Hx]; [auto|]. destruct Hy as [Hy|Hy]; [auto|].
      rewrite Forall_forall in Ha2, Hb2. specialize (Ha2 _ Hy). specialize (Hb2 _ Hx). unfold lt in *.
      rewrite (o_sym _ O), Ha2 in Hb2. discriminate. }
    subst y. f_equal. apply IH; auto. eapply Permutation_cons_inv; exact P.
Qed.

(** Rebuilding a map from its own entries, in any order. *)
Lemma cbuild_perm : forall l l', StronglySorted lt l -> Permutation l' l -> cbuild cmp key upd l' = l.
Proof.
  intros l l' Hs P. destruct (sorted_lt_distinct l Hs) as [Hn Hd].
  assert (Hn' : NoDup l') by (eapply Permutation_NoDup; [apply Permutation_sym; exact P|exact Hn]).
  destruct (cbuild_fold l' []) as [H1 H2].
  - constructor.
  - assumption.
  - intros x y _ [].
  - intros x y Hx Hy. apply Hd; eapply Permutation_in; eauto.
  - rewrite app_nil_r in H2. apply sorted_lt_unique; auto. unfold cbuild. rewrite H2. exact P.
Qed.

(** Whatever is inserted, the result is strictly sorted when [upd] keeps an equal key. *)
Lemma cinsert_in : forall e l x, In x (cinsert cmp key upd e l) ->
  x = e \/ In x l \/ exists y, In y l /\ cmp (key e) (key y) = Eq /\ x = upd y e.
Proof.
  intros e. induction l as [|y l IH]; intros x H; cbn in H.
  - destruct H as [<-|[]]. auto.
  - destruct (cmp (key e) (key y)) eqn:C.
    + destruct H as [<-|H]; [right; right; exists y; cbn; auto|right; left; right; assumption].
    + destruct H as [<-|H]; auto.
    + destruct H as [<-|H]; [right; left; left; reflexivity|].
      apply IH in H. destruct H as [->|[H|(z & Hz & E1 & E2)]]; auto.
      * right; left; right; assumption.
      * right; right. exists z. cbn; auto.
Qed.
Hypothesis U : forall x e, cmp (key e) (key x) = Eq -> cmp (key (upd x e)) (key x) = Eq.
Lemma cinsert_sorted : forall e l, StronglySorted lt l -> StronglySorted lt (cinsert cmp key upd e l).
Proof.
  intros e. induction l as [|x l IH]; intros Hs; cbn; [repeat constructor|].
  inversion Hs as [|? ? Hs1 Hs2]; subst.
  destruct (cmp (key e) (key x)) eqn:C.
  - constructor; [assumption|]. eapply Forall_impl; [|exact Hs2]. intros z Hz. unfold lt in *.
    rewrite <- Hz. symmetry. apply (o_eq _ O). apply U. exact C.
  - constructor; [assumption|]. constructor; [exact C|].
    eapply Forall_impl; [|exact Hs2]. intros z Hz. unfold lt in *. eapply (o_lt _ O); eauto.
  - constructor; [auto|]. apply Forall_forall. intros z Hz. rewrite Forall_forall in Hs2.
    apply cinsert_in in Hz. apply (o_gt _ _ O) in C. unfold lt in *.
    destruct Hz as [->|[Hz|(y & Hy & E1 & ->)]]; auto.
    specialize (Hs2 _ Hy). cbv beta in Hs2.
    rewrite (o_eq_r _ _ O (key x) (key (upd y e)) (key y)); [exact Hs2|]. apply U. exact E1.
Qed.
Lemma cbuild_sorted : forall l, StronglySorted lt (cbuild cmp key upd l).
Proof.
  intros l. unfold cbuild. assert (H : StronglySorted lt []) by constructor. revert H. generalize (@nil val).
  induction l as [|e l IH]; intros acc H; cbn; [assumption|]. apply IH, cinsert_sorted, H.
Qed.
Lemma cbuild_in : forall l x, In x (cbuild cmp key upd l) ->
  In x l \/ exists y e, In e l /\ x = upd y e /\ cmp (key e) (key y) = Eq.
Proof.
  intros l x. unfold cbuild.
  assert (G : forall l acc, In x (fold_left (fun a e => cinsert cmp key upd e a) l acc) ->
     In x acc \/ In x l \/ exists y e, In e l /\ x = upd y e /\ cmp (key e) (key y) = Eq).
  { clear l. induction l as [|e l IH]; intros acc H; cbn in *; [auto|].
    apply IH in H. destruct H as [H|[H|(y & f & Hf & E1 & E2)]]; auto.
    - apply cinsert_in in H. destruct H as [->|[H|(y & Hy & E1 & E2)]]; auto.
      right; right. exists y, e. auto.
    - right; right. exists y, f. auto. }
  intros H. apply G in H. destruct H as [[]|H]; auto.
Qed.
End Build.

Lemma cinsert_length : forall cmp key upd e l, (length (cinsert cmp key upd e l) <= S (length l))%nat.
Proof.
  intros cmp key upd e. induction l as [|x l IH]; cbn; [lia|]. destruct (cmp (key e) (key x)); cbn; lia.
Qed.
Lemma cbuild_length : forall cmp key upd l, (length (cbuild cmp key upd l) <= length l)%nat.
Proof.
  intros cmp key upd l. unfold cbuild. assert (G : forall l acc,
    (length (fold_left (fun a e => cinsert cmp key upd e a) l acc) <= length l + length acc)%nat).
  { clear l. induction l as [|e l IH]; intros acc; cbn; [lia|]. specialize (IH (cinsert cmp key upd e acc)).
    pose proof (cinsert_length cmp key upd e acc). lia. }
  specialize (G l []). cbn in G. lia.
Qed.
