(** Skippers pass over exactly the shapes of SkipForm.v.  Proofs. *)

From Verif Require Import Base BaseL Prog ProgL Prim PrimL Utf8 Utf8L Tag Ty De Typed RtL Agree DiscL Spec IntL PropVal Format FormatL SliceReader Skip SkipIdx SkipL SkipForm.
From Coq Require Import List NArith ZArith Bool Lia ZifyBool.
Import ListNotations.
Open Scope N_scope.

(** Without the value. *)
Definition passes (p : prog unit) (F : bytes -> Prop) : Prop := means p (fun _ => F).

Lemma passes_iff : forall p F G, (forall x, wfb x -> (F x <-> G x)) -> passes p F -> passes p G.
Proof. intros p F G H. apply means_iff. intros _. exact H. Qed.
Lemma passes_both : forall A (p : prog A) (q : A -> prog unit) F G, means p F -> (forall a, passes (q a) (G a)) ->
  passes (bind p q) (fun x => exists a, both (F a) (G a) x).
Proof.
  intros A p q F G Hp Hq. unfold passes. eapply means_iff; [|eapply means_both; [exact Hp|exact Hq]].
  intros [] x _. cbn beta. unfold both. split; intros (a & y & z & H); exists a, y, z; exact H.
Qed.
Lemma passes_then : forall p q F G, passes p F -> passes q G -> passes (p ;;; q) (both F G).
Proof.
  intros p q F G Hp Hq. eapply passes_iff; [|eapply passes_both; [exact Hp|intros a; exact Hq]].
  intros x _. cbn beta. split; [intros (a & H); exact H|intros H; exists tt; exact H].
Qed.
Lemma passes_drop : forall A (p : prog A) F, means p F -> passes (p ;;; Ret tt) (fun x => exists a, F a x).
Proof.
  intros A p F H. eapply means_iff; [|apply (means_map _ _ p (fun _ => tt)), H].
  intros [] x _. cbn beta. split; [intros (a & _ & K); eauto|intros (a & K); eauto].
Qed.
Lemma passes_ret : passes (Ret tt) (fun x => x = []).
Proof. eapply means_iff; [|apply means_ret]. intros [] x _. cbn beta. tauto. Qed.
Lemma passes_fail : forall e, passes (Fail e) (fun _ => False).
Proof. intros e. apply means_fail. Qed.
Lemma passes_crash : forall e, passes (Crash e) (fun _ => False).
Proof. intros e. apply means_crash. Qed.
Lemma passes_advance : forall n, passes (advance_read n) (any n).
Proof.
  intros n [] x _. rewrite run_advance_read. unfold drop_n, any. split.
  - intros H. destruct (split_at n x) as [[y z]|] eqn:S; [|discriminate]. apply Ok_inj in H. injection H as ->.
    apply split_at_some in S. destruct S as [-> S]. rewrite app_nil_r. exact S.
  - intros H. rewrite <- (app_nil_r x), (split_at_app_n _ n x [] (eq_sym H)). reflexivity.
Qed.
Lemma pieces_0 : forall F x, pieces 0 F x <-> x = [].
Proof.
  intros F x. unfold pieces. split.
  - intros (xs & H & _ & ->). apply len_0 in H. subst. reflexivity.
  - intros ->. exists []. split; [apply len_nil|]. split; [constructor|reflexivity].
Qed.
Lemma pieces_S : forall n F x, pieces (N.of_nat (S n)) F x <-> both F (pieces (N.of_nat n) F) x.
Proof.
  intros n F x. unfold pieces, both. split.
  - intros (xs & H & K & ->). destruct xs as [|y xs]; [rewrite len_nil in H; lia|]. rewrite len_cons in H. inversion K; subst.
    exists y, (concat xs). split; [reflexivity|]. split; [assumption|]. exists xs. split; [lia|]. split; [assumption|reflexivity].
  - intros (y & z & -> & Hy & xs & H & K & ->). exists (y :: xs). split; [unfold bytes in *; rewrite len_cons, H; lia|]. split; [constructor; assumption|reflexivity].
Qed.
Lemma passes_rep : forall p F n, passes p F -> passes (rep_ n p) (pieces (N.of_nat n) F).
Proof.
  intros p F n H. induction n as [|n IH]; cbn [rep_].
  - eapply passes_iff; [|apply passes_ret]. intros x _. symmetry. apply pieces_0.
  - eapply passes_iff; [|apply passes_then; [exact H|exact IH]]. intros x _. symmetry. apply pieces_S.
Qed.

(** The table of declared sizes says what [declared_size] says. *)
Lemma set_at_nth : forall l i x j, nth_error (set_at i x l) j = if (i =? j)%nat then match nth_error l j with Some _ => Some x | None => None end else nth_error l j.
Proof.
  induction l as [|y l IH]; intros [|i] x [|j]; cbn [set_at nth_error Nat.eqb]; try reflexivity.
  - destruct (i =? j)%nat; reflexivity.
  - apply IH.
Qed.
Lemma table_declared : forall ds id n, NoDup (map snd ds) -> id < 32 ->
  (nth_error (size_table ds) (N.to_nat id) = Some n <-> declared_size ds id n).
Proof.
  intros ds id n Hn Hi.
  assert (K : forall ds l, NoDup (map snd ds) ->
    nth_error (fold_left (fun arr p => match v_size (fst p) with Some (SFixed n) => set_at (N.to_nat (snd p)) n arr | _ => arr end) ds l) (N.to_nat id)
    = match find (fun p => (snd p =? id) && match v_size (fst p) with Some (SFixed _) => true | _ => false end) ds with
      | Some (vr, _) => match nth_error l (N.to_nat id) with Some _ => match v_size vr with Some (SFixed m) => Some m | _ => None end | None => None end
      | None => nth_error l (N.to_nat id)
      end).
  { clear. intros ds. induction ds as [|[vr k] ds IH]; intros l Hn; cbn [fold_left find fst snd map] in *; [reflexivity|].
    inversion Hn as [|? ? Hk Hn']; subst. rewrite IH by exact Hn'. destruct (N.eqb_spec k id) as [->|Hk'].
    - assert (F : find (fun p => (snd p =? id) && match v_size (fst p) with Some (SFixed _) => true | _ => false end) ds = None).
      { destruct (find _ ds) as [[w j]|] eqn:F; [|reflexivity]. apply find_some in F. cbn [fst snd] in F. destruct F as [F1 F2].
        apply andb_prop in F2. destruct F2 as [F2 _]. apply N.eqb_eq in F2. subst j. exfalso. apply Hk. apply (in_map snd) in F1. exact F1. }
      rewrite F. destruct (v_size vr) as [[|m|]|] eqn:Sz; cbn [andb]; try reflexivity. rewrite set_at_nth, Nat.eqb_refl, Sz. reflexivity.
    - cbn [andb]. assert (Q : forall m, nth_error (set_at (N.to_nat k) m l) (N.to_nat id) = nth_error l (N.to_nat id)).
      { intros m. rewrite set_at_nth. destruct (N.to_nat k =? N.to_nat id)%nat eqn:X; [|reflexivity]. apply Nat.eqb_eq in X. lia. }
      destruct (v_size vr) as [[|m|]|]; rewrite ?Q; reflexivity. }
  unfold size_table. rewrite K by exact Hn.
  assert (R : nth_error (repeat 0 32) (N.to_nat id) = Some 0).
  { clear - Hi. assert (L : (N.to_nat id < 32)%nat) by lia. remember (N.to_nat id) as i. clear - L. rewrite nth_error_nth' with (d := 0) by (rewrite repeat_length; exact L). f_equal. apply nth_repeat. }
  rewrite R. unfold declared_size.
  destruct (find _ ds) as [[vr k]|] eqn:F.
  - apply find_some in F. cbn [fst snd] in F. destruct F as [F1 F2]. apply andb_prop in F2. destruct F2 as [F2 F3]. apply N.eqb_eq in F2. subst k.
    destruct (v_size vr) as [[|m|]|] eqn:Sz; try discriminate. split.
    + intros H. injection H as ->. left. exists vr. auto.
    + intros [(vr2 & I2 & S2)|(_ & H)]; [|exfalso; exact (H vr m F1 Sz)].
      assert (Q : vr2 = vr).
      { clear - Hn F1 I2. induction ds as [|[w j] ds IH]; [contradiction|]. cbn [map snd] in Hn. inversion Hn; subst.
        destruct F1 as [F1|F1], I2 as [I2|I2].
        - congruence.
        - injection F1 as -> ->. exfalso. apply H1. apply (in_map snd) in I2. exact I2.
        - injection I2 as -> ->. exfalso. apply H1. apply (in_map snd) in F1. exact F1.
        - apply IH; assumption. }
      subst vr2. rewrite Sz in S2. injection S2 as ->. reflexivity.
  - split.
    + intros H. injection H as <-. right. split; [reflexivity|]. intros vr m I2 S2.
      pose proof (find_none _ _ F _ I2) as Q. cbn [fst snd] in Q. rewrite N.eqb_refl, S2 in Q. discriminate.
    + intros [(vr2 & I2 & S2)|(-> & _)]; [|reflexivity]. pose proof (find_none _ _ F _ I2) as Q. cbn [fst snd] in Q. rewrite N.eqb_refl, S2 in Q. discriminate.
Qed.

Section S.
Variable E : env.
Hypothesis HW : wf_env E.
Hypothesis HM : e_mem E = None.

Lemma passes_len : forall q F, (forall n, passes (q n) (F n)) -> passes (n <- de_len E ;; q n) (fun x => exists n, both (len_form E n) (F n) x).
Proof. intros q F H. apply passes_both; [apply means_len; assumption|exact H]. Qed.
Lemma len_lt : forall n x, wfb x -> len_form E n x -> n < 2 ^ e_ub E.
Proof.
  intros n x Hx H. unfold len_form, int_form in H. destruct H as (m & _ & H).
  assert (P : 0 < 2 ^ e_ub E) by (apply N.neq_0_lt_0, N.pow_nonzero; lia). pose proof (N.mod_lt m (2 ^ e_ub E) ltac:(lia)). lia.
Qed.
Lemma passes_seq : forall p F, passes p F -> passes (sk_seq E p) (counted_pieces E F).
Proof.
  intros p F H. unfold sk_seq, counted_pieces. eapply passes_iff; [|apply passes_len; intros n; apply passes_rep, H].
  intros x _. cbn beta. split; intros (n & K); exists n; rewrite N2Nat.id in *; exact K.
Qed.
Lemma passes_blob : passes (sk_blob E) (counted_bytes E).
Proof. unfold sk_blob, counted_bytes. apply passes_len. intros n. apply passes_advance. Qed.
Lemma passes_if : forall (b : bool) p e F, passes p F -> passes (if b then p else Fail e) (fun x => F x /\ b = true).
Proof.
  intros b p e F H. destruct b.
  - eapply passes_iff; [|exact H]. intros x _. tauto.
  - eapply passes_iff; [|apply passes_fail]. intros x _. split; [contradiction|intros [_ K]; discriminate].
Qed.
Lemma passes_bulk : forall k, passes (sk_bulk E k) (bulk_shape E k).
Proof.
  intros k. unfold sk_bulk, bulk_shape. eapply passes_iff.
  2: { apply passes_len with (F := fun n x => any (match k with BBool => (n + 7) / 8 | BFix _ w => n * N.of_nat w | BRaw _ => n * 16 end) x
         /\ match k with BBool => True | BFix _ 1 => True | BFix _ w => n * N.of_nat w < 2 ^ e_ub E | BRaw _ => n * 16 < 2 ^ e_ub E end).
       intros n. destruct k as [|s w|r].
       - eapply passes_iff; [|apply passes_advance]. intros x _. unfold any, div_ceil8. tauto.
       - destruct w as [|[|w]].
         + eapply passes_iff; [|apply passes_if, passes_advance]. intros x _. cbn beta. unfold any. rewrite N.ltb_lt. reflexivity.
         + eapply passes_iff; [|apply passes_advance]. intros x _. unfold any. rewrite N.mul_1_r. tauto.
         + eapply passes_iff; [|apply passes_if, passes_advance]. intros x _. cbn beta. unfold any. rewrite N.ltb_lt. reflexivity.
       - eapply passes_iff; [|apply passes_if, passes_advance]. intros x _. cbn beta. unfold any. rewrite N.ltb_lt. reflexivity. }
  intros x Hx. cbn beta. split.
  - intros (n & y & z & -> & Hn & Hz & C). exists n. split; [exists y, z; auto|]. apply wfb_app in Hx. pose proof (len_lt n y (proj1 Hx) Hn) as L.
    destruct k as [|s [|[|w]]|r]; try exact C; try exact I. rewrite N.mul_1_r. exact L.
  - intros (n & (y & z & -> & Hn & Hz) & C). exists n, y, z. split; [reflexivity|]. split; [exact Hn|]. split; [exact Hz|].
    destruct k as [|s [|[|w]]|r]; try exact C; exact I.
Qed.

Section Rec.
Variable rec : N -> prog unit.
Variable drec : N -> prog val.
Variable srec : N -> bytes -> Prop.
Variable frec : N -> val -> bytes -> Prop.
Hypothesis Hrec : forall n, passes (rec n) (srec n).
Hypothesis Hdrec : forall n, means (drec n) (frec n).

Lemma passes_decode : forall t, passes (de_ty E drec t ;;; Ret tt) (fun x => exists v, form_ty E frec t v x).
Proof. intros t. apply passes_drop. apply means_ty; assumption. Qed.
Lemma means_u64 : means (de_int (e_fw E) (e_ub E) U64) (int_form E U64).
Proof. apply means_int; assumption. Qed.

Lemma passes_ty : forall t, passes (sk_ty E rec drec t) (shape_ty E srec frec t).
Proof.
  induction t; cbn [sk_ty shape_ty]; try (apply passes_decode).
  - apply passes_blob.
  - apply passes_blob.
  - apply passes_advance.
  - apply passes_advance.
  - apply passes_ret.
  - apply passes_then; assumption.
  - destruct (if e_spec E then bulk_of t else None) as [k|]; [apply passes_bulk|apply passes_seq, IHt].
  - apply passes_seq, IHt.
  - apply passes_rep, IHt.
  - eapply passes_iff; [|eapply passes_both with (G := fun b x => (b = 0 /\ x = []) \/ (b = 1 /\ shape_ty E srec frec t x)); [apply means_read_byte|]].
    + intros x _. cbn beta. unfold both. split.
      * intros (b & y & z & -> & -> & [[-> ->]|[-> H]]); [left; reflexivity|right]. exists [1], z. auto.
      * intros [->|(y & z & -> & <- & H)]; [exists 0, [0], []|exists 1, [1], z]; repeat split; auto.
    + intros b. destruct (N.eqb_spec b 0) as [->|H0]; [|destruct (N.eqb_spec b 1) as [->|H1]].
      * eapply passes_iff; [|apply passes_ret]. intros x _. cbn beta. split; [auto|intros [[_ H]|[H _]]; [exact H|discriminate]].
      * eapply passes_iff; [|apply IHt]. intros x _. cbn beta. split; [auto|intros [[H _]|[_ H]]; [discriminate|exact H]].
      * eapply passes_iff; [|apply passes_fail]. intros x _. cbn beta. split; [contradiction|intros [[H _]|[H _]]; contradiction].
  - eapply passes_iff; [|eapply passes_both with (G := fun b x => (b = 0 /\ shape_ty E srec frec t1 x) \/ (b = 1 /\ shape_ty E srec frec t2 x)); [apply means_u32; assumption|]].
    + intros x _. cbn beta. unfold both. split.
      * intros (b & y & z & -> & Hb & [[-> H]|[-> H]]); [left|right]; exists y, z; auto.
      * intros [(y & z & -> & Hb & H)|(y & z & -> & Hb & H)]; [exists 0, y, z|exists 1, y, z]; repeat split; auto.
    + intros b. destruct (N.eqb_spec b 0) as [->|H0]; [|destruct (N.eqb_spec b 1) as [->|H1]].
      * eapply passes_iff; [|apply IHt1]. intros x _. cbn beta. split; [auto|intros [[_ H]|[H _]]; [exact H|discriminate]].
      * eapply passes_iff; [|apply IHt2]. intros x _. cbn beta. split; [auto|intros [[H _]|[_ H]]; [discriminate|exact H]].
      * eapply passes_iff; [|apply passes_fail]. intros x _. cbn beta. split; [contradiction|intros [[H _]|[H _]]; contradiction].
  - eapply passes_iff; [|eapply passes_both with (G := fun b x => (b = 0 /\ x = []) \/ (b = 1 /\ shape_ty E srec frec t x) \/ (b = 2 /\ shape_ty E srec frec t x)); [apply means_u32; assumption|]].
    + intros x _. cbn beta. unfold both. split.
      * intros (b & y & z & -> & Hb & [[-> ->]|[[-> H]|[-> H]]]); [left; rewrite app_nil_r; exact Hb|right; left|right; right]; exists y, z; auto.
      * intros [Hb|[(y & z & -> & Hb & H)|(y & z & -> & Hb & H)]]; [exists 0, x, []; rewrite app_nil_r|exists 1, y, z|exists 2, y, z]; repeat split; auto.
    + intros b. destruct (N.eqb_spec b 0) as [->|H0]; [|destruct (N.eqb_spec b 1) as [->|H1]; [|destruct (N.eqb_spec b 2) as [->|H2]]].
      * eapply passes_iff; [|apply passes_ret]. intros x _. cbn beta. split; [auto|intros [[_ H]|[[H _]|[H _]]]; [exact H|discriminate|discriminate]].
      * eapply passes_iff; [|apply IHt]. intros x _. cbn beta. split; [auto|intros [[H _]|[[_ H]|[H _]]]; [discriminate|exact H|discriminate]].
      * eapply passes_iff; [|apply IHt]. intros x _. cbn beta. split; [auto|intros [[H _]|[[H _]|[_ H]]]; [discriminate|discriminate|exact H]].
      * eapply passes_iff; [|apply passes_fail]. intros x _. cbn beta. split; [contradiction|intros [[H _]|[[H _]|[H _]]]; contradiction].
  - apply passes_seq, passes_then; assumption.
  - apply passes_seq, IHt.
  - apply passes_seq, IHt.
  - exact IHt.
  - eapply passes_iff; [|eapply passes_both with (F := form_ty E frec (TInt U64)) (G := fun _ x => exists v, form_ty E frec (TInt U32) v x); [apply means_ty; assumption|intros _; apply passes_drop, means_ty; assumption]].
    intros x _. cbn beta. cbn [form_ty]. unfold both. split.
    + intros (v & y & z & -> & (s & _ & Hs) & w & n & _ & Hn). exists s, n, y, z. auto.
    + intros (s & n & y & z & -> & Hs & Hn). exists (VInt s), y, z. split; [reflexivity|]. split; [eauto|]. exists (VInt n), n. auto.
  - destruct mirror; [apply passes_decode|exact IHt].
  - apply Hrec.
Qed.
Lemma passes_fixed : forall t, passes (sk_fixed t) (match fixed_of t with Some (_, w) => any (N.of_nat w) | None => fun _ => False end).
Proof.
  intros t. unfold sk_fixed. destruct (fixed_of t) as [[s w]|]; [|apply passes_crash].
  eapply passes_iff; [|apply passes_drop, means_read_n]. intros x _. cbn beta. unfold any. split; [intros (b & _ & H); exact H|intros H; eauto].
Qed.
Lemma passes_fields : forall cur fs, passes (sk_fields E rec drec cur fs) (fields_shape E srec frec cur fs).
Proof.
  intros cur fs. induction fs as [|f fs IH]; cbn [sk_fields fields_shape]; [apply passes_ret|].
  destruct (falive cur f); [|exact IH]. apply passes_then; [|exact IH]. destruct (f_fixed f); [apply passes_fixed|apply passes_ty].
Qed.
Lemma passes_opaque : passes sk_struct_opt opaque.
Proof.
  unfold sk_struct_opt, opaque. eapply passes_iff; [|eapply passes_both; [unfold read_varlen_len; apply means_le|intros n; apply passes_advance]].
  intros x _. cbn beta. unfold both, any. split.
  - intros (n & y & z & -> & [Hy ->] & Hz). exists y, z. auto.
  - intros (y & z & -> & Hy & Hz). exists (le_val y), y, z. auto.
Qed.
Lemma passes_enum_opt : forall cur vs, passes (sk_enum_opt cur vs) (fun x => exists ds, calc_disc cur vs = Some ds /\ tagged_shape ds x).
Proof.
  intros cur vs. unfold sk_enum_opt. destruct (calc_disc cur vs) as [ds|] eqn:Ds.
  2: { eapply passes_iff; [|apply passes_crash]. intros x _. split; [contradiction|]. intros (? & H & _). discriminate. }
  pose proof (calc_disc_nodup _ _ _ Ds) as Hn.
  eapply passes_iff; [|eapply passes_both with (F := fun t x => x = [t])
    (G := fun t x => exists c, size_class t = Ok c /\ match c with CInline => x = [] | CFixed => exists n, declared_size ds (variant_id t) n /\ len x = n | CVarlen => opaque x end); [apply means_read_byte|]].
  - intros x Hx. unfold both, tagged_shape. split.
    + intros (t & y & z & -> & -> & c & Hc & H). exists ds. split; [reflexivity|]. exists t, z. split; [reflexivity|].
      apply wfb_cons in Hx. apply (tag_class drec frec Hdrec t (proj1 Hx)) in Hc. rewrite Hc, <- variant_id_mod. destruct c; exact H.
    + intros (ds' & Q & t & y & -> & H). injection Q as <-. exists t, [t], y. split; [reflexivity|]. split; [reflexivity|].
      apply wfb_cons in Hx. rewrite <- variant_id_mod in H.
      pose proof (fun c => proj2 (tag_class drec frec Hdrec t (proj1 Hx) c)) as TC. destruct (t / 32 mod 4) as [|[[p|p|]|[p|p|]|]] eqn:C; try contradiction.
      * exists CInline. split; [apply TC; reflexivity|exact H].
      * exists CVarlen. split; [apply TC; reflexivity|exact H].
      * exists CFixed. split; [apply TC; reflexivity|exact H].
  - intros t. eapply passes_iff; [|eapply passes_both with (F := fun c x => size_class t = Ok c /\ x = [])
      (G := fun c x => match c with CInline => x = [] | CFixed => exists n, declared_size ds (variant_id t) n /\ len x = n | CVarlen => opaque x end); [apply means_of_res|]].
    + intros x _. unfold both. split.
      * intros (c & y & z & -> & [Hc ->] & H). exists c. auto.
      * intros (c & Hc & H). exists c, [], x. auto.
    + intros [| |].
      * apply passes_ret.
      * pose proof (fun n => table_declared ds (variant_id t) n Hn (variant_id_lt t)) as T.
        destruct (size_table_some ds t) as (n & Q). rewrite Q in *.
        eapply passes_iff; [|apply passes_advance]. intros x _. unfold any. split.
        -- intros H. exists n. split; [apply T; reflexivity|exact H].
        -- intros (m & H & L). apply T in H. injection H as ->. exact L.
      * apply passes_opaque.
Qed.
Lemma passes_enum_legacy : forall cur vs, passes (sk_enum_legacy E rec drec cur vs)
  (fun x => exists ds, calc_disc cur vs = Some ds /\ exists vr k, In (vr, k) ds /\ both (int_form E U32 (Z.of_N k)) (fields_shape E srec frec cur (v_fields vr)) x).
Proof.
  intros cur vs. unfold sk_enum_legacy. destruct (calc_disc cur vs) as [ds|] eqn:Ds.
  2: { eapply passes_iff; [|apply passes_crash]. intros x _. split; [contradiction|]. intros (? & H & _). discriminate. }
  pose proof (calc_disc_nodup _ _ _ Ds) as Hn.
  eapply passes_iff; [|eapply passes_both with (G := fun k x => exists vr, In (vr, k) ds /\ fields_shape E srec frec cur (v_fields vr) x); [apply means_u32; assumption|]].
  - intros x _. unfold both. split.
    + intros (k & y & z & -> & Hk & vr & Hi & H). exists ds. split; [reflexivity|]. exists vr, k. split; [exact Hi|]. exists y, z. auto.
    + intros (ds' & Q & vr & k & Hi & y & z & -> & Hk & H). injection Q as <-. exists k, y, z. split; [reflexivity|]. split; [exact Hk|]. exists vr. auto.
  - intros k. pose proof (fun vr j => find_disc_iff ds k vr j Hn) as FU. destruct (find_disc k ds) as [[vr j]|].
    + destruct (proj1 (FU vr j) eq_refl) as (Hi & ->). eapply passes_iff; [|apply passes_fields]. intros x _. split.
      * intros H. exists vr. auto.
      * intros (vr2 & Hi2 & H). assert (Q : Some (vr, k) = Some (vr2, k)) by (apply FU; auto). injection Q as <-. exact H.
    + eapply passes_iff; [|apply passes_fail]. intros x _. split; [contradiction|]. intros (vr2 & Hi2 & _).
      assert (Q : None = Some (vr2, k)) by (apply FU; auto). discriminate.
Qed.
Lemma passes_derived : forall s, passes (sk_derived E rec drec s) (derived_shape E srec frec s).
Proof.
  intros s. unfold sk_derived, derived_shape.
  eapply passes_iff; [|eapply passes_both with (G := fun r x => exists h, sent s r = Some h /\ body_shape E srec frec s h r x); [apply means_u16; assumption|intros r]].
  - intros x _. unfold both. split.
    + intros (r & y & z & -> & Hr & h & Hh & H). exists r, h. split; [exact Hh|]. exists y, z. auto.
    + intros (r & h & Hh & y & z & -> & Hr & H). exists r, y, z. split; [reflexivity|]. split; [exact Hr|]. exists h. auto.
  - unfold sk_body, body_shape. destruct (sent s r) as [h|].
    + assert (K : forall p F, passes p F -> passes p (fun x => exists h', Some h = Some h' /\ F x)).
      { intros p F H. eapply passes_iff; [|exact H]. intros x _. split; [intros K; exists h; auto|intros (h' & _ & K); exact K]. }
      destruct (s_body s) as [fs|vs].
      * eapply passes_iff with (F := fun x => exists h', Some h = Some h' /\ (if h_opt h then opaque x else fields_shape E srec frec r fs x)).
        { intros x _. split; intros (h' & Q & H); injection Q as <-; exists h; auto. }
        apply K. destruct (h_opt h); [apply passes_opaque|apply passes_fields].
      * eapply passes_iff with (F := fun x => exists h', Some h = Some h' /\ (exists ds, calc_disc r vs = Some ds /\
          (if h_opt h then tagged_shape ds x else exists vr k, In (vr, k) ds /\ both (int_form E U32 (Z.of_N k)) (fields_shape E srec frec r (v_fields vr)) x))).
        { intros x _. split; intros (h' & Q & H); injection Q as <-; exists h; auto. }
        apply K. destruct (h_opt h); [apply passes_enum_opt|apply passes_enum_legacy].
    + eapply passes_iff; [|apply passes_fail]. intros x _. split; [contradiction|intros (h & Q & _); discriminate].
Qed.
End Rec.
Lemma passes_ref : forall d n, passes (sk_ref E d n) (shape_ref E d n).
Proof.
  induction d as [|d IH]; intros n; cbn [sk_ref shape_ref]; [apply passes_crash|].
  destruct (e_sch E n) as [s|].
  - eapply passes_iff; [|apply passes_derived; [apply IH|apply means_ref; assumption]]. intros x _. split; [intros H; exists s; auto|intros (s' & Q & H); injection Q as <-; exact H].
  - eapply passes_iff; [|apply passes_crash]. intros x _. split; [contradiction|intros (s & Q & _); discriminate].
Qed.
Lemma passes_skip : forall d t, passes (skip E d t) (shape E d t).
Proof. intros d t. apply passes_ty; [apply passes_ref|apply means_ref; assumption]. Qed.

(** ** The checking skip *)
Lemma passes_check : forall d t, passes (skip_check E d t) (check_shape E d t).
Proof.
  intros d t. unfold skip_check.
  assert (D : forall u, passes (de_ty E (de_ref E d) u ;;; Ret tt) (fun x => exists v, form E d u v x)).
  { intros u. apply passes_drop. apply means_deserialize; assumption. }
  induction t; cbn [sc_ty check_shape]; try apply D.
  - apply passes_ret.
  - apply passes_then; assumption.
  - apply passes_rep. assumption.
  - apply (passes_ty (sk_ref E d) (de_ref E d) (shape_ref E d) (form_ref E d)) with (t := TSystemTime); [apply passes_ref|apply means_ref; assumption].
Qed.

(** ** [indexed_*] fields *)
Lemma passes_follows : forall m p F, follows m p -> passes p F -> forall s s', wfb (sr_inner s) ->
  (m s = Ok (tt, s') <-> exists x, sr_inner s = x ++ sr_inner s' /\ sr_orig s' = sr_orig s /\ F x).
Proof.
  intros m p F Hf Hp s s' Hs. rewrite Hf. split.
  - intros H. destruct (run p (sr_inner s)) as [[[] y]|e|q] eqn:R; cbn [with_orig] in H; try discriminate. apply Ok_inj in H. injection H as <-.
    apply (means_run _ _ _ Hp _ _ _ Hs) in R. destruct R as (x & -> & Fx). exists x. cbn [sr_inner sr_orig]. auto.
  - intros (x & He & Ho & Fx).
    assert (R : run p (sr_inner s) = Ok (tt, sr_inner s')) by (apply (means_run _ _ _ Hp _ _ _ Hs); exists x; auto).
    rewrite R. cbn [with_orig]. rewrite <- Ho. destruct s'; reflexivity.
Qed.
Lemma fol_advance : forall n, follows (sm_op (sr_advance n)) (advance_read n).
Proof. intros n. apply fol_consume. Qed.
Lemma fol_peek : forall A n (f : bytes -> sm A) g, (forall x, follows (f x) (g x)) ->
  follows (sm_bind (fun s => rmap (fun x => (x, s)) (sr_peek n s)) (fun x => sm_bind (sm_op (sr_advance n)) (fun _ => f x))) (x <- read_n n ;; g x).
Proof.
  intros A n f g H s. unfold sm_bind, sr_peek, sm_op, sr_advance, sr_consume. rewrite run_bind. cbn [read_n run].
  destruct (split_at n (sr_inner s)) as [[x y]|] eqn:Es; cbn [rmap with_orig]; [|reflexivity]. rewrite Es, H. reflexivity.
Qed.
Lemma passes_flag : forall p q F G, passes (n <- read_varint E ;; p n) F -> passes (n <- read_varint E ;; q n) G ->
  passes (f <- read_byte ;; n <- read_varint E ;; if N.land f 1 =? 0 then p n else q n) (fun x => both (flagged false) F x \/ both (flagged true) G x).
Proof.
  intros p q F G Hp Hq. eapply passes_iff; [|eapply passes_both with (G := fun f x => if N.odd f then G x else F x); [apply means_read_byte|]].
  - intros x _. unfold both, flagged. split.
    + intros (f & y & z & -> & -> & H). destruct (N.odd f) eqn:O; [right|left]; exists [f], z; (split; [reflexivity|]); (split; [eauto|exact H]).
    + intros [(y & z & -> & (f & -> & O) & H)|(y & z & -> & (f & -> & O) & H)]; exists f, [f], z; rewrite O; auto.
  - intros f. rewrite odd_land. destruct (N.odd f); cbn [negb]; assumption.
Qed.
Lemma passes_idx_len : forall q F, (forall n, passes (q n) (F n)) -> passes (n <- read_varint E ;; q n) (fun x => exists n, both (idx_len_form E n) (F n) x).
Proof.
  intros q F H. apply passes_both; [|exact H].
  apply (means_varint E HW (de_ref E 0) (form_ref E 0)). intros n. apply means_ref; assumption.
Qed.
Definition p_idx_map (d : nat) (a b : ty) : prog unit :=
  f <- read_byte ;; n <- read_varint E ;;
  if N.land f 1 =? 0 then rep_ (N.to_nat n) (skip E d a ;;; skip E d b)
  else if n * 8 <? 2 ^ e_ub E then
         advance_read (n * 8) ;;; lens <- read_n 8 ;;
         if le_val (firstn 4 lens) + le_val (skipn 4 lens) <? 2 ^ e_ub E then advance_read (le_val (firstn 4 lens) + le_val (skipn 4 lens))
         else Fail ESubReaderOverrun
       else Fail ESubReaderOverrun.
Lemma fol_idx_map : forall d a b, follows (skip_indexed_map E d a b) (p_idx_map d a b).
Proof.
  intros d a b. unfold skip_indexed_map, p_idx_map. apply fol_bind; [apply fol_run|]. intros f.
  apply fol_bind; [apply fol_run|]. intros n.
  destruct (N.land f 1 =? 0).
  - apply fol_rep, fol_bind; [apply fol_run|]. intros _. apply fol_run.
  - destruct (n * 8 <? 2 ^ e_ub E); [|apply fol_err].
    apply fol_bind; [apply fol_advance|]. intros _. apply fol_bind; [apply fol_run|]. intros lens.
    cbv zeta. destruct (_ <? _); [apply fol_advance|apply fol_err].
Qed.
Lemma passes_idx_map : forall d a b, passes (p_idx_map d a b) (idx_map_shape E d a b).
Proof.
  intros d a b. unfold p_idx_map.
  eapply passes_iff; [|apply passes_flag; [apply passes_idx_len; intros n; apply passes_rep, passes_then; apply passes_skip; assumption|]].
  2: { apply passes_idx_len with (F := fun n x => n * 8 < 2 ^ e_ub E /\ exists table k v, len table = n * 8 /\ len k = 4 /\ len v = 4
           /\ le_val k + le_val v < 2 ^ e_ub E /\ both (eq (table ++ k ++ v)) (any (le_val k + le_val v)) x).
       intros n. destruct (n * 8 <? 2 ^ e_ub E) eqn:L.
       - eapply passes_iff; [|eapply passes_then; [apply passes_advance|eapply passes_both; [apply means_read_n|intros lens; apply passes_if, passes_advance]]].
         intros x _. unfold both, any. split.
         + intros (t & z & -> & Ht & lens & y & w & -> & [-> Hl] & Hw & C). split; [lia|]. exists t, (firstn 4 y), (skipn 4 y).
           assert (L4 : len (firstn 4 y) = 4 /\ len (skipn 4 y) = 4) by (unfold len in *; rewrite firstn_length, skipn_length; lia).
           split; [exact Ht|]. split; [apply L4|]. split; [apply L4|]. split; [lia|]. exists (t ++ y), w. rewrite firstn_skipn, <- app_assoc. auto.
         + intros (_ & t & k & v & Ht & Hk & Hv & C & y & z & -> & <- & Hz). exists t, ((k ++ v) ++ z). split; [rewrite <- !app_assoc; reflexivity|]. split; [exact Ht|].
           exists (k ++ v), (k ++ v), z.
           assert (L4 : firstn 4 (k ++ v) = k /\ skipn 4 (k ++ v) = v).
           { assert (Q : length k = 4%nat) by (unfold len in Hk; lia). rewrite <- Q. rewrite firstn_app, Nat.sub_diag, firstn_O, app_nil_r, firstn_all. split; [reflexivity|].
             rewrite skipn_app, Nat.sub_diag, skipn_all. reflexivity. }
           destruct L4 as [-> ->]. split; [reflexivity|]. split; [split; [reflexivity|rewrite len_app; lia]|]. split; [exact Hz|lia].
       - eapply passes_iff; [|apply passes_fail]. intros x _. split; [contradiction|]. intros [H _]. lia. }
  intros x _. unfold idx_map_shape. split.
  - intros [(y & z & -> & Hf & n & H)|(y & z & -> & Hf & n & u & w & -> & Hn & Hb & t & k & v & Ht & Hk & Hv & C & H)].
    + left. exists n. rewrite N2Nat.id in H. exists y, z. auto.
    + right. exists n, t, k, v. repeat (split; [assumption|]). exists y, (u ++ w). split; [reflexivity|]. split; [exact Hf|]. exists u, w. auto.
  - intros [(n & y & z & -> & Hf & H)|(n & t & k & v & Hb & Ht & Hk & Hv & C & y & z & -> & Hf & u & w & -> & Hn & H)].
    + left. exists y, z. split; [reflexivity|]. split; [exact Hf|]. exists n. rewrite N2Nat.id. exact H.
    + right. exists y, (u ++ w). split; [reflexivity|]. split; [exact Hf|]. exists n, u, w. split; [reflexivity|]. split; [exact Hn|]. split; [exact Hb|]. exists t, k, v. auto 6.
Qed.
Definition p_idx_seq (d : nat) (a : ty) : prog unit :=
  f <- read_byte ;; n <- read_varint E ;;
  if N.land f 1 =? 0 then rep_ (N.to_nat n) (skip E d a)
  else if n =? 0 then Ret tt
       else if n * 4 <? 2 ^ e_ub E then
         table <- read_n (n * 4) ;; advance_read (le_val (skipn (N.to_nat ((n - 1) * 4)) table)) ;;; skip E d a
       else Fail ESubReaderOverrun.
Lemma fol_idx_seq : forall d a, follows (skip_indexed_seq E d a) (p_idx_seq d a).
Proof.
  intros d a. unfold skip_indexed_seq, p_idx_seq. apply fol_bind; [apply fol_run|]. intros f.
  apply fol_bind; [apply fol_run|]. intros n.
  destruct (N.land f 1 =? 0).
  - apply fol_rep, fol_run.
  - destruct (n =? 0); [apply fol_ret|]. destruct (n * 4 <? 2 ^ e_ub E); [|apply fol_err].
    cbv zeta. apply fol_peek. intros table. apply fol_bind; [apply fol_advance|]. intros _. apply fol_run.
Qed.
Lemma passes_idx_seq : forall d a, passes (p_idx_seq d a) (idx_seq_shape E d a).
Proof.
  intros d a. unfold p_idx_seq.
  eapply passes_iff; [|apply passes_flag; [apply passes_idx_len; intros n; apply passes_rep, passes_skip; assumption|]].
  2: { apply passes_idx_len with (F := fun n x => (n = 0 /\ x = []) \/ (0 < n /\ n * 4 < 2 ^ e_ub E /\ exists table last, len table + 4 = n * 4 /\ len last = 4
           /\ both (eq (table ++ last)) (both (any (le_val last)) (shape E d a)) x)).
       intros n. destruct (N.eqb_spec n 0) as [->|Hn].
       { eapply passes_iff; [|apply passes_ret]. intros x _. split; [auto|]. intros [[_ H]|[H _]]; [exact H|lia]. }
       destruct (n * 4 <? 2 ^ e_ub E) eqn:L.
       - eapply passes_iff; [|eapply passes_both; [apply means_read_n|intros t; eapply passes_then; [apply passes_advance|apply passes_skip; assumption]]].
         intros x _. unfold both, any. split.
         + intros (t & y & z & -> & [-> Hl] & H). right. split; [lia|]. split; [lia|].
           exists (firstn (N.to_nat ((n - 1) * 4)) y), (skipn (N.to_nat ((n - 1) * 4)) y).
           assert (L4 : len (firstn (N.to_nat ((n - 1) * 4)) y) + 4 = n * 4 /\ len (skipn (N.to_nat ((n - 1) * 4)) y) = 4) by (unfold len in *; rewrite firstn_length, skipn_length; lia).
           split; [apply L4|]. split; [apply L4|]. exists y, z. rewrite firstn_skipn. auto.
         + intros [[H _]|(_ & _ & t & k & Ht & Hk & y & z & -> & <- & H)]; [contradiction|]. exists (t ++ k), (t ++ k), z.
           split; [reflexivity|]. split; [split; [reflexivity|rewrite len_app; lia]|].
           assert (Q : skipn (N.to_nat ((n - 1) * 4)) (t ++ k) = k).
           { replace (N.to_nat ((n - 1) * 4)) with (length t) by (unfold len in Ht; lia). rewrite skipn_app, Nat.sub_diag, skipn_all. reflexivity. }
           rewrite Q. exact H.
       - eapply passes_iff; [|apply passes_fail]. intros x _. split; [contradiction|]. intros [[H _]|(_ & H & _)]; lia. }
  intros x _. unfold idx_seq_shape. split.
  - intros [(y & z & -> & Hf & n & H)|(y & z & -> & Hf & n & u & w & -> & Hn & [[-> ->]|(H0 & Hb & t & k & Ht & Hk & H)])].
    + left. exists n. rewrite N2Nat.id in H. exists y, z. auto.
    + right. left. exists y, (u ++ []). rewrite app_nil_r. auto.
    + right. right. exists n, t, k. repeat (split; [assumption|]). exists y, (u ++ w). split; [reflexivity|]. split; [exact Hf|]. exists u, w. auto.
  - intros [(n & y & z & -> & Hf & H)|[(y & z & -> & Hf & H)|(n & t & k & H0 & Hb & Ht & Hk & y & z & -> & Hf & u & w & -> & Hn & H)]].
    + left. exists y, z. split; [reflexivity|]. split; [exact Hf|]. exists n. rewrite N2Nat.id. exact H.
    + right. exists y, z. split; [reflexivity|]. split; [exact Hf|]. exists 0, z, []. rewrite app_nil_r. auto.
    + right. exists y, (u ++ w). split; [reflexivity|]. split; [exact Hf|]. exists n, u, w. split; [reflexivity|]. split; [exact Hn|]. right. split; [exact H0|]. split; [exact Hb|]. exists t, k. auto.
Qed.
End S.

(** ** Memory: with a limit, the outcome is the unlimited one or a refused allocation *)
Section Mem.
Variable E : env.
Let E0 := set_mem None E.
Variables (rec rec' : N -> prog unit) (drec drec' : N -> prog val).
Hypothesis Hr : forall n, agree (eq PMem) (rec n) (rec' n).
Hypothesis Hd : forall n, agree (eq PMem) (drec n) (drec' n).
Lemma mem_de_ty : forall t, agree (eq PMem) (de_ty E drec t) (de_ty E0 drec' t).
Proof. intros t. apply (agree_ty _ E None (e_dbg E)); [apply alloc_agree|exact Hd]. Qed.
Lemma mem_drop : forall t, agree (eq PMem) (de_ty E drec t ;;; Ret tt) (de_ty E0 drec' t ;;; Ret tt).
Proof. intros t. apply agree_bind; [apply mem_de_ty|intros; apply agree_refl]. Qed.
Lemma mem_sk_ty : forall t, agree (eq PMem) (sk_ty E rec drec t) (sk_ty E0 rec' drec' t).
Proof.
  assert (Q : forall p q, agree (eq PMem) p q -> agree (eq PMem) (sk_seq E p) (sk_seq E0 q)).
  { intros p q H. apply agree_bind; [apply agree_refl|]. intros n. apply agree_rep_. exact H. }
  induction t; cbn [sk_ty]; try apply mem_drop; try apply agree_refl; try (apply Q; assumption); try assumption.
  - apply agree_bind; auto.
  - change (e_spec E0) with (e_spec E). destruct (if e_spec E then bulk_of t else None); [apply agree_refl|apply Q; assumption].
  - apply agree_rep_. assumption.
  - apply agree_bind; [apply agree_refl|]. intros b. destruct (b =? 0); [apply agree_refl|]. destruct (b =? 1); [assumption|apply agree_refl].
  - apply agree_bind; [apply agree_refl|]. intros b. destruct (b =? 0); [assumption|]. destruct (b =? 1); [assumption|apply agree_refl].
  - apply agree_bind; [apply agree_refl|]. intros b. destruct (b =? 0); [apply agree_refl|]. destruct (b =? 1); [assumption|].
    destruct (b =? 2); [assumption|apply agree_refl].
  - apply Q, agree_bind; auto.
  - destruct mirror; [apply mem_drop|assumption].
  - apply Hr.
Qed.
Lemma mem_sk_fields : forall cur fs, agree (eq PMem) (sk_fields E rec drec cur fs) (sk_fields E0 rec' drec' cur fs).
Proof.
  intros cur fs. induction fs as [|f fs IH]; cbn [sk_fields]; [apply agree_refl|].
  destruct (falive cur f); [|exact IH]. apply agree_bind; [|intros; exact IH].
  destruct (f_fixed f); [apply agree_refl|]. apply mem_sk_ty.
Qed.
Lemma mem_sc_ty : forall t, agree (eq PMem) (sc_ty E drec t) (sc_ty E0 drec' t).
Proof.
  induction t; cbn [sc_ty]; try apply mem_drop; try apply agree_refl.
  - apply agree_bind; auto.
  - apply agree_rep_. assumption.
Qed.
End Mem.
Lemma mem_de_ref : forall E d n, agree (eq PMem) (de_ref E d n) (de_ref (set_mem None E) d n).
Proof. intros E d n. apply (mem_agree E d (TRef n)). Qed.
Lemma mem_sk_ref : forall E d n, agree (eq PMem) (sk_ref E d n) (sk_ref (set_mem None E) d n).
Proof.
  intros E. induction d as [|d IH]; intros n; cbn [sk_ref]; [apply agree_refl|]. change (e_sch (set_mem None E) n) with (e_sch E n).
  destruct (e_sch E n) as [s|]; [|apply agree_refl]. apply agree_bind; [apply agree_refl|]. intros r. unfold sk_body.
  destruct (sent s r) as [h|]; [|apply agree_refl]. pose proof (mem_de_ref E d) as D.
  destruct (s_body s) as [fs|vs]; destruct (h_opt h); [apply agree_refl|apply mem_sk_fields; assumption|apply agree_refl|].
  unfold sk_enum_legacy. destruct (calc_disc r vs) as [ds|]; [|apply agree_refl]. apply agree_bind; [apply agree_refl|]. intros x.
  destruct (find_disc x ds) as [[vr ?]|]; [apply mem_sk_fields; assumption|apply agree_refl].
Qed.
Lemma mem_skip : forall E d t, agree (eq PMem) (skip E d t) (skip (set_mem None E) d t).
Proof. intros E d t. apply mem_sk_ty; [apply mem_sk_ref|apply mem_de_ref]. Qed.
Lemma mem_skip_check : forall E d t, agree (eq PMem) (skip_check E d t) (skip_check (set_mem None E) d t).
Proof. intros E d t. apply mem_sc_ty, mem_de_ref. Qed.
Lemma mem_idx_map : forall E d a b, agree (eq PMem) (p_idx_map E d a b) (p_idx_map (set_mem None E) d a b).
Proof.
  intros E d a b. unfold p_idx_map. apply agree_bind; [apply agree_refl|]. intros f. apply agree_bind; [apply agree_refl|]. intros n.
  destruct (_ =? 0); [|apply agree_refl]. apply agree_rep_, agree_bind; [apply mem_skip|intros; apply mem_skip].
Qed.
Lemma mem_idx_seq : forall E d a, agree (eq PMem) (p_idx_seq E d a) (p_idx_seq (set_mem None E) d a).
Proof.
  intros E d a. unfold p_idx_seq. apply agree_bind; [apply agree_refl|]. intros f. apply agree_bind; [apply agree_refl|]. intros n.
  destruct (_ =? 0); [apply agree_rep_, mem_skip|]. destruct (n =? 0); [apply agree_refl|]. change (e_ub (set_mem None E)) with (e_ub E).
  destruct (_ <? _); [|apply agree_refl]. apply agree_bind; [apply agree_refl|]. intros table. apply agree_bind; [apply agree_refl|]. intros _. apply mem_skip.
Qed.
(** A reader that passes exactly [F] without a limit. *)
Lemma passes_limited : forall E p p0 F, (e_mem E = None -> p = p0) -> agree (eq PMem) p p0 -> passes p0 F -> forall bs, wfb bs ->
  (forall rest, run p bs = Ok (tt, rest) -> exists x, bs = x ++ rest /\ F x)
  /\ (forall x rest, bs = x ++ rest -> F x -> or_oom E (run p bs) (Ok (tt, rest))).
Proof.
  intros E p p0 F Hn Ha Hp bs Hb. split.
  - intros rest R. destruct (Ha bs) as [A|(q & <- & A)]; [|congruence]. rewrite A in R. apply (means_run _ _ _ Hp _ _ _ Hb) in R. exact R.
  - intros x rest He Fx. assert (R : run p0 bs = Ok (tt, rest)) by (apply (means_run _ _ _ Hp _ _ _ Hb); eauto).
    destruct (e_mem E) as [m|] eqn:Em.
    + destruct (Ha bs) as [A|(q & <- & A)]; [left; congruence|right]. rewrite Em. split; [discriminate|exact A].
    + left. rewrite Hn by reflexivity. exact R.
Qed.
