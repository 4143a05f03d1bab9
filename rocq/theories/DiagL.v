(** Decoders report exactly the faults of Diag.v.  Proofs. *)

From Verif Require Import Base BaseL Prog ProgL Prim PrimL Utf8 Utf8L Tag Ty De Typed RtL DiscL Spec IntL PropVal Format FormatL Diag.
From Coq Require Import List NArith ZArith Bool Lia ZifyBool.
Import ListNotations.
Open Scope N_scope.

Definition faults {A} (p : prog A) (G : err -> bytes -> Prop) : Prop :=
  forall e x, wfb x -> (run p x = Err e <-> G e x).

Lemma Err_inj : forall A (e e' : err), @Err A e = Err e' -> e = e'.
Proof. intros A e e' H. inversion H. reflexivity. Qed.

Lemma faults_iff : forall A (p : prog A) G H, (forall e x, wfb x -> (G e x <-> H e x)) -> faults p G -> faults p H.
Proof. intros A p G H K F e x Hx. rewrite <- (K e x Hx). apply F, Hx. Qed.
Lemma faults_run_eq : forall A (p q : prog A) G, (forall x, run p x = run q x) -> faults p G -> faults q G.
Proof. intros A p q G H F e x Hx. rewrite <- H. apply F, Hx. Qed.
Lemma faults_ret : forall A (a : A), faults (Ret a) (fun _ _ => False).
Proof. intros A a e x Hx. cbn [run]. split; [discriminate|contradiction]. Qed.
Lemma faults_fail : forall A e0, faults (Fail e0 : prog A) (says e0).
Proof. intros A e0 e x Hx. cbn [run]. unfold says. split; [intros H; apply Err_inj in H; congruence|intros ->; reflexivity]. Qed.
Lemma faults_crash : forall A q, faults (Crash q : prog A) (fun _ _ => False).
Proof. intros A q e x Hx. cbn [run]. split; [discriminate|contradiction]. Qed.
Lemma faults_bind : forall A B (p : prog A) (f : A -> prog B) F G H,
  means p F -> faults p G -> (forall a y, wfb y -> F a y -> faults (f a) (H a)) ->
  faults (bind p f) (fun e x => G e x \/ exists a, after (F a) (H a) e x).
Proof.
  intros A B p f F G H Hp Gp Hf e x Hx. rewrite run_bind. split.
  - intros R. destruct (run p x) as [[a r]|e'|q] eqn:Rp; try discriminate.
    + right. apply (means_run _ _ _ Hp x a r Hx) in Rp. destruct Rp as (y & -> & Fy). apply wfb_app in Hx.
      exists a, y, r. split; [reflexivity|]. split; [exact Fy|]. exact (proj1 (Hf a y (proj1 Hx) Fy e r (proj2 Hx)) R).
    + apply Err_inj in R. subst e'. left. apply Gp; assumption.
  - intros [K|(a & y & z & -> & Fy & K)].
    + apply Gp in K; [|exact Hx]. rewrite K. reflexivity.
    + assert (R : run p (y ++ z) = Ok (a, z)) by (apply (means_run _ _ _ Hp); [exact Hx|exists y; auto]).
      rewrite R. apply wfb_app in Hx. apply (Hf a y); tauto.
Qed.
Lemma faults_map : forall A B (p : prog A) (g : A -> B) G, faults p G -> faults (a <- p ;; Ret (g a)) G.
Proof.
  intros A B p g G H e x Hx. rewrite <- (H e x Hx). rewrite run_bind.
  destruct (run p x) as [[a r]|e'|q]; cbn [run]; split; intros K; try discriminate; apply Err_inj in K; subst; reflexivity.
Qed.
Lemma faults_map_err : forall A (p : prog A) G, faults p G -> faults (map_err wrap_err p) (wrapped G).
Proof.
  intros A p G H e x Hx. rewrite run_map_err. unfold wrapped. split.
  - intros K. destruct (run p x) as [[b y]|e'|q] eqn:R; cbn [rmap_err] in K; try discriminate. apply Err_inj in K. subst e.
    split; [reflexivity|]. exists e'. apply H; assumption.
  - intros [-> (e' & K)]. apply H in K; [|exact Hx]. rewrite K. reflexivity.
Qed.
Lemma faults_of_res : forall A (r : res A), faults (of_res r) (fun e _ => r = Err e).
Proof.
  intros A [a|e0|q] e x Hx; cbn [of_res run]; split; intros H; try discriminate; apply Err_inj in H; subst; reflexivity.
Qed.
Lemma faults_then : forall A B (p : prog A) (f : A -> prog B) F G H,
  means p F -> faults p G -> (forall a, faults (f a) (fun e _ => H a e)) ->
  faults (bind p f) (fun e x => G e x \/ exists a, padded (F a) x /\ H a e).
Proof.
  intros A B p f F G H Hp Gp Hf. eapply faults_iff; [|eapply faults_bind; [exact Hp|exact Gp|intros a y _ _; apply Hf]].
  intros e x _. cbn beta. unfold after, padded. split.
  - intros [K|(a & y & z & -> & Fy & K)]; [left; exact K|right]. exists a. split; [exists y, z; auto|exact K].
  - intros [K|(a & (y & z & -> & Fy) & K)]; [left; exact K|right]. exists a, y, z. auto.
Qed.
Lemma faults_read : forall n e0, faults (Read n e0 (fun _ => Ret tt)) (fun e x => e = e0 /\ len x < n).
Proof.
  intros n e0 e x Hx. cbn [run]. destruct (split_at n x) as [[y z]|] eqn:S.
  - cbn [run]. split; [discriminate|intros [_ L]]. apply split_at_none in L. rewrite L in S. discriminate.
  - apply split_at_none in S. split; [intros H; apply Err_inj in H; auto|intros [-> _]; reflexivity].
Qed.
Lemma faults_read_n : forall n, faults (read_n n) (short n).
Proof.
  intros n e x Hx. unfold read_n, short. cbn [run]. destruct (split_at n x) as [[y z]|] eqn:S.
  - cbn [run]. split; [discriminate|intros [_ L]]. apply split_at_none in L. rewrite L in S. discriminate.
  - apply split_at_none in S. split; [intros H; apply Err_inj in H; auto|intros [-> _]; reflexivity].
Qed.
Lemma faults_read_byte : faults read_byte (short 1).
Proof.
  intros e x Hx. unfold short. destruct x as [|b x].
  - rewrite run_read_byte_nil. split; [intros H; apply Err_inj in H; subst; split; reflexivity|intros [-> _]; reflexivity].
  - rewrite run_read_byte_cons. rewrite len_cons. split; [discriminate|intros [_ L]; lia].
Qed.
Lemma faults_advance : forall m, faults (advance m) (short m).
Proof. intros m. apply faults_map, faults_read_n. Qed.
Lemma faults_byte : forall A (f : N -> prog A) (H : N -> err -> bytes -> Prop), (forall b, b < 256 -> faults (f b) (H b)) ->
  faults (b <- read_byte ;; f b) (fun e x => short 1 e x \/ exists b z, x = b :: z /\ H b e z).
Proof.
  intros A f H Hf. eapply faults_iff; [|eapply faults_bind with (H := H); [apply means_read_byte|apply faults_read_byte|]].
  - intros e x _. cbn beta. unfold after. split.
    + intros [K|(b & y & z & -> & -> & K)]; [left; exact K|right]. exists b, z. auto.
    + intros [K|(b & z & -> & K)]; [left; exact K|right]. exists b, [b], z. auto.
  - intros b y Hy ->. apply wfb_cons in Hy. apply Hf, Hy.
Qed.
Lemma items_app1 : forall A (F : A -> bytes -> Prop) a y l z, F a y -> items F l z -> items F (a :: l) (y ++ z).
Proof. intros. apply items_cons. eauto. Qed.
Lemma faults_rep : forall A (p : prog A) F G n, means p F -> faults p G -> faults (rep n p) (list_fault (N.of_nat n) F G).
Proof.
  intros A p F G n Hp Gp. induction n as [|n IH]; cbn [rep].
  - eapply faults_iff; [|apply faults_ret]. intros e x _. unfold list_fault. split; [contradiction|intros (l & L & _); lia].
  - eapply faults_iff; [|eapply faults_bind; [exact Hp|exact Gp|intros a y _ _; apply faults_map, IH]].
    intros e x _. cbn beta. unfold list_fault. split.
    + intros [K|(a & y & z & -> & Fy & l & L & u & w & -> & Hl & K)].
      * exists []. rewrite len_nil. split; [lia|]. exists [], x. split; [reflexivity|]. split; [apply items_nil; reflexivity|exact K].
      * exists (a :: l). rewrite len_cons. split; [lia|]. exists (y ++ u), w. rewrite app_assoc. split; [reflexivity|]. split; [apply items_app1; assumption|exact K].
    + intros ([|a l] & L & y & z & -> & Hl & K).
      * apply items_nil in Hl. subst y. left. exact K.
      * apply items_cons in Hl. destruct Hl as (y1 & y2 & -> & Fa & Hl). right. rewrite <- app_assoc. exists a, y1, (y2 ++ z). split; [reflexivity|]. split; [exact Fa|].
        rewrite len_cons in L. exists l. split; [lia|]. exists y2, z. auto.
Qed.
Lemma faults_in_buf : forall A (p : prog A) G buf, wfb buf -> faults p G -> faults (in_buf p buf) (fun e _ => G e buf).
Proof.
  intros A p G buf Hb H. unfold in_buf. eapply faults_iff; [|apply faults_of_res].
  intros e x _. cbn beta. rewrite <- (H e buf Hb). destruct (run p buf) as [[a r]|e'|q]; cbn [rmap]; split; intros K; try discriminate; apply Err_inj in K; subst; reflexivity.
Qed.
Lemma faults_part : forall A n (p : prog A) G, faults p G -> faults (buf <- read_n n ;; in_buf p buf) (part n G).
Proof.
  intros A n p G H. eapply faults_iff; [|eapply faults_bind with (H := fun b e _ => G e b); [apply means_read_n|apply faults_read_n|]].
  - intros e x _. cbn beta. unfold part, after. split.
    + intros [K|(b & y & z & -> & [-> Hl] & K)]; [left; exact K|right; exists y, z; auto].
    + intros [K|(y & z & -> & Hl & K)]; [left; exact K|right; exists y, y, z; auto].
  - intros b y Hy [-> _]. apply faults_in_buf; assumption.
Qed.

(** Integers. *)
Lemma faults_decoder : forall w, w = 64 \/ w = 128 -> faults (decoder w) (varint_fault w).
Proof.
  intros w Hw e x Hx.
  assert (K : run (decoder w) x = match x with [] => Err EIo | b :: r =>
     run (if b =? 251 then x <- read_n 2 ;; Ret (le_val x) else if b =? 252 then x <- read_n 4 ;; Ret (le_val x)
          else if b =? 253 then x <- read_n 8 ;; Ret (le_val x)
          else if b =? 254 then (if w =? 128 then x <- read_n 16 ;; Ret (le_val x) else Fail EOverflow)
          else if b =? 255 then Fail EInvalidInt else Ret b) r end).
  { unfold decoder, decode_u128, decode_u64. destruct x as [|b r].
    - destruct (w =? 128); reflexivity.
    - destruct (w =? 128); rewrite run_bind, run_read_byte_cons; reflexivity. }
  rewrite K. clear K. unfold varint_fault, announced. destruct x as [|b r]; [split; [intros H; apply Err_inj in H; auto|intros ->; reflexivity]|].
  apply wfb_cons in Hx. destruct Hx as [_ Hr].
  assert (R : forall n, run (y <- read_n n ;; Ret (le_val y)) r = Err e <-> short n e r) by (intros n; apply faults_map; [apply faults_read_n|exact Hr]).
  destruct (N.eqb_spec b 251) as [->|H1]; [apply R|]. destruct (N.eqb_spec b 252) as [->|H2]; [apply R|].
  destruct (N.eqb_spec b 253) as [->|H3]; [apply R|]. destruct (N.eqb_spec b 254) as [->|H4].
  - cbn [N.eqb Pos.eqb andb]. destruct Hw as [->| ->]; cbn [N.eqb Pos.eqb]; [|apply R].
    cbn [run]. split; [intros H; apply Err_inj in H; auto|intros ->; reflexivity].
  - destruct (N.eqb_spec b 255) as [->|H5]; cbn [andb].
    + cbn [run]. split; [intros H; apply Err_inj in H; auto|intros ->; reflexivity].
    + cbn [run]. unfold short. split; [discriminate|intros [_ H]; lia].
Qed.
Lemma faults_narrowU : forall b n, faults (narrowU b n) (fun e _ => e = EOverflow /\ ~ n < 2 ^ b).
Proof.
  intros b n. unfold narrowU. destruct (n <? 2 ^ b) eqn:L.
  - eapply faults_iff; [|apply faults_ret]. intros e x _. cbn beta. split; [contradiction|intros [_ H]; lia].
  - eapply faults_iff; [|apply faults_fail]. intros e x _. unfold says. split; [intros ->; split; [reflexivity|lia]|tauto].
Qed.
Lemma faults_narrowS : forall b n, faults (narrowS b n) (fun e _ => e = EOverflow /\ ~ inS b n).
Proof.
  intros b n. unfold narrowS, inS. destruct ((- 2 ^ (Z.of_N b - 1) <=? n) && (n <? 2 ^ (Z.of_N b - 1)))%Z eqn:L.
  - eapply faults_iff; [|apply faults_ret]. intros e x _. cbn beta. apply andb_prop in L. destruct L as [L1 L2]. apply Z.leb_le in L1. apply Z.ltb_lt in L2.
    split; [contradiction|intros [_ H]; apply H; split; assumption].
  - eapply faults_iff; [|apply faults_fail]. intros e x _. unfold says. split; [|tauto]. intros ->. split; [reflexivity|]. intros [K1 K2].
    apply Z.leb_le in K1. apply Z.ltb_lt in K2. rewrite K1, K2 in L. discriminate.
Qed.
Lemma padded_wfb : forall F x, wfb x -> padded F x -> exists y, wfb y /\ F y.
Proof. intros F x Hx (y & z & -> & Fy). apply wfb_app in Hx. exists y. tauto. Qed.

Section F.
Variable E : env.
Hypothesis HW : wf_env E.
Hypothesis HM : e_mem E = None.

Lemma no_over : forall i (P : N -> Prop) e x (G : Prop), (forall n, padded (code_form E i n) x -> in_ity (e_ub E) i (number i n)) ->
  (G <-> G \/ (e = EOverflow /\ exists n, padded (code_form E i n) x /\ ~ in_ity (e_ub E) i (number i n))).
Proof. intros i P e x G H. split; [tauto|]. intros [K|(_ & n & Hn & K)]; [exact K|]. exfalso. apply K, H, Hn. Qed.
Lemma code_range : forall i x n, match i with U64 | I64 | U128 | I128 => True | U16 | I16 | U32 | I32 => e_fw E = true | _ => False end ->
  wfb x -> padded (code_form E i n) x -> in_ity (e_ub E) i (number i n).
Proof.
  intros i x n Hi Hx Hp. apply padded_wfb in Hp; [|exact Hx]. destruct Hp as (y & Hy & Hc). unfold code_form in Hc.
  assert (K : forall b, (b = 16 \/ b = 32 \/ b = 64 \/ b = 128) -> n < 2 ^ b -> (0 <= Z.of_N n < 2 ^ Z.of_N b)%Z /\ inS b (gz n)).
  { intros b Hb L. split; [pose proof (zpow2 b); lia|]. apply gz_range; [lia|exact L]. }
  destruct i; try contradiction; unfold in_ity, number; cbn [ity_signed ity_bits wire_bits] in *; unfold inU; change unzigzag with gz;
    [rewrite Hi in Hc|rewrite Hi in Hc|rewrite Hi in Hc|rewrite Hi in Hc| | | |];
    match goal with |- (_ <= _ < 2 ^ Z.of_N ?b)%Z => apply (K b); [lia|] | |- inS ?b _ => apply (K b); [lia|] end.
  - destruct Hc as [Hl ->]. change 16 with (8 * 2). apply le_bound; [exact Hy|exact Hl].
  - destruct Hc as [Hl ->]. change 16 with (8 * 2). apply le_bound; [exact Hy|exact Hl].
  - destruct Hc as [Hl ->]. change 32 with (8 * 4). apply le_bound; [exact Hy|exact Hl].
  - destruct Hc as [Hl ->]. change 32 with (8 * 4). apply le_bound; [exact Hy|exact Hl].
  - destruct (e_fw E); [destruct Hc as [Hl ->]; change 64 with (8 * 8); apply le_bound; [exact Hy|exact Hl]|]. exact (den_lt 64 y n (or_introl eq_refl) Hy Hc).
  - destruct (e_fw E); [destruct Hc as [Hl ->]; change 64 with (8 * 8); apply le_bound; [exact Hy|exact Hl]|]. exact (den_lt 64 y n (or_introl eq_refl) Hy Hc).
  - destruct (e_fw E); [destruct Hc as [Hl ->]; change 128 with (8 * 16); apply le_bound; [exact Hy|exact Hl]|]. exact (den_lt 128 y n (or_intror eq_refl) Hy Hc).
  - destruct (e_fw E); [destruct Hc as [Hl ->]; change 128 with (8 * 16); apply le_bound; [exact Hy|exact Hl]|]. exact (den_lt 128 y n (or_intror eq_refl) Hy Hc).
Qed.
Lemma faults_int : forall i, faults (de_int (e_fw E) (e_ub E) i) (int_fault E i).
Proof.
  intros i.
  assert (R : forall i (p : prog Z), match i with U64 | I64 | U128 | I128 => True | U16 | I16 | U32 | I32 => e_fw E = true | _ => False end ->
     faults p (code_fault E i) -> faults p (int_fault E i)).
  { intros j p Hj Hp. eapply faults_iff; [|exact Hp]. intros e x Hx. destruct j; try contradiction; cbn [int_fault]; apply (no_over _ (fun _ => True)); intros n Hn; eapply code_range; eauto. }
  assert (U : forall b i, match i with U16 => b = 16 | U32 => b = 32 | _ => False end -> e_fw E = false -> faults (n <- (n <- decoder 64 ;; narrowU b n) ;; Ret (Z.of_N n)) (int_fault E i)).
  { intros b j Hj Hf. apply faults_map. eapply faults_iff; [|eapply faults_then; [apply (means_decoder 64); auto|apply (faults_decoder 64); auto|apply faults_narrowU]].
    intros e x _. cbn beta. pose proof (zpow2 b) as Z2. destruct j; try contradiction; subst b; cbn [int_fault]; unfold code_fault, code_form, in_ity, number; rewrite Hf; cbn [wire_bits ity_signed ity_bits]; unfold inU;
    (split; [intros [H|(n & Hn & -> & L)]; [left; exact H|right; split; [reflexivity|]; exists n; split; [exact Hn|lia]]
            |intros [H|(-> & n & Hn & L)]; [left; exact H|right; exists n; split; [exact Hn|]; split; [reflexivity|lia]]]). }
  assert (S : forall b i, match i with I16 => b = 16 | I32 => b = 32 | _ => False end -> e_fw E = false -> faults (n <- decoder 64 ;; narrowS b (gazgiz 64 n)) (int_fault E i)).
  { intros b j Hj Hf. eapply faults_iff; [|eapply faults_then; [apply (means_decoder 64); auto|apply (faults_decoder 64); auto|intros a; apply faults_narrowS]].
    intros e x _. cbn beta. destruct j; try contradiction; subst b; cbn [int_fault]; unfold code_fault, code_form, in_ity, number; rewrite Hf; cbn [wire_bits ity_signed ity_bits];
    (split; [intros [H|(n & Hn & -> & L)]; [left; exact H|right; split; [reflexivity|]; exists n; rewrite gazgiz_gz in L; split; [exact Hn|exact L]]
            |intros [H|(-> & n & Hn & L)]; [left; exact H|right; exists n; rewrite gazgiz_gz; split; [exact Hn|]; split; [reflexivity|exact L]]]). }
  assert (C : forall i, e_fw E = true -> faults (read_n (ity_bits 64 i / 8)) (code_fault E i)).
  { intros j Hf. unfold code_fault. rewrite Hf. apply faults_read_n. }
  assert (D : forall i, e_fw E = false -> faults (decoder (wire_bits i)) (code_fault E i)).
  { intros j Hf. unfold code_fault. rewrite Hf. apply faults_decoder. destruct j; cbn; auto. }
  destruct i; cbn [de_int]; try (unfold de_i8; apply faults_map, faults_read_byte).
  - unfold de_u16. destruct (e_fw E) eqn:Hf; [apply R; [reflexivity|]; apply faults_map, faults_map; apply (C U16 eq_refl)|].
    apply (U 16 U16); [reflexivity|reflexivity].
  - unfold de_i16. destruct (e_fw E) eqn:Hf; [apply R; [reflexivity|]; apply faults_map; apply (C I16 eq_refl)|].
    apply (S 16 I16); [reflexivity|reflexivity].
  - unfold de_u32. destruct (e_fw E) eqn:Hf; [apply R; [reflexivity|]; apply faults_map, faults_map; apply (C U32 eq_refl)|].
    apply (U 32 U32); [reflexivity|reflexivity].
  - unfold de_i32. destruct (e_fw E) eqn:Hf; [apply R; [reflexivity|]; apply faults_map; apply (C I32 eq_refl)|].
    apply (S 32 I32); [reflexivity|reflexivity].
  - unfold de_u64. apply R; [exact I|]. destruct (e_fw E) eqn:Hf; apply faults_map; [apply faults_map; apply (C U64 eq_refl)|apply (D U64 eq_refl)].
  - unfold de_i64. apply R; [exact I|]. destruct (e_fw E) eqn:Hf; apply faults_map; [apply (C I64 eq_refl)|apply (D I64 eq_refl)].
  - unfold de_u128. apply R; [exact I|]. destruct (e_fw E) eqn:Hf; apply faults_map; [apply faults_map; apply (C U128 eq_refl)|apply (D U128 eq_refl)].
  - unfold de_i128. apply R; [exact I|]. destruct (e_fw E) eqn:Hf; apply faults_map; [apply (C I128 eq_refl)|apply (D I128 eq_refl)].
  - unfold de_usize, de_u64. cbn [int_fault]. destruct (e_fw E) eqn:Hf; apply faults_map, faults_map; [apply faults_map; apply (C Usize eq_refl)|apply (D Usize eq_refl)].
  - unfold de_isize, de_i64. cbn [int_fault]. destruct (e_fw E) eqn:Hf; apply faults_map, faults_map; [apply (C Isize eq_refl)|apply (D Isize eq_refl)].
Qed.
Lemma unmap_fault : forall A B (p : prog A) (g : A -> B) G, faults (a <- p ;; Ret (g a)) G -> faults p G.
Proof.
  intros A B p g G H e x Hx. rewrite <- (H e x Hx). rewrite run_bind.
  destruct (run p x) as [[a r]|e'|q]; cbn [run]; split; intros K; try discriminate; apply Err_inj in K; subst; reflexivity.
Qed.
Lemma faults_u32 : faults (de_u32 (e_fw E)) (int_fault E U32).
Proof. apply (unmap_fault _ _ _ Z.of_N). apply (faults_int U32). Qed.
Lemma faults_u16 : faults (de_u16 (e_fw E)) (int_fault E U16).
Proof. apply (unmap_fault _ _ _ Z.of_N). apply (faults_int U16). Qed.
Lemma faults_len : faults (de_len E) (len_fault E).
Proof. apply (unmap_fault _ _ _ Z.of_N). apply (faults_int Usize). Qed.

(** Containers. *)
Lemma faults_pair : forall A B (p : prog A) (f : A -> prog B) F G H, means p F -> faults p G -> (forall a, faults (f a) H) ->
  faults (bind p f) (pair_fault F G H).
Proof. intros A B p f F G H Hp Gp Hf. apply faults_bind; [exact Hp|exact Gp|intros a y _ _; apply Hf]. Qed.
Lemma faults_counted_by : forall A (f : N -> prog A) H, (forall n, faults (f n) (H n)) ->
  faults (n <- de_len E ;; f n) (fun e x => len_fault E e x \/ exists n, after (len_form E n) (H n) e x).
Proof. intros A f H Hf. apply faults_bind; [apply means_len; assumption|apply faults_len|intros a y _ _; apply Hf]. Qed.
Lemma faults_rep' : forall A (p : prog A) F G n, means p F -> faults p G -> faults (rep (N.to_nat n) p) (list_fault n F G).
Proof. intros A p F G n Hp Gp. rewrite <- (N2Nat.id n) at 2. apply faults_rep; assumption. Qed.
Lemma faults_seq : forall sz p F G, means p F -> faults p G -> faults (de_seq E sz p) (counted_fault E F G).
Proof.
  intros sz p F G Hp Gp. unfold de_seq, counted_fault. apply faults_counted_by. intros n. rewrite (alloc_free E HM).
  destruct (N.eqb_spec n 0) as [->|Hn]; [|apply faults_rep'; assumption].
  change (Ret []) with (rep (N.to_nat 0) p). apply faults_rep'; assumption.
Qed.
Lemma short0 : forall A (a : A), faults (Ret a) (short 0).
Proof. intros A a. eapply faults_iff; [|apply faults_ret]. intros e x _. unfold short. split; [contradiction|intros [_ H]; lia]. Qed.
Lemma faults_blob : faults (de_blob E) (blob_fault E).
Proof.
  unfold de_blob, blob_fault. apply faults_counted_by. intros n. rewrite (alloc_free E HM).
  destruct (N.eqb_spec n 0) as [->|Hn]; [apply short0|apply faults_read_n].
Qed.
Lemma faults_str : faults (de_str E) (text_fault E).
Proof.
  unfold de_str, text_fault. apply faults_counted_by. intros n. rewrite (alloc_free E HM).
  destruct (N.eqb_spec n 0) as [->|Hn].
  - eapply faults_iff; [|apply faults_ret]. intros e x _. unfold part, short. split; [contradiction|].
    intros [[_ H]|(y & z & _ & Hl & _ & H)]; [lia|]. apply len_0 in Hl. subst y. apply H. exists []. split; [constructor|reflexivity].
  - eapply faults_iff; [|eapply faults_bind with (H := fun b e _ => e = EUtf8 /\ ~ utf8_text b); [apply means_read_n|apply faults_read_n|]].
    + intros e x _. cbn beta. unfold part, after. split.
      * intros [K|(b & y & z & -> & [-> Hl] & K)]; [left; exact K|right; exists y, z; auto].
      * intros [K|(y & z & -> & Hl & K)]; [left; exact K|right; exists y, y, z; auto].
    + intros b y Hy [-> _]. pose proof (C10_utf8 y Hy) as U. destruct (utf8_ok y).
      * eapply faults_iff; [|apply faults_ret]. intros e x _. cbn beta. split; [contradiction|]. intros [_ K]. apply K, U. reflexivity.
      * eapply faults_iff; [|apply faults_fail]. intros e x _. unfold says. split; [|tauto]. intros ->. split; [reflexivity|]. intros K. apply U in K. discriminate.
Qed.
Lemma app_inj_len : forall A (a b c d : list A), len a = len b -> a ++ c = b ++ d -> a = b /\ c = d.
Proof.
  intros A a b c d Hl H. pose proof (split_at_app_n _ (len a) a c eq_refl) as S. rewrite H, (split_at_app_n _ (len a) b d Hl) in S. injection S as -> ->. auto.
Qed.
Lemma lead_char : forall b, b < 256 -> lead_len b = if char_length b =? 0 then None else Some (char_length b).
Proof.
  intros b Hb. destruct b as [|p]; [reflexivity|].
  do 8 (destruct p as [p|p|]; [| |reflexivity]); try (destruct p; lia); reflexivity.
Qed.
Lemma faults_char : faults de_char char_fault.
Proof.
  intros e x Hx. destruct x as [|b y].
  - cbn [char_fault]. unfold de_char. rewrite run_bind, run_read_byte_nil. split; [intros H; apply Err_inj in H; auto|intros ->; reflexivity].
  - pose proof Hx as Hx'. apply wfb_cons in Hx. destruct Hx as [Hb Hy].
    assert (K : run de_char (b :: y) = if char_length b =? 0 then Err EInvalidChar else
       match split_at (char_length b - 1) y with
       | Some (p, q) => if utf8_ok (b :: p) then Ok (utf8_first (b :: p), q) else Err EInvalidChar
       | None => Err EIo end).
    { unfold de_char. rewrite run_bind, run_read_byte_cons. destruct (char_length b =? 0); [reflexivity|]. rewrite run_bind. unfold read_n. cbn [run].
      destruct (split_at (char_length b - 1) y) as [[p q]|]; cbn [run]; [|reflexivity]. destruct (utf8_ok (b :: p)); reflexivity. }
    cbn [char_fault]. rewrite lead_char by exact Hb. pose proof (rt_char) as RT.
    destruct (N.eqb_spec (char_length b) 0) as [Z|Z].
    + rewrite K. split; [intros H; apply Err_inj in H; auto|intros ->; reflexivity].
    + unfold short. rewrite len_cons. destruct (split_at (char_length b - 1) y) as [[p q]|] eqn:S.
      * apply split_at_some in S. destruct S as [-> Sl]. rewrite len_app.
        destruct (utf8_ok (b :: p)) eqn:U.
        -- rewrite K. split; [discriminate|]. intros [[_ L]|(_ & p1 & q1 & Hs & Hl & Hn)]; [lia|].
           assert (Q : b :: p = p1 /\ q = q1).
           { apply app_inj_len; [|exact Hs]. rewrite len_cons. lia. }
           destruct Q as [<- <-]. exfalso.
           pose proof (de_char_ok (b :: p ++ q) _ q Hx' K) as [Sc Hq]. change (b :: p ++ q) with ((b :: p) ++ q) in Hq. apply app_inv_tail in Hq. exact (Hn _ Sc Hq).
        -- rewrite K. split.
           ++ intros H. apply Err_inj in H. right. split; [congruence|]. exists (b :: p), q. split; [reflexivity|]. rewrite len_cons. split; [lia|].
              intros c Sc Hc. pose proof (RT c q Sc) as R. rewrite <- Hc in R. change ((b :: p) ++ q) with (b :: p ++ q) in R. rewrite K in R. discriminate.
           ++ intros [[_ L]|(-> & _)]; [lia|reflexivity].
      * apply split_at_none in S. rewrite K. split.
        -- intros H. apply Err_inj in H. left. split; [congruence|lia].
        -- intros [[-> _]|(_ & p1 & q1 & Hs & Hl & _)]; [reflexivity|]. apply (f_equal len) in Hs. rewrite len_app, len_cons in Hs. lia.
Qed.
Lemma faults_bulk : forall k, faults (de_bulk E k) (bulk_fault E k).
Proof.
  intros k. unfold de_bulk, bulk_fault. apply faults_counted_by. intros n.
  assert (P : 0 < 2 ^ e_ub E) by (apply N.neq_0_lt_0, N.pow_nonzero; lia).
  destruct (N.eqb_spec n 0) as [->|Hn].
  - destruct k as [|s w|[|]].
    + change ((0 + 7) / 8) with 0. apply short0.
    + replace (0 * N.of_nat w <? 2 ^ e_ub E) with true by lia. rewrite N.mul_0_l. apply short0.
    + apply short0.
    + replace (0 * 16 <? 2 ^ e_ub E) with true by lia. apply short0.
  - destruct k as [|s w|[|]].
    + rewrite (alloc_free E HM). eapply faults_run_eq; [|apply (faults_map _ _ (read_n ((n + 7) / 8)) (fun x => map VBool (unpack (N.to_nat n) x))), faults_read_n].
      intros x. rewrite !run_bind. unfold div_ceil8. destruct (run (read_n ((n + 7) / 8)) x) as [[a r]|e|q]; try reflexivity. rewrite (alloc_free E HM). reflexivity.
    + destruct (n * N.of_nat w <? 2 ^ e_ub E); [|apply faults_fail]. rewrite (alloc_free E HM). apply faults_map, faults_read_n.
    + rewrite (alloc_free E HM). eapply faults_iff; [|apply faults_rep' with (F := fun v y => len y = 16 /\ v = VBytes (e_dec E y)) (G := short 16)].
      * intros e x _. unfold list_fault, after, short. split.
        -- intros (l & L & y & z & -> & Hi & -> & Hz). split; [reflexivity|]. apply items_chunks with (g := fun y => VBytes (e_dec E y)) in Hi. destruct Hi as [Hi _]. rewrite len_app. unfold bytes in *. lia.
        -- intros [-> L]. exists (map (fun c => VBytes (e_dec E c)) (chunks (N.to_nat (len x / 16)) 16 x)).
           assert (Q : len x = 16 * (len x / 16) + len x mod 16) by (apply N.div_mod; lia). pose proof (N.mod_lt (len x) 16 ltac:(lia)) as M.
           destruct (split_at (16 * (len x / 16)) x) as [[y z]|] eqn:S; [|apply split_at_none in S; unfold bytes in *; lia].
           apply split_at_some in S. destruct S as [-> Sl]. rewrite len_app in *.
           remember ((len y + len z) / 16) as k eqn:Hk. clear Hk.
           assert (C : chunks (N.to_nat k) 16 (y ++ z) = chunks (N.to_nat k) 16 y).
           { clear - Sl. rewrite <- (N2Nat.id k) in Sl. remember (N.to_nat k) as j. clear Heqj k. revert y Sl. induction j as [|j IH]; intros y Sl; [reflexivity|]. cbn [chunks].
             destruct (split_at 16 y) as [[u w]|] eqn:S; [|apply split_at_none in S; unfold bytes in *; lia].
             apply split_at_some in S. destruct S as [-> Su]. rewrite <- app_assoc. rewrite (split_at_app_n _ 16 u _ (eq_sym Su)). rewrite IH; [reflexivity|]. rewrite len_app in Sl. lia. }
           rewrite C. assert (CL : length (chunks (N.to_nat k) 16 y) = N.to_nat k) by (apply chunks_length; lia).
           split; [unfold len at 1; rewrite map_length, CL; lia|]. exists y, z. split; [reflexivity|]. split; [|split; [reflexivity|lia]].
           apply items_chunks with (g := fun y => VBytes (e_dec E y)). rewrite map_length, CL. split; [unfold len at 1; rewrite map_length, CL; lia|reflexivity].
      * eapply means_iff; [|apply means_map, means_read_n]. intros v y _. cbn beta. split; [intros (b & -> & -> & H); auto|intros [H ->]; eauto].
      * apply faults_map, faults_read_n.
    + destruct (n * 16 <? 2 ^ e_ub E); [|apply faults_fail]. rewrite (alloc_free E HM). apply faults_map, faults_read_n.
Qed.

Section Rec.
Variable rec : N -> prog val.
Variable frec : N -> val -> bytes -> Prop.
Variable grec : N -> err -> bytes -> Prop.
Hypothesis Hrec : forall n, means (rec n) (frec n).
Hypothesis Grec : forall n, faults (rec n) (grec n).

Lemma m_ty : forall t, means (de_ty E rec t) (form_ty E frec t).
Proof. apply means_ty; assumption. Qed.
Lemma faults_entry : forall p q F G H, means p F -> faults p G -> faults q H -> faults (de_entry p q) (pair_fault F G H).
Proof. intros p q F G H Hp Gp Gq. unfold de_entry. apply faults_pair; [exact Hp|exact Gp|]. intros a. apply faults_map, Gq. Qed.
Lemma no_fault_res : forall A (r : res A), (forall e, r <> Err e) -> faults (of_res r) (fun _ _ => False).
Proof. intros A r H. eapply faults_iff; [|apply faults_of_res]. intros e x _. cbn beta. split; [apply H|contradiction]. Qed.
Lemma dur_new_no_err : forall s n e, dur_new s n <> Err e.
Proof. intros s n e. unfold dur_new. destruct (_ <? _)%Z; discriminate. Qed.
Lemma time_add_no_err : forall d e, time_add E d <> Err e.
Proof. intros d e. unfold time_add. destruct d as [| | | |[]| |]; try discriminate. destruct (_ <=? _)%Z; discriminate. Qed.
Lemma faults_quiet : forall A B (p : prog A) (f : A -> prog B) G, faults p G -> (forall a, faults (f a) (fun _ _ => False)) -> faults (bind p f) G.
Proof.
  intros A B p f G Gp Hf e x Hx. rewrite <- (Gp e x Hx), run_bind. destruct (run p x) as [[a r]|e'|q] eqn:R.
  - split; [|discriminate]. intros K. exfalso. apply run_suffix in R. destruct R as (y & -> & _). apply wfb_app in Hx. apply (Hf a e r (proj2 Hx)). exact K.
  - split; intros K; apply Err_inj in K; subst; reflexivity.
  - split; discriminate.
Qed.
Lemma faults_disc : forall A (f : N -> prog A) H, (forall k, faults (f k) (H k)) ->
  faults (d <- de_u32 (e_fw E) ;; f d) (fun e x => int_fault E U32 e x \/ exists k, after (int_form E U32 (Z.of_N k)) (H k) e x).
Proof. intros A f H Hf. apply faults_bind; [apply means_u32; assumption|apply faults_u32|intros a y _ _; apply Hf]. Qed.
Lemma u32_nonneg : forall k x, int_form E U32 k x -> (0 <= k)%Z.
Proof. intros k x (n & _ & _ & L & _). exact L. Qed.

Lemma faults_ty : forall t, faults (de_ty E rec t) (fault_ty E frec grec t).
Proof.
  induction t; cbn [de_ty fault_ty].
  - eapply faults_iff; [|apply faults_byte with (H := fun b e _ => b <> 0 /\ b <> 1 /\ e = EInvalidBool b)].
    + intros e x _. reflexivity.
    + intros b _. destruct (N.eqb_spec b 0) as [->|H0]; [|destruct (N.eqb_spec b 1) as [->|H1]].
      * eapply faults_iff; [|apply faults_ret]. intros e x _. cbn beta. tauto.
      * eapply faults_iff; [|apply faults_ret]. intros e x _. cbn beta. tauto.
      * eapply faults_iff; [|apply faults_fail]. intros e x _. unfold says. tauto.
  - apply faults_map, faults_int.
  - apply faults_map, faults_read_n.
  - apply faults_map, faults_read_n.
  - apply faults_map, faults_char.
  - apply faults_str.
  - apply faults_str.
  - apply faults_map, faults_blob.
  - apply faults_map, faults_read_n.
  - apply faults_map, faults_read_n.
  - apply faults_ret.
  - apply faults_pair; [apply m_ty|exact IHt1|]. intros a. apply faults_map, IHt2.
  - destruct (if e_spec E then bulk_of t else None) as [k|]; apply faults_map; [apply faults_bulk|apply faults_seq; [apply m_ty|exact IHt]].
  - apply faults_map, faults_seq; [apply m_ty|exact IHt].
  - apply faults_map, faults_rep; [apply m_ty|exact IHt].
  - eapply faults_iff; [|apply faults_byte with (H := fun b e z => (b = 1 /\ fault_ty E frec grec t e z) \/ (b <> 0 /\ b <> 1 /\ e = EDeserialize MBadOption))].
    + intros e x _. cbn beta. split.
      * intros [H|(b & z & -> & [[-> H]|H])]; [left; exact H|right; left; eauto|right; right; eauto].
      * intros [H|[(z & -> & H)|(b & z & -> & H)]]; [left; exact H|right; exists 1, z; auto|right; exists b, z; auto].
    + intros b _. destruct (N.eqb_spec b 0) as [->|H0]; [|destruct (N.eqb_spec b 1) as [->|H1]].
      * eapply faults_iff; [|apply faults_ret]. intros e x _. cbn beta. split; [contradiction|intros [[H _]|[H _]]; [discriminate|contradiction]].
      * eapply faults_iff; [|apply faults_map, IHt]. intros e x _. cbn beta. tauto.
      * eapply faults_iff; [|apply faults_fail]. intros e x _. unfold says. tauto.
  - eapply faults_iff; [|apply faults_disc with (H := fun k e z => (k = 0 /\ wrapped (fault_ty E frec grec t1) e z) \/ (k = 1 /\ wrapped (fault_ty E frec grec t2) e z) \/ (1 < k /\ e = EDeserialize MUnknownVariant))].
    + intros e x _. cbn beta. unfold after. split.
      * intros [H|(k & y & z & -> & Hk & [[-> H]|[[-> H]|[L ->]]])]; [left; exact H|right; left; eauto|right; right; left; eauto|].
        right; right; right. exists (Z.of_N k). split; [lia|]. exists y, z. unfold says. auto.
      * intros [H|[(y & z & -> & Hk & H)|[(y & z & -> & Hk & H)|(k & L & y & z & -> & Hk & H)]]]; [left; exact H|right; exists 0, y, z; split; [reflexivity|]; split; [exact Hk|tauto]|right; exists 1, y, z; split; [reflexivity|]; split; [exact Hk|tauto]|].
        right. exists (Z.to_N k), y, z. unfold says in H. rewrite Z2N.id by lia. split; [reflexivity|]. split; [exact Hk|]. right. right. split; [lia|exact H].
    + intros b. destruct (N.eqb_spec b 0) as [->|H0]; [|destruct (N.eqb_spec b 1) as [->|H1]].
      * eapply faults_iff; [|apply faults_map, faults_map_err, IHt1]. intros e x _. cbn beta. split; [auto|intros [[_ H]|[[H _]|[H _]]]; [exact H|discriminate|lia]].
      * eapply faults_iff; [|apply faults_map, faults_map_err, IHt2]. intros e x _. cbn beta. split; [auto|intros [[H _]|[[_ H]|[H _]]]; [discriminate|exact H|lia]].
      * eapply faults_iff; [|apply faults_fail]. intros e x _. unfold says. split; [intros ->; right; right; split; [lia|reflexivity]|intros [[H _]|[[H _]|[_ H]]]; [contradiction|contradiction|exact H]].
  - eapply faults_iff; [|apply faults_disc with (H := fun k e z => (k = 1 /\ wrapped (fault_ty E frec grec t) e z) \/ (k = 2 /\ wrapped (fault_ty E frec grec t) e z) \/ (2 < k /\ e = EDeserialize MUnknownVariant))].
    + intros e x _. cbn beta. unfold after. split.
      * intros [H|(k & y & z & -> & Hk & [[-> H]|[[-> H]|[L ->]]])]; [left; exact H|right; left; eauto|right; right; left; eauto|].
        right; right; right. exists (Z.of_N k). split; [lia|]. exists y, z. unfold says. auto.
      * intros [H|[(y & z & -> & Hk & H)|[(y & z & -> & Hk & H)|(k & L & y & z & -> & Hk & H)]]]; [left; exact H|right; exists 1, y, z; split; [reflexivity|]; split; [exact Hk|tauto]|right; exists 2, y, z; split; [reflexivity|]; split; [exact Hk|tauto]|].
        right. exists (Z.to_N k), y, z. unfold says in H. rewrite Z2N.id by lia. split; [reflexivity|]. split; [exact Hk|]. right. right. split; [lia|exact H].
    + intros b. destruct (N.eqb_spec b 0) as [->|H0]; [|destruct (N.eqb_spec b 1) as [->|H1]; [|destruct (N.eqb_spec b 2) as [->|H2]]].
      * eapply faults_iff; [|apply faults_ret]. intros e x _. cbn beta. split; [contradiction|intros [[H _]|[[H _]|[H _]]]; [discriminate|discriminate|lia]].
      * eapply faults_iff; [|apply faults_map, faults_map_err, IHt]. intros e x _. cbn beta. split; [auto|intros [[_ H]|[[H _]|[H _]]]; [exact H|discriminate|lia]].
      * eapply faults_iff; [|apply faults_map, faults_map_err, IHt]. intros e x _. cbn beta. split; [auto|intros [[H _]|[[_ H]|[H _]]]; [discriminate|exact H|lia]].
      * eapply faults_iff; [|apply faults_fail]. intros e x _. unfold says. split; [intros ->; right; right; split; [lia|reflexivity]|intros [[H _]|[[H _]|[_ H]]]; [contradiction|contradiction|exact H]].
  - apply faults_map, faults_seq; [apply means_entry; apply m_ty|]. apply faults_entry; [apply m_ty|exact IHt1|exact IHt2].
  - apply faults_map, faults_seq; [apply m_ty|exact IHt].
  - apply faults_map, faults_seq; [apply m_ty|exact IHt].
  - exact IHt.
  - apply faults_pair; [apply means_int; assumption|apply faults_int|]. intros s. apply faults_quiet; [apply faults_int|]. intros n. apply no_fault_res. intros e. apply dur_new_no_err.
  - apply faults_pair; [apply means_int; assumption|apply faults_int|]. intros s. apply faults_quiet; [apply faults_int|]. intros n. apply faults_quiet; [apply no_fault_res; intros e; apply dur_new_no_err|].
    intros d. apply no_fault_res. intros e. apply time_add_no_err.
  - eapply faults_iff; [|eapply faults_then with (H := fun v e => e_ext E c v = None /\ e = EDeserialize (MExternal c)); [apply m_ty|exact IHt|]].
    + intros e x _. cbn beta. split.
      * intros [H|(v & Hv & N & ->)]; [left; exact H|right; eauto].
      * intros [H|(-> & v & Hv & N)]; [left; exact H|right; exists v; auto].
    + intros v. destruct (e_ext E c v) as [w|].
      * eapply faults_iff; [|apply faults_ret]. intros e x _. cbn beta. split; [contradiction|intros [H _]; discriminate].
      * eapply faults_iff; [|apply faults_fail]. intros e x _. unfold says. tauto.
  - apply Grec.
Qed.

(** Fields. *)
Lemma padded_run : forall A (p : prog A) F a x, means p F -> wfb x -> (padded (F a) x <-> exists z, run p x = Ok (a, z)).
Proof.
  intros A p F a x Hp Hx. unfold padded. split.
  - intros (y & z & -> & Fy). exists z. apply (means_run _ _ _ Hp); [exact Hx|]. exists y. auto.
  - intros (z & R). apply (means_run _ _ _ Hp) in R; [|exact Hx]. destruct R as (y & -> & Fy). exists y, z. auto.
Qed.
Lemma run_le : forall n r, run (x <- read_n n ;; Ret (le_val x)) r = match split_at n r with Some (y, z) => Ok (le_val y, z) | None => Err EIo end.
Proof. intros n r. rewrite run_bind. unfold read_n. cbn [run]. destruct (split_at n r) as [[y z]|]; reflexivity. Qed.
Lemma faults_varint : faults (read_varint E) (idx_len_fault E).
Proof.
  intros e x Hx. unfold idx_len_fault.
  assert (U : 2 ^ 32 <= 2 ^ e_ub E) by (apply N.pow_le_mono_r; [lia|]; pose proof (ub_cases E HW); lia).
  destruct x as [|m y]; [unfold read_varint; rewrite run_bind, run_read_byte_nil; split; [intros H; apply Err_inj in H; auto|intros ->; reflexivity]|].
  pose proof Hx as Hx'. apply wfb_cons in Hx. destruct Hx as [Hm Hy].
  assert (P : forall n, padded (fun p => denotes 64 p n) (m :: y) <-> exists z, run (decoder 64) (m :: y) = Ok (n, z)).
  { intros n. apply (padded_run _ _ (fun n p => denotes 64 p n)); [apply means_decoder; auto|exact Hx']. }
  assert (D : run (decoder 64) (m :: y) = run (if m =? 251 then x <- read_n 2 ;; Ret (le_val x) else if m =? 252 then x <- read_n 4 ;; Ret (le_val x)
          else if m =? 253 then x <- read_n 8 ;; Ret (le_val x) else if m =? 254 then Fail EOverflow else if m =? 255 then Fail EInvalidInt else Ret m) y).
  { unfold decoder, decode_u64. cbn [N.eqb Pos.eqb]. rewrite run_bind, run_read_byte_cons. reflexivity. }
  unfold read_varint. rewrite run_bind, run_read_byte_cons. unfold announced.
  assert (K : forall k, k <= 4 -> (forall n z, run (x <- read_n k ;; Ret (le_val x)) y = Ok (n, z) -> n < 2 ^ e_ub E)
     /\ (run (x <- read_n k ;; Ret (le_val x)) y = Err e <-> short k e y)).
  { intros k Hk. split; [|apply faults_map; [apply faults_read_n|exact Hy]]. intros n z R. rewrite run_le in R. destruct (split_at k y) as [[u w]|] eqn:S; [|discriminate].
    apply Ok_inj in R. injection R as <- _. apply split_at_some in S. destruct S as [-> Su]. apply wfb_app in Hy. pose proof (le_bound k u (proj1 Hy) Su).
    pose proof (N.pow_le_mono_r 2 (8 * k) 32 ltac:(lia) ltac:(lia)). lia. }
  destruct (N.eqb_spec m 251) as [->|H1].
  { destruct (K 2 ltac:(lia)) as [K1 K2]. rewrite K2. replace (253 <? 251) with false by reflexivity. split; [tauto|]. intros [H|(_ & n & Hp & L)]; [exact H|].
    apply P in Hp. destruct Hp as [z Hz]. rewrite D in Hz. apply K1 in Hz. lia. }
  destruct (N.eqb_spec m 252) as [->|H2].
  { destruct (K 4 ltac:(lia)) as [K1 K2]. rewrite K2. replace (253 <? 252) with false by reflexivity. split; [tauto|]. intros [H|(_ & n & Hp & L)]; [exact H|].
    apply P in Hp. destruct Hp as [z Hz]. rewrite D in Hz. apply K1 in Hz. lia. }
  destruct (N.eqb_spec m 253) as [->|H3].
  { replace (253 <? 253) with false by reflexivity. cbn [N.eqb Pos.eqb] in D. rewrite run_le in D. rewrite run_bind. unfold read_n, short. cbn [run].
    destruct (split_at 8 y) as [[u w]|] eqn:S.
    - assert (Q : ~ len y < 8) by (intros L; apply split_at_none in L; rewrite L in S; discriminate).
      cbn [run]. destruct (le_val u <? 2 ^ e_ub E) eqn:L; cbn [run].
      + split; [discriminate|]. intros [[_ H]|(_ & n & Hp & L2)]; [contradiction|]. apply P in Hp. destruct Hp as [z Hz]. rewrite D in Hz. apply Ok_inj in Hz. injection Hz as <- _. lia.
      + split; [intros H; apply Err_inj in H; right; split; [congruence|]|intros [[_ H]|(-> & _)]; [contradiction|reflexivity]].
        exists (le_val u). split; [|lia]. apply P. exists w. exact D.
    - apply split_at_none in S. split; [intros H; apply Err_inj in H; left; split; [congruence|exact S]|]. intros [[-> _]|(_ & n & Hp & _)]; [reflexivity|].
      apply P in Hp. destruct Hp as [z Hz]. rewrite D in Hz. discriminate. }
  destruct (253 <? m) eqn:L.
  - cbn [run]. split; [intros H; apply Err_inj in H; auto|intros ->; reflexivity].
  - cbn [run]. replace (m =? 254) with false by lia. unfold short. split; [discriminate|]. intros [[_ H]|(_ & n & Hp & L2)]; [lia|].
    apply P in Hp. destruct Hp as [z Hz]. rewrite D in Hz. replace (m =? 254) with false in Hz by lia. replace (m =? 255) with false in Hz by lia.
    cbn [run] in Hz. apply Ok_inj in Hz. injection Hz as <- _. change (2 ^ 32) with 4294967296 in U. lia.
Qed.
Lemma faults_idx_len : forall A (f : N -> prog A) H, (forall n, faults (f n) (H n)) ->
  faults (n <- read_varint E ;; f n) (fun e x => idx_len_fault E e x \/ exists n, after (idx_len_form E n) (H n) e x).
Proof.
  intros A f H Hf. apply faults_bind; [|apply faults_varint|intros a y _ _; apply Hf].
  apply means_varint with (rec := rec) (frec := frec); assumption.
Qed.
Lemma faults_add8 : forall n, faults (add8 E n) (fun _ _ => False).
Proof. intros n. unfold add8. destruct (_ <? _); [apply faults_ret|]. destruct (e_dbg E); [apply faults_crash|apply faults_ret]. Qed.
Lemma faults_idx_map : forall k a b, faults (de_idx_map E k a b (de_ty E rec a) (de_ty E rec b)) (idx_map_fault E frec grec a b).
Proof.
  intros k a b. unfold de_idx_map, idx_map_fault.
  apply faults_byte with (H := fun f e z => idx_len_fault E e z \/ exists n, after (idx_len_form E n)
     (fun e x =>
      if N.odd f then
        if n * 8 <? 2 ^ e_ub E then
          exists m, table_len E n = Some m /\
          (short m e x \/ after (any m) (fun e x => list_fault n (form_ty E frec a) (fault_ty E frec grec a) e x
             \/ exists ks, len ks = n /\ after (items (form_ty E frec a) ks) (list_fault n (form_ty E frec b) (fault_ty E frec grec b)) e x) e x)
        else e = ESubReaderOverrun
      else list_fault n (entry_form (form_ty E frec a) (form_ty E frec b)) (pair_fault (form_ty E frec a) (fault_ty E frec grec a) (fault_ty E frec grec b)) e x) e z).
  intros f _. apply faults_idx_len. intros n.
  assert (Z : bind (match k with KHash => alloc E (n * e_esize E (TPair a b)) | KOrd => Ret tt end) (fun _ =>
        if N.land f 1 =? 0 then l <- rep (N.to_nat n) (de_entry (de_ty E rec a) (de_ty E rec b)) ;; Ret (build_idx_map E a l)
        else if n * 8 <? 2 ^ e_ub E then
          m <- add8 E (n * 8) ;; advance m ;;; alloc E (n * e_esize E a) ;;; ks <- rep (N.to_nat n) (de_ty E rec a) ;;
          alloc E (n * e_esize E b) ;;; vs <- rep (N.to_nat n) (de_ty E rec b) ;;
          Ret (build_idx_map E a (map (fun p => VPair (fst p) (snd p)) (combine ks vs)))
        else Fail ESubReaderOverrun) =
        if N.land f 1 =? 0 then l <- rep (N.to_nat n) (de_entry (de_ty E rec a) (de_ty E rec b)) ;; Ret (build_idx_map E a l)
        else if n * 8 <? 2 ^ e_ub E then
          m <- add8 E (n * 8) ;; advance m ;;; alloc E (n * e_esize E a) ;;; ks <- rep (N.to_nat n) (de_ty E rec a) ;;
          alloc E (n * e_esize E b) ;;; vs <- rep (N.to_nat n) (de_ty E rec b) ;;
          Ret (build_idx_map E a (map (fun p => VPair (fst p) (snd p)) (combine ks vs)))
        else Fail ESubReaderOverrun) by (destruct k; [apply (alloc_free E HM)|reflexivity]).
  rewrite Z. clear Z. rewrite odd_land. destruct (N.odd f); cbn [negb].
  - destruct (n * 8 <? 2 ^ e_ub E) eqn:L; [|apply faults_fail]. apply N.ltb_lt in L.
    eapply faults_iff; [|eapply faults_bind; [apply (means_add8 E HW rec frec Hrec), L|apply faults_add8|intros m y _ _; eapply faults_bind; [apply means_advance|apply faults_advance|
      intros u w _ _; rewrite (alloc_free E HM); eapply faults_bind; [apply means_rep, m_ty|apply faults_rep'; [apply m_ty|apply faults_ty]|
      intros ks w2 _ _; rewrite (alloc_free E HM); apply faults_map, faults_rep'; [apply m_ty|apply faults_ty]]]]].
    intros e x _. cbn beta. unfold after. split.
    + intros [[]|(m & y & z & -> & [Hm ->] & H)]. exists m. split; [exact Hm|]. cbn [app]. destruct H as [H|(_ & t & r & -> & Ht & H)]; [left; exact H|right].
      exists t, r. split; [reflexivity|]. split; [exact Ht|]. destruct H as [H|(ks & u & w & -> & [Hk Ik] & H)]; [left; exact H|right].
      exists ks. split; [unfold len; lia|]. exists u, w. auto.
    + intros (m & Hm & H). right. exists m, [], x. split; [reflexivity|]. split; [auto|]. destruct H as [H|(t & r & -> & Ht & H)]; [left; exact H|right].
      exists tt, t, r. split; [reflexivity|]. split; [exact Ht|]. destruct H as [H|(ks & Hk & u & w & -> & Ik & H)]; [left; exact H|right].
      exists ks, u, w. split; [reflexivity|]. split; [split; [unfold len in Hk; lia|exact Ik]|exact H].
  - apply faults_map, faults_rep'; [apply means_entry; apply m_ty|]. apply faults_entry; [apply m_ty|apply faults_ty|apply faults_ty].
Qed.
Lemma faults_idx_seq : forall t, faults (de_idx_seq E t (de_ty E rec t)) (idx_seq_fault E frec grec t).
Proof.
  intros t. unfold de_idx_seq, idx_seq_fault.
  apply faults_byte with (H := fun f e z => idx_len_fault E e z \/ exists n, after (idx_len_form E n)
     (fun e x =>
      if N.odd f then
        if n * 4 <? 2 ^ e_ub E then short (n * 4) e x \/ after (any (n * 4)) (list_fault n (form_ty E frec t) (fault_ty E frec grec t)) e x
        else e = ESubReaderOverrun
      else list_fault n (form_ty E frec t) (fault_ty E frec grec t) e x) e z).
  intros f _. apply faults_idx_len. intros n. rewrite odd_land. destruct (N.odd f); cbn [negb].
  - destruct (n * 4 <? 2 ^ e_ub E); [|apply faults_fail].
    eapply faults_iff; [|eapply faults_bind; [apply means_advance|apply faults_advance|intros u w _ _; rewrite (alloc_free E HM); apply faults_rep'; [apply m_ty|apply faults_ty]]].
    intros e x _. cbn beta. unfold after. split.
    + intros [H|(_ & H)]; [left; exact H|right; exact H].
    + intros [H|H]; [left; exact H|right; exists tt; exact H].
  - rewrite (alloc_free E HM). apply faults_rep'; [apply m_ty|apply faults_ty].
Qed.
Lemma faults_mode : forall m t, faults (de_mode E rec m t) (mode_fault E frec grec m t).
Proof.
  intros m t. unfold mode_fault. destruct m; cbn [de_mode].
  - destruct t; apply faults_ty.
  - assert (K : faults match fixed_of t with Some (s, w) => z <- de_fixed s w ;; Ret (VInt z) | None => Crash PType end
      (fun e x => match fixed_of t with Some (_, w) => short (N.of_nat w) e x | None => False end)).
    { destruct (fixed_of t) as [[s w]|]; [|apply faults_crash]. apply faults_map. unfold de_fixed. apply faults_map, faults_read_n. }
    destruct t; exact K.
  - destruct t; try apply faults_crash. destruct (bulk_of t) as [k|]; [|apply faults_crash]. apply faults_map, faults_bulk.
  - destruct t; try apply faults_crash. apply faults_map, faults_idx_map.
  - destruct t; try apply faults_crash; apply faults_map, faults_idx_seq.
  - destruct t; try apply faults_crash; apply faults_map, faults_idx_seq.
Qed.

(** Derived types. *)
Lemma faults_fields : forall opt cur tgt fs, faults (de_fields E rec opt cur tgt fs) (fields_fault (mode_form E frec) (mode_fault E frec grec) opt cur tgt fs).
Proof.
  intros opt cur tgt fs. induction fs as [|f fs IH]; cbn [de_fields].
  - eapply faults_iff; [|apply faults_ret]. intros e x _. split; [contradiction|intros H; inversion H].
  - destruct (falive cur f) eqn:C; destruct (falive tgt f) eqn:T.
    + eapply faults_iff; [|eapply faults_bind; [apply (means_mode E HW HM rec frec Hrec)|apply faults_mode|intros v y _ _; apply faults_map, IH]]. intros e x _. cbn beta. unfold after. split.
      * intros [H|(v & y & z & -> & Hv & H)]; [apply fx_kept; assumption|eapply fx_after_kept; eassumption].
      * intros H. inversion H; subst; try congruence; [left; assumption|right]. exists v, x0, y. auto.
    + eapply faults_iff; [|eapply faults_bind; [apply (means_mode E HW HM rec frec Hrec)|apply faults_mode|intros v y _ _; apply faults_map, IH]]. intros e x _. cbn beta. unfold after. split.
      * intros [H|(v & y & z & -> & Hv & H)]; [apply fx_old; assumption|eapply fx_after_old; eassumption].
      * intros H. inversion H; subst; try congruence; [left; assumption|right]. exists v, x0, y. auto.
    + eapply faults_iff; [|eapply faults_bind; [apply means_of_res|apply faults_of_res|intros v y _ _; apply faults_map, IH]]. intros e x _. cbn beta. unfold after. split.
      * intros [H|(v & y & z & -> & [Hv ->] & H)]; [apply fx_added; assumption|eapply fx_after_added; eassumption].
      * intros H. inversion H; subst; try congruence; [left; assumption|right]. exists v, [], x. auto.
    + eapply faults_iff; [|exact IH]. intros e x _. split.
      * intros H. apply fx_neither; assumption.
      * intros H. inversion H; subst; congruence.
Qed.
Lemma convert_fails_iff : forall cur old l e, converts cur l old = Err e <-> convert_fails cur l old e.
Proof.
  intros cur old. induction old as [|[f v] old IH]; intros l e; cbn [converts].
  - split; [discriminate|intros H; inversion H].
  - split.
    + intros H. destruct (f_convert f l cur v) as [l1|e1|q] eqn:C; cbn [rbind] in H; try discriminate.
      * eapply cf_later; [exact C|]. apply IH. exact H.
      * apply Err_inj in H. subst e1. apply cf_here. exact C.
    + intros H. inversion H; subst;
      match goal with A : f_convert f l cur v = _ |- _ => rewrite A end; cbn [rbind]; [reflexivity|]. apply IH. assumption.
Qed.
Lemma faults_content : forall opt cur tgt fs, faults (p <- de_fields E rec opt cur tgt fs ;; of_res (converts cur (fst p) (snd p))) (content_fault E frec grec opt cur tgt fs).
Proof.
  intros opt cur tgt fs. eapply faults_iff; [|eapply faults_then with (H := fun p e => converts cur (fst p) (snd p) = Err e); [apply (means_fields E HW HM rec frec Hrec)|apply faults_fields|intros p; apply faults_of_res]].
  intros e x _. cbn beta. unfold content_fault. split.
  - intros [H|([l old] & H & C)]; [left; exact H|right]. exists l, old. split; [exact H|]. apply convert_fails_iff. exact C.
  - intros [H|(l & old & H & C)]; [left; exact H|right]. exists (l, old). split; [exact H|]. apply convert_fails_iff. exact C.
Qed.
Lemma faults_sized : forall A (p : prog A) G, faults p G -> faults (n <- read_varlen_len ;; alloc E n ;;; buf <- read_n n ;; in_buf p buf) (sized_fault G).
Proof.
  intros A p G Gp. eapply faults_iff; [|eapply faults_bind with (H := fun n => part n G); [unfold read_varlen_len; apply means_le|unfold read_varlen_len; apply faults_map, faults_read_n|]].
  - intros e x _. cbn beta. unfold sized_fault, after. split.
    + intros [H|(n & y & z & -> & [Hy ->] & H)]; [left; exact H|right; exists y, z; auto].
    + intros [H|(y & z & -> & Hy & H)]; [left; exact H|right; exists (le_val y), y, z; auto].
  - intros n y _ _. rewrite (alloc_free E HM). apply faults_part, Gp.
Qed.
Lemma faults_struct : forall h cur tgt fs,
  faults (if h_opt h then de_struct_opt E rec (h_idx h) cur tgt fs else de_struct_legacy E rec cur tgt fs) (struct_fault E frec grec h cur tgt fs).
Proof.
  intros h cur tgt fs. unfold struct_fault. destruct (h_opt h).
  - unfold de_struct_opt. apply faults_sized. unfold struct_payload. cbv zeta.
    eapply faults_iff; [|eapply faults_bind with (F := fun _ x => len x = if h_idx h then 4 * len (filter (falive cur) fs) else 0)
           (G := fun e x => e = ESubReaderOverrun /\ len x < if h_idx h then 4 * len (filter (falive cur) fs) else 0) (H := fun _ => content_fault E frec grec true cur tgt fs)].
    + intros e x _. cbn beta. unfold after, any. split.
      * intros [H|(_ & H)]; [left; exact H|right; exact H].
      * intros [H|H]; [left; exact H|right; exists tt; exact H].
    + destruct (h_idx h).
      * apply means_read_any.
      * eapply means_iff; [|apply means_ret]. intros [] x _. cbn beta. split; [intros [_ ->]; reflexivity|intros H; apply len_0 in H; auto].
    + destruct (h_idx h); [apply faults_read|]. eapply faults_iff; [|apply faults_ret]. intros e x _. cbn beta. split; [contradiction|intros [_ H]; lia].
    + intros _ y _ _. eapply faults_run_eq; [intros x; apply run_content|]. apply faults_map, faults_content.
  - unfold de_struct_legacy. eapply faults_run_eq; [intros x; apply run_content|]. apply faults_map, faults_content.
Qed.
Lemma faults_variant : forall cur tgt vr l,
  faults (if valive tgt vr then Ret (VVar (v_name vr) l) else of_res (v_convert vr l cur)) (fun e _ => variant_fault cur tgt vr l e).
Proof.
  intros cur tgt vr l. unfold variant_fault. destruct (valive tgt vr).
  - eapply faults_iff; [|apply faults_ret]. intros e x _. cbn beta. split; [contradiction|intros [H _]; discriminate].
  - eapply faults_iff; [|apply faults_of_res]. intros e x _. cbn beta. tauto.
Qed.
Lemma faults_vfields : forall cur fs, faults (de_vfields E rec cur fs) (opt_fields_fault E frec grec cur fs).
Proof.
  intros cur fs. unfold opt_fields_fault. induction fs as [|f fs IH]; cbn [de_vfields filter].
  - eapply faults_iff; [|apply faults_ret]. intros e x _. cbn beta. split; [contradiction|]. intros ([|g gs] & f & fs2 & l & H & _); discriminate.
  - destruct (falive cur f) eqn:C; [|exact IH].
    eapply faults_iff; [|eapply faults_bind; [apply m_ty|apply faults_ty|intros v y _ _; apply faults_map, IH]]. intros e x _. cbn beta. split.
    + intros [H|(v & y & z & -> & Hv & fs1 & g & fs2 & l & Hf & Hl & u & w & -> & Hi & H)].
      * exists [], f, (filter (falive cur) fs), []. split; [reflexivity|]. split; [reflexivity|]. exists [], x. split; [reflexivity|]. split; [apply items_nil; reflexivity|exact H].
      * exists (f :: fs1), g, fs2, (v :: l). rewrite Hf. split; [reflexivity|]. split; [cbn [length]; congruence|]. exists (y ++ u), w. rewrite app_assoc. split; [reflexivity|].
        split; [|exact H]. cbn [combine]. apply items_cons. exists y, u. auto.
    + intros ([|f1 fs1] & g & fs2 & l & Hf & Hl & u & w & -> & Hi & H); cbn [app] in Hf; injection Hf as -> Hf.
      * destruct l; [|discriminate]. cbn [combine] in Hi. apply items_nil in Hi. subst u. left. exact H.
      * destruct l as [|v l]; [discriminate|]. cbn [combine] in Hi. apply items_cons in Hi. destruct Hi as (y & z & -> & Hv & Hi). right. rewrite <- app_assoc.
        exists v, y, (z ++ w). split; [reflexivity|]. split; [exact Hv|]. exists fs1, g, fs2, l. split; [exact Hf|]. split; [cbn [length] in Hl; lia|]. exists z, w. auto.
Qed.
Lemma faults_payload : forall A s (p : prog A) G, faults p G -> faults (buf <- variant_buf E (Some s) ;; in_buf p buf) (payload_fault s G).
Proof.
  intros A s p G Gp. destruct s as [|n|]; cbn [variant_buf payload_fault].
  - cbn [bind]. apply (faults_in_buf _ p G []); [constructor|exact Gp].
  - rewrite (alloc_free E HM). apply faults_part, Gp.
  - eapply faults_run_eq; [|apply faults_sized, Gp]. intros x. rewrite !run_bind. destruct (run read_varlen_len x) as [[n r]|e|q]; [|reflexivity|reflexivity].
    rewrite !(alloc_free E HM). rewrite !run_bind. reflexivity.
Qed.
Lemma faults_variant_opt : forall cur tgt vr s, v_size vr = Some s ->
  faults (de_variant_opt E rec cur tgt vr) (fun e z => payload_fault s (opt_fields_fault E frec grec cur (v_fields vr)) e z
             \/ exists l, padded (payload_form s (opt_fields_form E frec cur (v_fields vr) l)) z /\ variant_fault cur tgt vr l e).
Proof.
  intros cur tgt vr s Hs. unfold de_variant_opt. rewrite Hs.
  eapply faults_run_eq; [intros x; apply run_swap_bind|].
  apply faults_then with (F := fun l z => payload_form s (opt_fields_form E frec cur (v_fields vr) l) z).
  - apply means_payload; [exact HM|]. apply (means_vfields E HM rec frec Hrec).
  - apply faults_payload, faults_vfields.
  - intros l. apply faults_variant.
Qed.
Lemma faults_some : forall A B (p : prog A) (b : B) (P : B -> err -> bytes -> Prop), faults p (P b) -> faults p (fun e x => exists b', Some b = Some b' /\ P b' e x).
Proof. intros A B p b P H. eapply faults_iff; [|exact H]. intros e x _. split; [eauto|intros (b' & Q & K); injection Q as <-; exact K]. Qed.
Lemma faults_enum : forall h cur tgt vs,
  faults (if h_opt h then de_enum_opt E rec cur tgt vs else de_enum_legacy E rec cur tgt vs) (enum_fault E frec grec h cur tgt vs).
Proof.
  intros h cur tgt vs. unfold enum_fault, de_enum_opt, de_enum_legacy. destruct (calc_disc cur vs) as [ds|] eqn:Ds.
  2: { eapply faults_iff; [|destruct (h_opt h); apply faults_crash]. intros e x _. cbn beta. split; [contradiction|]. intros (ds & H & _). discriminate. }
  pose proof (calc_disc_nodup _ _ _ Ds) as Hn.
  destruct (h_opt h); apply faults_some; cbv beta.
  - eapply faults_run_eq with (p := t <- read_byte ;; c <- of_res (size_class t) ;;
       match find_tag (variant_id t) c ds with None => Fail (EDeserialize MUnknownVariant) | Some (vr, _) => de_variant_opt E rec cur tgt vr end).
    { intros x. unfold read_optimised_tag, read_tag. rewrite !run_bind. destruct (run read_byte x) as [[t r]|e|q]; [|reflexivity|reflexivity]. rewrite !run_bind.
      destruct (run (of_res (size_class t)) r) as [[c r']|e|q]; reflexivity. }
    apply faults_byte with (H := fun tag e z => if tag / 32 mod 4 =? 3 then e = EInvalidTag tag
    else (e = EDeserialize MUnknownVariant /\ forall vr s, In (vr, tag mod 32) ds -> v_size vr = Some s -> tag / 32 mod 4 <> class_code s)
      \/ exists vr s, In (vr, tag mod 32) ds /\ v_size vr = Some s /\ tag / 32 mod 4 = class_code s
         /\ (payload_fault s (opt_fields_fault E frec grec cur (v_fields vr)) e z
             \/ exists l, padded (payload_form s (opt_fields_form E frec cur (v_fields vr) l)) z /\ variant_fault cur tgt vr l e)).
    intros t Ht. pose proof (tag_class rec frec Hrec t Ht) as TC. rewrite <- variant_id_mod. destruct (N.eqb_spec (t / 32 mod 4) 3) as [E3|E3].
    + assert (Q : size_class t = Err (EInvalidTag t)).
      { destruct (size_class t) as [c|e|q] eqn:Sc.
        - pose proof (proj1 (TC c) eq_refl) as K. rewrite E3 in K. destruct c; discriminate.
        - unfold size_class in Sc. destruct (from_bits _); [discriminate|]. congruence.
        - unfold size_class in Sc. destruct (from_bits _); discriminate. }
      rewrite Q. cbn [of_res bind]. apply faults_fail.
    + assert (Q : exists c, size_class t = Ok c).
      { pose proof (N.mod_lt (t / 32) 4 ltac:(lia)) as L. assert (J : t / 32 mod 4 = to_bits CInline \/ t / 32 mod 4 = to_bits CFixed \/ t / 32 mod 4 = to_bits CVarlen) by (cbn [to_bits]; lia).
        destruct J as [J|[J|J]]; apply TC in J; eauto. }
      destruct Q as [c Q]. rewrite Q. cbn [of_res bind]. apply TC in Q. rewrite Q.
      pose proof (fun vr k => find_unique ds (fun vr => match v_size vr with Some s => sclass_eqb (class_of s) c | None => false end) (variant_id t) vr k Hn) as FU.
      unfold find_tag. destruct (find _ ds) as [[vr k]|].
      * destruct (proj1 (FU vr k) eq_refl) as (Hi & Hs & ->). destruct (v_size vr) as [s|] eqn:Sz; [|discriminate]. apply sclass_eqb_eq in Hs.
        eapply faults_iff; [|apply faults_variant_opt; exact Sz]. intros e x _. cbn beta. split.
        -- intros H. right. exists vr, s. split; [exact Hi|]. split; [exact Sz|]. split; [rewrite class_code_bits, Hs; reflexivity|exact H].
        -- intros [[_ H]|(vr2 & s2 & Hi2 & Sz2 & Hs2 & H)].
           ++ exfalso. apply (H vr s Hi Sz). rewrite class_code_bits, Hs. reflexivity.
           ++ assert (Q2 : Some (vr, variant_id t) = Some (vr2, variant_id t)).
              { apply FU. split; [exact Hi2|]. rewrite Sz2. split; [|reflexivity]. apply sclass_eqb_eq. rewrite class_code_bits in Hs2. apply to_bits_inj in Hs2. congruence. }
              injection Q2 as <-. rewrite Sz in Sz2. injection Sz2 as <-. exact H.
      * eapply faults_iff; [|apply faults_fail]. intros e x _. unfold says.
        assert (NF : forall vr s, In (vr, variant_id t) ds -> v_size vr = Some s -> to_bits c <> class_code s).
        { intros vr2 s2 Hi2 Sz2 Hs2. assert (Q2 : None = Some (vr2, variant_id t)); [|discriminate].
          apply FU. split; [exact Hi2|]. rewrite Sz2. split; [|reflexivity]. apply sclass_eqb_eq. rewrite class_code_bits in Hs2. apply to_bits_inj in Hs2. congruence. }
        split; [intros ->; left; auto|]. intros [[H _]|(vr2 & s2 & Hi2 & Sz2 & Hs2 & _)]; [exact H|]. exfalso. exact (NF vr2 s2 Hi2 Sz2 Hs2).
  - apply faults_disc. intros k. pose proof (fun vr j => find_disc_iff ds k vr j Hn) as FU. destruct (find_disc k ds) as [[vr j]|].
    + destruct (proj1 (FU vr j) eq_refl) as (Hi & ->). unfold de_variant_legacy. eapply faults_run_eq; [intros x; apply run_content|].
      eapply faults_iff; [|eapply faults_then; [apply (means_content E HW HM rec frec Hrec)|apply faults_content|intros l; apply faults_variant]]. intros e x _. cbn beta. split.
      * intros H. right. exists vr. split; [exact Hi|exact H].
      * intros [[_ H]|(vr2 & Hi2 & H)]; [exfalso; exact (H vr Hi)|]. assert (Q : Some (vr, k) = Some (vr2, k)) by (apply FU; auto). injection Q as <-. exact H.
    + eapply faults_iff; [|apply faults_fail]. intros e x _. unfold says.
      assert (NF : forall vr, ~ In (vr, k) ds) by (intros vr2 Hi2; assert (Q : None = Some (vr2, k)) by (apply FU; auto); discriminate).
      split; [intros ->; left; auto|]. intros [[H _]|(vr2 & Hi2 & _)]; [exact H|exfalso; exact (NF vr2 Hi2)].
Qed.
Lemma faults_derived : forall s, faults (de_derived E rec s) (derived_fault E frec grec s).
Proof.
  intros s. unfold de_derived, derived_fault.
  apply faults_bind; [apply means_u16; assumption|apply faults_u16|intros r y _ _]. unfold de_body. destruct (sent s r) as [h|]; [|apply faults_fail].
  destruct (s_body s) as [fs|vs]; [apply faults_struct|apply faults_enum].
Qed.
End Rec.

Lemma faults_ref : forall d n, faults (de_ref E d n) (fault_ref E d n).
Proof.
  induction d as [|d IH]; intros n; cbn [de_ref fault_ref]; [apply faults_crash|].
  destruct (e_sch E n) as [s|].
  - eapply faults_iff; [|apply faults_derived; [apply means_ref; assumption|exact IH]]. intros e x _. split; [intros H; exists s; split; [reflexivity|exact H]|intros (s' & Q & H); injection Q as <-; exact H].
  - eapply faults_iff; [|apply faults_crash]. intros e x _. split; [contradiction|intros (s & Q & _); discriminate].
Qed.
Lemma unlimited_id : unlimited E = E.
Proof. unfold unlimited. rewrite <- HM. destruct E. reflexivity. Qed.
Lemma faults_deserialize : forall d t, faults (deserialize E d t) (fault E d t).
Proof. intros d t. unfold fault. rewrite unlimited_id. apply faults_ty; [apply means_ref; assumption|apply faults_ref]. Qed.
End F.
