(** Memory requested while decoding: proofs. *)

From Verif Require Import Base BaseL Prog ProgL Prim PrimL Utf8 Tag Ty Ser De Typed RtL Agree Size Yield SizeL.
From Coq Require Import List NArith ZArith Bool Lia.
Import ListNotations.
Open Scope N_scope.

(** Types of non-zero width take at least one byte. *)
Lemma eats_entry : forall p q, eats p \/ eats q -> eats (de_entry p q).
Proof.
  intros p q H bs a r E. unfold de_entry in E. destruct H as [H|H]; [exact (eats_bind _ _ _ _ H _ _ _ E)|].
  rewrite run_bind in E. destruct (run p bs) as [[x y]|e|x] eqn:E1; try discriminate. apply run_len in E1.
  apply (eats_bind _ _ _ _ H) in E. lia.
Qed.
Lemma eats_ref : forall E d n, eats (de_ref E d n).
Proof.
  intros E [|d'] n bs' a r Hr; cbn [de_ref] in Hr; [discriminate|]. destruct (e_sch E n) as [s|]; [|discriminate].
  unfold de_derived in Hr. apply (eats_bind _ _ _ _ (eats_u16 _)) in Hr. exact Hr.
Qed.
Lemma eats_ty : forall E rec, (forall n, eats (rec n)) -> forall t, zero_width t = false -> eats (de_ty E rec t).
Proof.
  intros E rec ER. induction t; intros Hz; try discriminate Hz; cbn [zero_width] in Hz; cbn [de_ty];
    try (apply eats_bind; first [apply eats_read_byte|apply eats_int|apply eats_read_n; reflexivity|apply eats_char|apply eats_u32]).
  - unfold de_str. apply eats_bind, eats_len.
  - unfold de_str. apply eats_bind, eats_len.
  - unfold de_blob. apply eats_bind, eats_bind, eats_len.
  - apply andb_false_iff in Hz. destruct (zero_width t1) eqn:Z1; [|apply eats_bind, IHt1; reflexivity].
    destruct Hz as [Hz|Hz]; [discriminate|]. intros bs a r H. rewrite run_bind in H.
    destruct (run (de_ty E rec t1) bs) as [[x y]|e|p] eqn:E1; try discriminate. apply run_len in E1.
    apply (eats_bind _ _ _ _ (IHt2 Hz)) in H. lia.
  - assert (HS : eats (l <- de_seq E (e_esize E t) (de_ty E rec t) ;; Ret (VSeq l))) by (unfold de_seq; apply eats_bind, eats_bind, eats_len).
    destruct (e_spec E); [|exact HS]. destruct (bulk_of t); [|exact HS]. unfold de_bulk. apply eats_bind, eats_bind, eats_len.
  - unfold de_seq. apply eats_bind, eats_bind, eats_len.
  - apply orb_false_iff in Hz. destruct Hz as [Hn Hz]. destruct n as [|n]; [discriminate|]. cbn [rep]. apply eats_bind, eats_bind, IHt, Hz.
  - unfold de_seq. apply eats_bind, eats_bind, eats_len.
  - unfold de_seq. apply eats_bind, eats_bind, eats_len.
  - unfold de_seq. apply eats_bind, eats_bind, eats_len.
  - exact (IHt Hz).
  - apply eats_bind, IHt, Hz.
  - apply ER.
Qed.

Section Fits.
Variables (K M : N).

(** Whatever [q] decodes from few enough bytes, [p] decodes. *)
Definition fits {A} (p q : prog A) : Prop :=
  forall bs a r, run q bs = Ok (a, r) -> K * (len bs - len r) <= M -> run p bs = Ok (a, r).

Lemma fits_refl : forall A (p : prog A), fits p p.
Proof. intros A p bs a r H _. exact H. Qed.
Lemma fits_bind_in : forall A B (p q : prog A) (f g : A -> prog B), fits p q ->
  (forall a bs y, run q bs = Ok (a, y) -> K * (len bs - len y) <= M -> fits (f a) (g a)) ->
  fits (bind p f) (bind q g).
Proof.
  intros A B p q f g Hp Hf bs b r H HM. rewrite run_bind in *.
  destruct (run q bs) as [[a y]|e|x] eqn:E1; try discriminate.
  pose proof (run_len _ _ _ _ _ E1) as L1. pose proof (run_len _ _ _ _ _ H) as L2.
  assert (H1 : K * (len bs - len y) <= M) by (etransitivity; [|exact HM]; apply N.mul_le_mono_l; lia).
  assert (H2 : K * (len y - len r) <= M) by (etransitivity; [|exact HM]; apply N.mul_le_mono_l; lia).
  rewrite (Hp _ _ _ E1 H1). exact (Hf _ _ _ E1 H1 _ _ _ H H2).
Qed.
Lemma fits_bind : forall A B (p q : prog A) (f g : A -> prog B), fits p q ->
  (forall a, fits (f a) (g a)) -> fits (bind p f) (bind q g).
Proof. intros A B p q f g Hp Hf. apply fits_bind_in; auto. Qed.
Lemma fits_map_err : forall A g (p q : prog A), fits p q -> fits (map_err g p) (map_err g q).
Proof.
  intros A g p q H bs a r E HM. rewrite run_map_err in *. destruct (run q bs) as [[x y]|e|x] eqn:E1; try discriminate.
  cbn in E. apply Ok_inj in E. inversion E; subst. rewrite (H _ _ _ E1 HM). reflexivity.
Qed.
Lemma fits_rep : forall A n (p q : prog A), fits p q -> fits (rep n p) (rep n q).
Proof.
  induction n as [|n IH]; intros p q H; cbn [rep]; [apply fits_refl|].
  apply fits_bind; [assumption|]. intros a. apply fits_bind; [apply IH; assumption|]. intros; apply fits_refl.
Qed.
Lemma fits_in_buf : forall A (p q : prog A) buf, K * len buf <= M -> fits p q -> fits (in_buf p buf) (in_buf q buf).
Proof.
  intros A p q buf Hb H bs a r E HM. unfold in_buf in *. rewrite run_of_res in *.
  destruct (run q buf) as [[x y]|e|x] eqn:E1; try discriminate. cbn in E. apply Ok_inj in E. inversion E; subst.
  rewrite (H _ _ _ E1); [reflexivity|]. etransitivity; [|exact Hb]. apply N.mul_le_mono_l. lia.
Qed.

Variable E : env.
Let E' := set_mem None E.
Hypothesis Hmem : e_mem E = Some M.
Variable G : N.
Hypothesis HG : G <= K.
Hypothesis H8 : 8 <= K.
Hypothesis Hroom : forall t, if zero_width t then e_esize E t = 0 else e_esize E t <= G.

Lemma fits_alloc : forall A x (p q : prog A), (forall bs a r, run q bs = Ok (a, r) -> x <= K * (len bs - len r)) ->
  fits p q -> fits (alloc E x ;;; p) (alloc E' x ;;; q).
Proof.
  intros A x p q Hx H bs a r Eq HM. unfold alloc in *. cbn [E' set_mem e_mem bind] in Eq. rewrite Hmem.
  pose proof (Hx _ _ _ Eq) as Hle. destruct (x <=? M) eqn:El; [cbn [bind]; exact (H _ _ _ Eq HM)|].
  apply N.leb_gt in El. lia.
Qed.
(** Reading [n] bytes pays for a request of up to eight times as many. *)
Lemma fits_read : forall A x n (f g : bytes -> prog A), x <= 8 * n ->
  (forall b, len b = n -> K * n <= M -> fits (f b) (g b)) ->
  fits (alloc E x ;;; b <- read_n n ;; f b) (alloc E' x ;;; b <- read_n n ;; g b).
Proof.
  intros A x n f g Hx Hf. apply fits_alloc.
  - intros bs a r H. rewrite run_bind in H. destruct (run (read_n n) bs) as [[b y]|e|p] eqn:E1; try discriminate.
    apply run_read_n_ok in E1. destruct E1 as [-> El]. apply run_len in H. rewrite len_app.
    etransitivity; [exact Hx|]. apply N.mul_le_mono; lia.
  - apply fits_bind_in; [apply fits_refl|]. intros b bs y H HM. apply run_read_n_ok in H. destruct H as [-> El].
    apply Hf; [exact El|]. rewrite len_app, El in HM. replace (n + len y - len y) with n in HM by lia. exact HM.
Qed.
(** A loop over elements pays for their storage. *)
Lemma pay_rep : forall A B t n (q : prog A) (g : list A -> prog B), (zero_width t = false -> eats q) ->
  forall bs a r, run (l <- rep (N.to_nat n) q ;; g l) bs = Ok (a, r) -> n * e_esize E t <= K * (len bs - len r).
Proof.
  intros A B t n q g Hq bs a r H. pose proof (Hroom t) as Hr. destruct (zero_width t); [rewrite Hr, N.mul_0_r; apply N.le_0_l|].
  rewrite run_bind in H. destruct (run (rep (N.to_nat n) q) bs) as [[l y]|e|p] eqn:E1; try discriminate.
  apply eats_rep in E1; [|auto]. apply run_len in H. rewrite (N.mul_comm n). apply N.mul_le_mono; lia.
Qed.
Lemma pay_rep0 : forall A t n (q : prog A), (zero_width t = false -> eats q) ->
  forall bs a r, run (rep (N.to_nat n) q) bs = Ok (a, r) -> n * e_esize E t <= K * (len bs - len r).
Proof.
  intros A t n q Hq bs a r H. pose proof (Hroom t) as Hr. destruct (zero_width t); [rewrite Hr, N.mul_0_r; apply N.le_0_l|].
  apply eats_rep in H; [|auto]. rewrite (N.mul_comm n). apply N.mul_le_mono; lia.
Qed.

Variables (rec rec' : N -> prog val).
Hypothesis Hrec : forall n, fits (rec n) (rec' n).
Hypothesis Heat : forall n, eats (rec' n).

Ltac ft :=
  change (e_ub E') with (e_ub E);
  repeat first
  [ apply fits_refl | apply Hrec | assumption
  | apply fits_bind; [|intros ?]
  | apply fits_rep | apply fits_map_err
  | match goal with |- fits (if ?c then _ else _) (if ?c then _ else _) => destruct c end ].

Lemma fits_str : fits (de_str E) (de_str E').
Proof.
  unfold de_str. apply fits_bind; [apply fits_refl|]. intros n. destruct (n =? 0); [apply fits_refl|].
  apply fits_read; [lia|]. intros; apply fits_refl.
Qed.
Lemma fits_read0 : forall x n, x <= 8 * n -> fits (alloc E x ;;; read_n n) (alloc E' x ;;; read_n n).
Proof.
  intros x n Hx. apply fits_alloc; [|apply fits_refl].
  intros bs a r H. apply run_read_n_ok in H. destruct H as [-> El]. rewrite len_app. etransitivity; [exact Hx|]. apply N.mul_le_mono; lia.
Qed.
Lemma fits_blob : fits (de_blob E) (de_blob E').
Proof.
  unfold de_blob. apply fits_bind; [apply fits_refl|]. intros n. destruct (n =? 0); [apply fits_refl|].
  apply fits_read0. lia.
Qed.
Lemma div_ceil8_le : forall n, n <= 8 * div_ceil8 n.
Proof. intros n. unfold div_ceil8. pose proof (N.div_mod (n + 7) 8). pose proof (N.mod_lt (n + 7) 8). lia. Qed.
Lemma fits_bulk : forall k, fits (de_bulk E k) (de_bulk E' k).
Proof.
  intros k. unfold de_bulk. apply fits_bind; [apply fits_refl|]. intros n. destruct (n =? 0); [apply fits_refl|].
  destruct k as [| |[]]; change (e_ub E') with (e_ub E).
  - apply fits_read; [lia|]. intros b Hb HM. intros bs a r H _. unfold alloc in *. rewrite Hmem. cbn [E' set_mem e_mem bind] in H.
    assert (Hn : n <= M).
    { etransitivity; [apply div_ceil8_le|]. etransitivity; [|exact HM]. apply N.mul_le_mono_r; exact H8. }
    apply N.leb_le in Hn. rewrite Hn. exact H.
  - destruct (_ <? _); [|apply fits_refl]. apply fits_read; [lia|]. intros; apply fits_refl.
  - apply fits_alloc; [|apply fits_refl]. intros bs a r H.
    assert (HH : forall m bs a r, run (rep m (x <- read_n 16 ;; Ret (VBytes (e_dec E' x)))) bs = Ok (a, r) -> N.of_nat m * 16 <= K * (len bs - len r));
      [|apply HH in H; rewrite N2Nat.id in H; exact H].
    clear - H8. induction m as [|m IH]; intros bs a r H; [apply N.le_0_l|].
    cbn [rep] in H. rewrite run_bind in H.
    destruct (run (x <- read_n 16 ;; Ret (VBytes (e_dec E' x))) bs) as [[x y]|e|p] eqn:E1; try discriminate.
    rewrite run_bind in H. destruct (run (rep m (x0 <- read_n 16;; Ret (VBytes (e_dec E' x0)))) y) as [[x' y']|e|p] eqn:E2; try discriminate.
    apply Ok_inj in H. inversion H; subst. apply IH in E2 as E3. rewrite run_bind in E1.
    destruct (run (read_n 16) bs) as [[b z]|e|p] eqn:E4; try discriminate. apply Ok_inj in E1. inversion E1; subst.
    apply run_read_n_ok in E4. destruct E4 as [-> El]. rewrite len_app, El. apply run_len in E2.
    rewrite Nat2N.inj_succ. replace (16 + len y - len r) with (16 + (len y - len r)) by lia. rewrite N.mul_add_distr_l. lia.
  - destruct (_ <? _); [|apply fits_refl]. apply fits_read; [lia|]. intros; apply fits_refl.
Qed.
Lemma fits_seq : forall t p q, (zero_width t = false -> eats q) -> fits p q ->
  fits (de_seq E (e_esize E t) p) (de_seq E' (e_esize E t) q).
Proof.
  intros t p q Hq H. unfold de_seq. apply fits_bind; [apply fits_refl|]. intros n. destruct (n =? 0); [apply fits_refl|].
  apply fits_alloc; [|apply fits_rep, H]. intros bs a r Hr. eapply pay_rep0; eassumption.
Qed.
Lemma fits_entry : forall p q p' q', fits p p' -> fits q q' -> fits (de_entry p q) (de_entry p' q').
Proof. intros. unfold de_entry. ft. Qed.

Lemma eats_pair : forall a b, zero_width (TPair a b) = false -> eats (de_entry (de_ty E' rec' a) (de_ty E' rec' b)).
Proof.
  intros a b Hz. cbn [zero_width] in Hz. apply andb_false_iff in Hz. apply eats_entry.
  destruct Hz; [left|right]; apply eats_ty; auto.
Qed.

Lemma fits_ty : forall t, fits (de_ty E rec t) (de_ty E' rec' t).
Proof.
  induction t; cbn [de_ty]; change (e_spec E') with (e_spec E); change (e_esize E') with (e_esize E);
    try match goal with |- context [if e_spec E then bulk_of ?x else None] => destruct (if e_spec E then bulk_of x else None) end;
    first [ apply fits_str
          | apply fits_bind;
            [first [ apply fits_blob | apply fits_bulk
                   | apply (fits_seq (TPair _ _)); [apply eats_pair|apply fits_entry; assumption]
                   | apply fits_seq; [apply eats_ty; exact Heat|assumption] ]
            |intros; apply fits_refl]
          | ft ].
Qed.
Lemma fits_mode : forall mo t, fits (de_mode E rec mo t) (de_mode E' rec' mo t).
Proof.
  intros mo t. pose proof (fun a => fits_ty a) as HT.
  assert (Hs : forall a, fits (de_idx_seq E a (de_ty E rec a)) (de_idx_seq E' a (de_ty E' rec' a))).
  { intros a. unfold de_idx_seq. apply fits_bind; [apply fits_refl|intros fl]. apply fits_bind; [apply fits_refl|intros n].
    change (e_ub E') with (e_ub E). change (e_esize E') with (e_esize E).
    assert (H : fits (alloc E (n * e_esize E a) ;;; rep (N.to_nat n) (de_ty E rec a)) (alloc E' (n * e_esize E a) ;;; rep (N.to_nat n) (de_ty E' rec' a))).
    { apply fits_alloc; [|apply fits_rep, HT]. intros bs x r Hr. eapply pay_rep0; [|exact Hr]. apply eats_ty, Heat. }
    destruct (_ =? _); [exact H|]. destruct (_ <? _); [|apply fits_refl]. apply fits_bind; [apply fits_refl|]. intros _. exact H. }
  assert (Hm : forall k a b, fits (de_idx_map E k a b (de_ty E rec a) (de_ty E rec b)) (de_idx_map E' k a b (de_ty E' rec' a) (de_ty E' rec' b))).
  { intros k a b. unfold de_idx_map. apply fits_bind; [apply fits_refl|intros fl]. apply fits_bind; [apply fits_refl|intros n].
    change (e_ub E') with (e_ub E). change (e_esize E') with (e_esize E).
    match goal with |- fits (bind _ (fun _ => ?x)) (bind _ (fun _ => ?y)) => set (p := x); set (q := y) end.
    assert (Hpq : fits p q).
    { unfold p, q. destruct (_ =? _); [ft; apply HT|]. destruct (_ <? _); [|apply fits_refl].
      apply fits_bind; [apply fits_refl|intros m]. apply fits_bind; [apply fits_refl|intros _].
      apply fits_alloc; [intros bs x r Hr; eapply (pay_rep _ _ a); [|exact Hr]; apply eats_ty, Heat|].
      apply fits_bind; [apply fits_rep, HT|intros ks].
      apply fits_alloc; [intros bs x r Hr; eapply (pay_rep _ _ b); [|exact Hr]; apply eats_ty, Heat|].
      apply fits_bind; [apply fits_rep, HT|intros; apply fits_refl]. }
    destruct k; [|exact Hpq || (apply fits_bind; [apply fits_refl|intros _; exact Hpq])].
    apply fits_alloc; [|exact Hpq]. intros bs x r Hr. unfold q in Hr. destruct (_ =? _).
    - eapply (pay_rep _ _ (TPair a b)); [|exact Hr]. apply eats_pair.
    - destruct (_ <? _); [|discriminate]. pose proof (Hroom (TPair a b)) as HR. destruct (zero_width (TPair a b)) eqn:Hz; [rewrite HR, N.mul_0_r; apply N.le_0_l|].
      rewrite run_bind in Hr. destruct (run (add8 E' (n * 8)) bs) as [[m y1]|e|p0] eqn:E1; try discriminate. apply run_len in E1.
      rewrite run_bind in Hr. destruct (run (advance m) y1) as [[u y2]|e|p0] eqn:E2; try discriminate. apply run_len in E2.
      unfold alloc in Hr. cbn [E' set_mem e_mem bind] in Hr.
      rewrite run_bind in Hr. match type of Hr with context [run (rep ?n0 ?p0) y2] => destruct (run (rep n0 p0) y2) as [[ks y3]|e|p1] eqn:E3; try discriminate end.
      rewrite run_bind in Hr. match type of Hr with context [run (rep ?n0 ?p0) y3] => destruct (run (rep n0 p0) y3) as [[vs y4]|e|p1] eqn:E4; try discriminate end.
      apply Ok_inj in Hr. inversion Hr; subst. pose proof (run_len _ _ _ _ _ E3) as L3. pose proof (run_len _ _ _ _ _ E4) as L4.
      assert (Hn : n <= len bs - len r).
      { cbn [zero_width] in Hz. apply andb_false_iff in Hz. destruct Hz as [Hz|Hz].
        - apply eats_rep in E3; [lia|]. apply (eats_ty E' rec' Heat), Hz.
        - apply eats_rep in E4; [lia|]. apply (eats_ty E' rec' Heat), Hz. }
      rewrite (N.mul_comm n). apply N.mul_le_mono; lia. }
  destruct mo; cbn [de_mode]; try (destruct t; apply HT).
  - destruct t; apply fits_refl.
  - destruct t; try apply fits_refl. destruct (bulk_of t); [|apply fits_refl]. apply fits_bind; [apply fits_bulk|intros; apply fits_refl].
  - destruct t; try apply fits_refl. apply fits_bind; [apply Hm|intros; apply fits_refl].
  - destruct t; try apply fits_refl; (apply fits_bind; [apply Hs|intros; apply fits_refl]).
  - destruct t; try apply fits_refl; (apply fits_bind; [apply Hs|intros; apply fits_refl]).
Qed.
Lemma fits_fields : forall opt cur tgt fs, fits (de_fields E rec opt cur tgt fs) (de_fields E' rec' opt cur tgt fs).
Proof.
  induction fs as [|f fs IH]; cbn [de_fields]; [apply fits_refl|].
  destruct (falive cur f), (falive tgt f); ft; apply fits_mode.
Qed.
Lemma fits_vfields : forall cur fs, fits (de_vfields E rec cur fs) (de_vfields E' rec' cur fs).
Proof.
  induction fs as [|f fs IH]; cbn [de_vfields]; [apply fits_refl|].
  destruct (falive cur f); ft; apply fits_ty.
Qed.
Lemma fits_derived : forall s, fits (de_derived E rec s) (de_derived E' rec' s).
Proof.
  intros s. unfold de_derived. apply fits_bind; [apply fits_refl|intros a]. unfold de_body. destruct (sent s a) as [h|]; [|apply fits_refl].
  destruct (s_body s) as [fs|vs].
  - destruct (h_opt h).
    + unfold de_struct_opt. apply fits_bind; [apply fits_refl|intros n]. apply fits_read; [lia|]. intros b Hb HM.
      apply fits_in_buf; [rewrite Hb; exact HM|]. unfold struct_payload. ft; apply fits_fields.
    + unfold de_struct_legacy. ft; apply fits_fields.
  - unfold de_enum_opt, de_enum_legacy, de_variant_opt, de_variant_legacy. destruct (h_opt h).
    + destruct (calc_disc a vs); [|apply fits_refl]. apply fits_bind; [apply fits_refl|]. intros ts.
      destruct (find_tag _ _ _) as [[vr d]|]; [|apply fits_refl].
      assert (HB : fits (variant_buf E (v_size vr)) (variant_buf E' (v_size vr))).
      { destruct (v_size vr) as [[]|]; cbn [variant_buf]; try apply fits_refl; [apply fits_read0; lia|].
        apply fits_bind; [apply fits_refl|]. intros n. apply fits_read0; lia. }
      apply fits_bind_in; [exact HB|]. intros buf bs y Hb HM.
      assert (Hl : K * len buf <= M).
      { etransitivity; [|exact HM]. apply N.mul_le_mono_l. unfold alloc in Hb. destruct (v_size vr) as [[|n|]|]; cbn [variant_buf alloc E' set_mem e_mem bind] in Hb.
        - apply Ok_inj in Hb. inversion Hb; subst. rewrite len_nil. apply N.le_0_l.
        - unfold alloc in Hb. cbn [E' set_mem e_mem bind] in Hb. apply run_read_n_ok in Hb. destruct Hb as [-> El]. rewrite len_app. lia.
        - rewrite run_bind in Hb. destruct (run read_varlen_len bs) as [[n z]|e|p] eqn:E1; try discriminate. apply run_len in E1.
          unfold alloc in Hb. cbn [E' set_mem e_mem bind] in Hb. apply run_read_n_ok in Hb. destruct Hb as [-> El]. rewrite len_app in E1. lia.
        - discriminate. }
      apply fits_bind; [apply fits_in_buf; [exact Hl|apply fits_vfields]|intros; apply fits_refl].
    + destruct (calc_disc a vs); [|apply fits_refl]. apply fits_bind; [apply fits_refl|]. intros d.
      destruct (find_disc _ _) as [[vr d']|]; [|apply fits_refl]. ft; apply fits_fields.
Qed.
End Fits.

Lemma fits_deserialize : forall E M G d t, e_mem E = Some M ->
  roomy E G ->
  fits (N.max 8 G) M (deserialize E d t) (deserialize (set_mem None E) d t).
Proof.
  intros E M G d t Hm Hr. unfold deserialize.
  apply (fits_ty (N.max 8 G) M E Hm G (N.le_max_r _ _) (N.le_max_l _ _) Hr); [|intros n; apply eats_ref].
  induction d as [|d IH]; intros n; cbn [de_ref]; [apply fits_refl|].
  cbn [set_mem e_sch]. destruct (e_sch E n); [|apply fits_refl].
  apply (fits_derived (N.max 8 G) M E Hm G (N.le_max_r _ _) (N.le_max_l _ _) Hr _ _ IH). intros k; apply eats_ref.
Qed.
