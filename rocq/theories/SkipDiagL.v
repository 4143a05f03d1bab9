(** Skippers report exactly the obstacles of SkipDiag.v.  Proofs. *)

From Verif Require Import Base BaseL Prog ProgL Prim PrimL Utf8 Utf8L Tag Ty De Typed RtL Agree DiscL Spec IntL PropVal Format FormatL Diag DiagL SliceReader Skip SkipIdx SkipL SkipForm SkipFormL SkipDiag.
From Coq Require Import List NArith ZArith Bool Lia ZifyBool.
Import ListNotations.
Open Scope N_scope.

Lemma faults_unit : forall (p : prog unit) (q : prog unit) F G H, passes p F -> faults p G -> faults q H ->
  faults (p ;;; q) (fun e x => G e x \/ after F H e x).
Proof.
  intros p q F G H Hp Gp Gq. eapply faults_iff; [|eapply faults_bind with (F := fun _ => F) (H := fun _ => H); [exact Hp|exact Gp|intros; exact Gq]].
  intros e x _. cbn beta. split; [intros [K|(_ & K)]; auto|intros [K|K]; [left; exact K|right; exists tt; exact K]].
Qed.
Lemma faults_advance_read : forall n, faults (advance_read n) (short n).
Proof.
  intros n e x _. rewrite run_advance_read. unfold drop_n, short. destruct (split_at n x) as [[y z]|] eqn:S.
  - split; [discriminate|intros [_ L]]. apply split_at_none in L. rewrite L in S. discriminate.
  - apply split_at_none in S. split; [intros H; apply Err_inj in H; auto|intros [-> _]; reflexivity].
Qed.
Lemma faults_rep_ : forall p F G n, passes p F -> faults p G -> faults (rep_ n p) (piece_fault (N.of_nat n) F G).
Proof.
  intros p F G n Hp Gp. induction n as [|n IH]; cbn [rep_].
  - eapply faults_iff; [|apply faults_ret]. intros e x _. unfold piece_fault. split; [contradiction|intros (k & L & _); lia].
  - eapply faults_iff; [|apply faults_unit; [exact Hp|exact Gp|exact IH]].
    intros e x _. cbn beta. unfold piece_fault. split.
    + intros [K|(y & z & -> & Fy & k & L & u & w & -> & Hk & K)].
      * exists 0. split; [lia|]. exists [], x. split; [reflexivity|]. split; [apply pieces_0; reflexivity|exact K].
      * exists (N.of_nat (S (N.to_nat k))). split; [lia|]. exists (y ++ u), w. rewrite app_assoc. split; [reflexivity|].
        split; [|exact K]. apply pieces_S. exists y, u. rewrite N2Nat.id. auto.
    + intros (k & L & y & z & -> & Hk & K). destruct (N.to_nat k) as [|j] eqn:J.
      * assert (k = 0) by lia. subst k. apply pieces_0 in Hk. subst y. left. exact K.
      * assert (Q : k = N.of_nat (S j)) by lia. subst k. apply pieces_S in Hk. destruct Hk as (y1 & y2 & -> & F1 & H2). right. rewrite <- app_assoc.
        exists y1, (y2 ++ z). split; [reflexivity|]. split; [exact F1|]. exists (N.of_nat j). split; [lia|]. exists y2, z. auto.
Qed.
Lemma faults_rep_N : forall p F G n, passes p F -> faults p G -> faults (rep_ (N.to_nat n) p) (piece_fault n F G).
Proof. intros p F G n Hp Gp. rewrite <- (N2Nat.id n) at 2. apply faults_rep_; assumption. Qed.
Lemma faults_opaque : faults sk_struct_opt opaque_fault.
Proof.
  unfold sk_struct_opt, opaque_fault. eapply faults_iff; [|eapply faults_bind with (H := fun n => short n); [unfold read_varlen_len; apply means_le|unfold read_varlen_len; apply faults_map, faults_read_n|intros; apply faults_advance_read]].
  intros e x _. cbn beta. unfold after. split.
  - intros [H|(n & y & z & -> & [Hy ->] & H)]; [left; exact H|right; exists y, z; auto].
  - intros [H|(y & z & -> & Hy & H)]; [left; exact H|right; exists (le_val y), y, z; auto].
Qed.

Section S.
Variable E : env.
Hypothesis HW : wf_env E.
Hypothesis HM : e_mem E = None.

Lemma faults_sk_seq : forall p F G, passes p F -> faults p G -> faults (sk_seq E p) (counted_pieces_fault E F G).
Proof. intros p F G Hp Gp. unfold sk_seq, counted_pieces_fault. apply (faults_counted_by E). intros n. apply faults_rep_N; assumption. Qed.
Lemma faults_sk_blob : faults (sk_blob E) (blob_fault E).
Proof. unfold sk_blob, blob_fault. apply (faults_counted_by E). intros n. apply faults_advance_read. Qed.
Lemma faults_sk_bulk : forall k, faults (sk_bulk E k) (bulk_obstacle E k).
Proof.
  intros k. unfold sk_bulk, bulk_obstacle.
  apply faults_bind; [apply means_len; assumption|apply (faults_len E)|]. intros n y Hy Fy. destruct k as [|s w|q].
  - apply faults_advance_read.
  - assert (K : faults (if n * N.of_nat w <? 2 ^ e_ub E then advance_read (n * N.of_nat w) else Fail EOverflow)
        (if n * N.of_nat w <? 2 ^ e_ub E then short (n * N.of_nat w) else says EOverflow)).
    { destruct (_ <? _); [apply faults_advance_read|apply faults_fail]. }
    destruct w as [|[|w]]; [exact K| |exact K]. pose proof (len_lt E n y Hy Fy) as L. change (N.of_nat 1) with 1. rewrite N.mul_1_r.
    destruct (N.ltb_spec n (2 ^ e_ub E)); [apply faults_advance_read|lia].
  - destruct (_ <? _); [apply faults_advance_read|apply faults_fail].
Qed.

Section Rec.
Variable rec : N -> prog unit.
Variable drec : N -> prog val.
Variable srec : N -> bytes -> Prop.
Variable orec : N -> err -> bytes -> Prop.
Variable frec : N -> val -> bytes -> Prop.
Variable grec : N -> err -> bytes -> Prop.
Hypothesis Hrec : forall n, passes (rec n) (srec n).
Hypothesis Orec : forall n, faults (rec n) (orec n).
Hypothesis Hdrec : forall n, means (drec n) (frec n).
Hypothesis Gdrec : forall n, faults (drec n) (grec n).

Lemma p_ty : forall t, passes (sk_ty E rec drec t) (shape_ty E srec frec t).
Proof. apply passes_ty; assumption. Qed.
Lemma faults_decode : forall t, faults (de_ty E drec t ;;; Ret tt) (fault_ty E frec grec t).
Proof. intros t. apply (faults_map _ _ _ (fun _ => tt)). apply faults_ty; assumption. Qed.

Lemma obstacles_ty : forall t, faults (sk_ty E rec drec t) (obstacle_ty E srec orec frec grec t).
Proof.
  induction t; cbn [sk_ty obstacle_ty]; try (apply faults_decode).
  - apply faults_sk_blob.
  - apply faults_sk_blob.
  - apply faults_advance_read.
  - apply faults_advance_read.
  - apply faults_ret.
  - apply faults_unit; [apply p_ty|assumption|assumption].
  - destruct (if e_spec E then bulk_of t else None) as [k|]; [apply faults_sk_bulk|apply faults_sk_seq; [apply p_ty|exact IHt]].
  - apply faults_sk_seq; [apply p_ty|exact IHt].
  - apply faults_rep_; [apply p_ty|exact IHt].
  - eapply faults_iff; [|apply faults_byte with (H := fun b e z => (b = 1 /\ obstacle_ty E srec orec frec grec t e z) \/ (b <> 0 /\ b <> 1 /\ e = EDeserialize MBadOption))].
    + intros e x _. cbn beta. split.
      * intros [H|(b & z & -> & [[-> H]|H])]; [left; exact H|right; left; eauto|right; right; eauto].
      * intros [H|[(z & -> & H)|(b & z & -> & H)]]; [left; exact H|right; exists 1, z; auto|right; exists b, z; auto].
    + intros b _. destruct (N.eqb_spec b 0) as [->|H0]; [|destruct (N.eqb_spec b 1) as [->|H1]].
      * eapply faults_iff; [|apply faults_ret]. intros e x _. cbn beta. split; [contradiction|intros [[H _]|[H _]]; [discriminate|contradiction]].
      * eapply faults_iff; [|apply IHt]. intros e x _. cbn beta. tauto.
      * eapply faults_iff; [|apply faults_fail]. intros e x _. unfold says. tauto.
  - eapply faults_iff; [|apply (faults_disc E) with (H := fun k e z => (k = 0 /\ obstacle_ty E srec orec frec grec t1 e z) \/ (k = 1 /\ obstacle_ty E srec orec frec grec t2 e z) \/ (1 < k /\ e = EDeserialize MUnknownVariant))].
    + intros e x _. cbn beta. unfold after. split.
      * intros [H|(k & y & z & -> & Hk & [[-> H]|[[-> H]|[L ->]]])]; [left; exact H|right; left; eauto|right; right; left; eauto|].
        right; right; right. exists (Z.of_N k). split; [lia|]. exists y, z. unfold says. auto.
      * intros [H|[(y & z & -> & Hk & H)|[(y & z & -> & Hk & H)|(k & L & y & z & -> & Hk & H)]]]; [left; exact H|right; exists 0, y, z; split; [reflexivity|]; split; [exact Hk|tauto]|right; exists 1, y, z; split; [reflexivity|]; split; [exact Hk|tauto]|].
        right. exists (Z.to_N k), y, z. unfold says in H. rewrite Z2N.id by lia. split; [reflexivity|]. split; [exact Hk|]. right. right. split; [lia|exact H].
    + intros b. destruct (N.eqb_spec b 0) as [->|H0]; [|destruct (N.eqb_spec b 1) as [->|H1]].
      * eapply faults_iff; [|apply IHt1]. intros e x _. cbn beta. split; [auto|intros [[_ H]|[[H _]|[H _]]]; [exact H|discriminate|lia]].
      * eapply faults_iff; [|apply IHt2]. intros e x _. cbn beta. split; [auto|intros [[H _]|[[_ H]|[H _]]]; [discriminate|exact H|lia]].
      * eapply faults_iff; [|apply faults_fail]. intros e x _. unfold says. split; [intros ->; right; right; split; [lia|reflexivity]|intros [[H _]|[[H _]|[_ H]]]; [contradiction|contradiction|exact H]].
  - eapply faults_iff; [|apply (faults_disc E) with (H := fun k e z => (k = 1 /\ obstacle_ty E srec orec frec grec t e z) \/ (k = 2 /\ obstacle_ty E srec orec frec grec t e z) \/ (2 < k /\ e = EDeserialize MUnknownVariant))].
    + intros e x _. cbn beta. unfold after. split.
      * intros [H|(k & y & z & -> & Hk & [[-> H]|[[-> H]|[L ->]]])]; [left; exact H|right; left; eauto|right; right; left; eauto|].
        right; right; right. exists (Z.of_N k). split; [lia|]. exists y, z. unfold says. auto.
      * intros [H|[(y & z & -> & Hk & H)|[(y & z & -> & Hk & H)|(k & L & y & z & -> & Hk & H)]]]; [left; exact H|right; exists 1, y, z; split; [reflexivity|]; split; [exact Hk|tauto]|right; exists 2, y, z; split; [reflexivity|]; split; [exact Hk|tauto]|].
        right. exists (Z.to_N k), y, z. unfold says in H. rewrite Z2N.id by lia. split; [reflexivity|]. split; [exact Hk|]. right. right. split; [lia|exact H].
    + intros b. destruct (N.eqb_spec b 0) as [->|H0]; [|destruct (N.eqb_spec b 1) as [->|H1]; [|destruct (N.eqb_spec b 2) as [->|H2]]].
      * eapply faults_iff; [|apply faults_ret]. intros e x _. cbn beta. split; [contradiction|intros [[H _]|[[H _]|[H _]]]; [discriminate|discriminate|lia]].
      * eapply faults_iff; [|apply IHt]. intros e x _. cbn beta. split; [auto|intros [[_ H]|[[H _]|[H _]]]; [exact H|discriminate|lia]].
      * eapply faults_iff; [|apply IHt]. intros e x _. cbn beta. split; [auto|intros [[H _]|[[_ H]|[H _]]]; [discriminate|exact H|lia]].
      * eapply faults_iff; [|apply faults_fail]. intros e x _. unfold says. split; [intros ->; right; right; split; [lia|reflexivity]|intros [[H _]|[[H _]|[_ H]]]; [contradiction|contradiction|exact H]].
  - apply faults_sk_seq; [apply passes_then; apply p_ty|]. apply faults_unit; [apply p_ty|assumption|assumption].
  - apply faults_sk_seq; [apply p_ty|exact IHt].
  - apply faults_sk_seq; [apply p_ty|exact IHt].
  - exact IHt.
  - eapply faults_iff; [|eapply faults_bind with (F := form_ty E frec (TInt U64)) (H := fun _ => int_fault E U32); [apply means_ty; assumption|apply (faults_ty E HM drec frec grec Hdrec Gdrec (TInt U64))|]].
    + intros e x _. cbn beta. cbn [form_ty fault_ty]. unfold after. split.
      * intros [H|(v & y & z & -> & (s & _ & Hs) & H)]; [left; exact H|right; exists s, y, z; auto].
      * intros [H|(s & y & z & -> & Hs & H)]; [left; exact H|right; exists (VInt s), y, z; split; [reflexivity|]; split; [eauto|exact H]].
    + intros v y _ _. apply (faults_decode (TInt U32)).
  - destruct mirror; [apply faults_decode|exact IHt].
  - apply Orec.
Qed.
Lemma obstacles_fields : forall cur fs, faults (sk_fields E rec drec cur fs) (fields_obstacle E srec orec frec grec cur fs).
Proof.
  intros cur fs. induction fs as [|f fs IH]; cbn [sk_fields fields_obstacle]; [apply faults_ret|].
  destruct (falive cur f); [|exact IH]. destruct (f_fixed f).
  - unfold sk_fixed. destruct (fixed_of (f_ty f)) as [[s w]|]; [|apply faults_crash].
    apply faults_unit; [|apply (faults_map _ _ _ (fun _ => tt)), faults_read_n|exact IH].
    eapply passes_iff; [|apply passes_drop, means_read_n]. intros x _. cbn beta. unfold any. split; [intros (b & _ & H); exact H|intros H; eauto].
  - apply faults_unit; [apply p_ty|apply obstacles_ty|exact IH].
Qed.
Lemma obstacles_enum_opt : forall cur vs, faults (sk_enum_opt cur vs) (fun e x => exists ds, calc_disc cur vs = Some ds /\ tagged_obstacle ds e x).
Proof.
  intros cur vs. unfold sk_enum_opt. destruct (calc_disc cur vs) as [ds|] eqn:Ds.
  2: { eapply faults_iff; [|apply faults_crash]. intros e x _. split; [contradiction|]. intros (? & H & _). discriminate. }
  pose proof (calc_disc_nodup _ _ _ Ds) as Hn. apply faults_some. unfold tagged_obstacle, read_tag.
  apply faults_byte with (H := fun tag e z => match tag / 32 mod 4 with
     | 0 => False | 1 => exists n, declared_size ds (tag mod 32) n /\ short n e z | 2 => opaque_fault e z | _ => e = EInvalidTag tag end).
  intros t Ht. pose proof (tag_class drec frec Hdrec t Ht) as TC. rewrite <- variant_id_mod.
  destruct (size_class t) as [c|e0|q] eqn:Sc.
  - pose proof (proj1 (TC c) eq_refl) as K. rewrite K. cbn [of_res bind]. destruct c; cbn [to_bits].
    + apply faults_ret.
    + pose proof (fun n => table_declared ds (variant_id t) n Hn (variant_id_lt t)) as T.
      destruct (size_table_some ds t) as (n & Q). rewrite Q in *.
      eapply faults_iff; [|apply faults_advance_read]. intros e x _. split.
      * intros H. exists n. split; [apply T; reflexivity|exact H].
      * intros (m & H & L). apply T in H. injection H as ->. exact L.
    + apply faults_opaque.
  - assert (e0 = EInvalidTag t) by (unfold size_class in Sc; destruct (from_bits _); [discriminate|]; congruence). subst e0.
    cbn [of_res bind]. pose proof (N.mod_lt (t / 32) 4 ltac:(lia)) as L.
    destruct (t / 32 mod 4) as [|[[p|p|]|[p|p|]|]] eqn:C; try lia;
      try (pose proof (proj2 (TC CInline) eq_refl) as X; discriminate);
      try (pose proof (proj2 (TC CFixed) eq_refl) as X; discriminate);
      try (pose proof (proj2 (TC CVarlen) eq_refl) as X; discriminate); apply faults_fail.
  - unfold size_class in Sc. destruct (from_bits _); discriminate.
Qed.
Lemma obstacles_enum_legacy : forall cur vs, faults (sk_enum_legacy E rec drec cur vs)
  (fun e x => exists ds, calc_disc cur vs = Some ds /\ (int_fault E U32 e x
        \/ exists k, after (int_form E U32 (Z.of_N k)) (fun e z =>
             (e = EDeserialize MUnknownVariant /\ forall vr, ~ In (vr, k) ds)
             \/ exists vr, In (vr, k) ds /\ fields_obstacle E srec orec frec grec cur (v_fields vr) e z) e x)).
Proof.
  intros cur vs. unfold sk_enum_legacy. destruct (calc_disc cur vs) as [ds|] eqn:Ds.
  2: { eapply faults_iff; [|apply faults_crash]. intros e x _. split; [contradiction|]. intros (? & H & _). discriminate. }
  pose proof (calc_disc_nodup _ _ _ Ds) as Hn.
  apply faults_some with (P := fun ds e x => int_fault E U32 e x
        \/ exists k, after (int_form E U32 (Z.of_N k)) (fun e z =>
             (e = EDeserialize MUnknownVariant /\ forall vr, ~ In (vr, k) ds)
             \/ exists vr, In (vr, k) ds /\ fields_obstacle E srec orec frec grec cur (v_fields vr) e z) e x).
  apply (faults_disc E) with (H := fun k e z =>
             (e = EDeserialize MUnknownVariant /\ forall vr, ~ In (vr, k) ds)
             \/ exists vr, In (vr, k) ds /\ fields_obstacle E srec orec frec grec cur (v_fields vr) e z).
  intros k. pose proof (fun vr j => find_disc_iff ds k vr j Hn) as FU. destruct (find_disc k ds) as [[vr j]|].
  - destruct (proj1 (FU vr j) eq_refl) as (Hi & ->). eapply faults_iff; [|apply obstacles_fields]. intros e x _. split.
    + intros H. right. exists vr. auto.
    + intros [[_ H]|(vr2 & Hi2 & H)]; [elim (H vr Hi)|]. assert (Q : Some (vr, k) = Some (vr2, k)) by (apply FU; auto). injection Q as <-. exact H.
  - assert (NF : forall vr, ~ In (vr, k) ds) by (intros vr2 Hi2; assert (Q : None = Some (vr2, k)) by (apply FU; auto); discriminate).
    eapply faults_iff; [|apply faults_fail]. intros e x _. unfold says. split.
    + intros ->. left. auto.
    + intros [[H _]|(vr2 & Hi2 & _)]; [exact H|elim (NF vr2 Hi2)].
Qed.
Lemma obstacles_derived : forall s, faults (sk_derived E rec drec s) (derived_obstacle E srec orec frec grec s).
Proof.
  intros s. unfold sk_derived, derived_obstacle. apply faults_bind; [apply means_u16; assumption|apply (faults_u16 E)|]. intros r _ _ _.
  unfold sk_body, body_obstacle. destruct (sent s r) as [h|].
  - eapply faults_iff with (G := fun e x => match s_body s with
       | SStruct fs => if h_opt h then opaque_fault e x else fields_obstacle E srec orec frec grec r fs e x
       | SEnum vs => exists ds, calc_disc r vs = Some ds /\
           if h_opt h then tagged_obstacle ds e x
           else int_fault E U32 e x \/ exists k, after (int_form E U32 (Z.of_N k)) (fun e z =>
             (e = EDeserialize MUnknownVariant /\ forall vr, ~ In (vr, k) ds)
             \/ exists vr, In (vr, k) ds /\ fields_obstacle E srec orec frec grec r (v_fields vr) e z) e x end).
    { intros e x _. split; [intros H; right; exists h; auto|intros [[_ H]|(h' & Q & H)]; [discriminate|injection Q as <-; exact H]]. }
    destruct (s_body s) as [fs|vs]; destruct (h_opt h); [apply faults_opaque|apply obstacles_fields|apply obstacles_enum_opt|apply obstacles_enum_legacy].
  - eapply faults_iff; [|apply faults_fail]. intros e x _. unfold says. split; [auto|intros [[H _]|(h & Q & _)]; [exact H|discriminate]].
Qed.
End Rec.
Lemma obstacles_ref : forall d n, faults (sk_ref E d n) (obstacle_ref E d n).
Proof.
  induction d as [|d IH]; intros n; cbn [sk_ref obstacle_ref]; [apply faults_crash|].
  destruct (e_sch E n) as [s|].
  - apply faults_some. apply obstacles_derived; [apply passes_ref; assumption|exact IH|apply means_ref; assumption|apply faults_ref; assumption].
  - eapply faults_iff; [|apply faults_crash]. intros e x _. split; [contradiction|intros (s & Q & _); discriminate].
Qed.
Lemma obstacles_skip : forall d t, faults (skip E d t) (obstacle E d t).
Proof. intros d t. unfold obstacle. rewrite (unlimited_id E HW HM). apply obstacles_ty; [apply passes_ref; assumption|apply obstacles_ref|apply means_ref; assumption|apply faults_ref; assumption]. Qed.

(** ** The checking skip *)
Lemma obstacles_check : forall d t, faults (skip_check E d t) (check_fault E d t).
Proof.
  intros d t. unfold skip_check.
  assert (D : forall u, faults (de_ty E (de_ref E d) u ;;; Ret tt) (fault E d u)).
  { intros u. apply (faults_map _ _ _ (fun _ => tt)). apply faults_deserialize; assumption. }
  induction t; cbn [sc_ty check_fault]; try apply D.
  - apply faults_ret.
  - apply faults_unit; [apply (passes_check E HW HM d)|assumption|assumption].
  - apply faults_rep_; [apply (passes_check E HW HM d)|assumption].
  - apply (obstacles_ty (sk_ref E d) (de_ref E d) (shape_ref E d) (obstacle_ref E d) (form_ref E d) (fault_ref E d)) with (t := TSystemTime);
      [apply passes_ref; assumption|apply obstacles_ref|apply means_ref; assumption|apply faults_ref; assumption].
Qed.

(** ** [indexed_*] fields *)
Lemma faults_follows : forall m (p : prog unit) G, follows m p -> faults p G -> forall s e, wfb (sr_inner s) -> (m s = Err e <-> G e (sr_inner s)).
Proof.
  intros m p G Hf Gp s e Hs. rewrite Hf, <- (Gp e _ Hs). destruct (run p (sr_inner s)) as [[u y]|e'|q]; cbn [with_orig]; split; intros K; try discriminate; apply Err_inj in K; subst; reflexivity.
Qed.
Lemma faults_sk_idx_len : forall A (f : N -> prog A) H, (forall n, faults (f n) (H n)) ->
  faults (n <- read_varint E ;; f n) (fun e x => idx_len_fault E e x \/ exists n, after (idx_len_form E n) (H n) e x).
Proof. intros A f H Hf. apply (faults_idx_len E HW (de_ref E 0) (form_ref E 0) (fault_ref E 0)); [intros n; apply means_ref; assumption|intros n; apply faults_ref; assumption|exact Hf]. Qed.
Lemma obstacles_idx_map : forall d a b, faults (p_idx_map E d a b) (idx_map_obstacle E d a b).
Proof.
  intros d a b. unfold p_idx_map, idx_map_obstacle.
  apply faults_byte with (H := fun f e z => idx_len_fault E e z \/ exists n, after (idx_len_form E n)
     (fun e x =>
      if N.odd f then
        if n * 8 <? 2 ^ e_ub E then
          short (n * 8 + 8) e x \/ exists table k v y, x = table ++ k ++ v ++ y /\ len table = n * 8 /\ len k = 4 /\ len v = 4
            /\ if le_val k + le_val v <? 2 ^ e_ub E then short (le_val k + le_val v) e y else e = ESubReaderOverrun
        else e = ESubReaderOverrun
      else piece_fault n (both (shape E d a) (shape E d b)) (fun e x => obstacle E d a e x \/ after (shape E d a) (obstacle E d b) e x) e x) e z).
  intros f _. apply faults_sk_idx_len. intros n. rewrite odd_land. destruct (N.odd f); cbn [negb].
  - destruct (n * 8 <? 2 ^ e_ub E); [|apply faults_fail].
    eapply faults_iff; [|eapply faults_unit; [apply passes_advance|apply faults_advance_read|eapply faults_bind with (H := fun lens e y => if le_val (firstn 4 lens) + le_val (skipn 4 lens) <? 2 ^ e_ub E then short (le_val (firstn 4 lens) + le_val (skipn 4 lens)) e y else e = ESubReaderOverrun);
       [apply means_read_n|apply faults_read_n|]]].
    + intros e x _. cbn beta. unfold after, any, short. split.
      * intros [[-> L]|(t & z & -> & Ht & [[-> L]|(lens & y & w & -> & [-> Hl] & H)])].
        -- left. split; [reflexivity|lia].
        -- left. split; [reflexivity|]. rewrite len_app. lia.
        -- right. exists t, (firstn 4 y), (skipn 4 y), w.
           assert (L4 : len (firstn 4 y) = 4 /\ len (skipn 4 y) = 4) by (unfold len in *; rewrite firstn_length, skipn_length; lia).
           split; [rewrite (app_assoc (firstn 4 y)), firstn_skipn; reflexivity|]. split; [exact Ht|]. split; [apply L4|]. split; [apply L4|exact H].
      * intros [[-> L]|(t & k & v & y & -> & Ht & Hk & Hv & H)].
        -- destruct (N.lt_ge_cases (len x) (n * 8)) as [L1|L1]; [left; auto|right].
           destruct (split_at (n * 8) x) as [[t z]|] eqn:S; [|apply split_at_none in S; lia]. apply split_at_some in S. destruct S as [-> S].
           exists t, z. split; [reflexivity|]. split; [exact S|]. left. split; [reflexivity|]. rewrite len_app in L. lia.
        -- right. exists t, (k ++ v ++ y). split; [reflexivity|]. split; [exact Ht|]. right. exists (k ++ v), (k ++ v), y.
           assert (L4 : firstn 4 (k ++ v) = k /\ skipn 4 (k ++ v) = v).
           { assert (Q : length k = 4%nat) by (unfold len in Hk; lia). rewrite <- Q. rewrite firstn_app, Nat.sub_diag, firstn_O, app_nil_r, firstn_all. split; [reflexivity|].
             rewrite skipn_app, Nat.sub_diag, skipn_all. reflexivity. }
           destruct L4 as [-> ->]. split; [rewrite <- app_assoc; reflexivity|]. split; [split; [reflexivity|rewrite len_app; lia]|exact H].
    + intros lens y _ _. destruct (_ <? _); [apply faults_advance_read|apply faults_fail].
  - apply faults_rep_N; [apply passes_then; apply passes_skip; assumption|]. apply faults_unit; [apply passes_skip; assumption|apply obstacles_skip|apply obstacles_skip].
Qed.
Lemma obstacles_idx_seq : forall d a, faults (p_idx_seq E d a) (idx_seq_obstacle E d a).
Proof.
  intros d a. unfold p_idx_seq, idx_seq_obstacle.
  apply faults_byte with (H := fun f e z => idx_len_fault E e z \/ exists n, after (idx_len_form E n)
     (fun e x =>
      if N.odd f then
        0 < n /\
        if n * 4 <? 2 ^ e_ub E then
          short (n * 4) e x \/ exists table last y, x = table ++ last ++ y /\ len table + 4 = n * 4 /\ len last = 4
            /\ (short (le_val last) e y \/ after (any (le_val last)) (obstacle E d a) e y)
        else e = ESubReaderOverrun
      else piece_fault n (shape E d a) (obstacle E d a) e x) e z).
  intros f _. apply faults_sk_idx_len. intros n. rewrite odd_land. destruct (N.odd f); cbn [negb].
  - destruct (N.eqb_spec n 0) as [->|Hn].
    { eapply faults_iff; [|apply faults_ret]. intros e x _. cbn beta. split; [contradiction|]. intros [H _]. lia. }
    eapply faults_iff with (G := fun e x => if n * 4 <? 2 ^ e_ub E then
          short (n * 4) e x \/ exists table last y, x = table ++ last ++ y /\ len table + 4 = n * 4 /\ len last = 4
            /\ (short (le_val last) e y \/ after (any (le_val last)) (obstacle E d a) e y)
        else e = ESubReaderOverrun).
    { intros e x _. split; [intros H; split; [lia|exact H]|intros [_ H]; exact H]. }
    destruct (n * 4 <? 2 ^ e_ub E); [|apply faults_fail].
    eapply faults_iff; [|eapply faults_bind with (H := fun t e y => short (le_val (skipn (N.to_nat ((n - 1) * 4)) t)) e y \/ after (any (le_val (skipn (N.to_nat ((n - 1) * 4)) t))) (obstacle E d a) e y);
       [apply means_read_n|apply faults_read_n|]].
    + intros e x _. cbn beta. split.
      * intros [H|(t & y & z & -> & [-> Hl] & H)]; [left; exact H|right].
        exists (firstn (N.to_nat ((n - 1) * 4)) y), (skipn (N.to_nat ((n - 1) * 4)) y), z.
        assert (L4 : len (firstn (N.to_nat ((n - 1) * 4)) y) + 4 = n * 4 /\ len (skipn (N.to_nat ((n - 1) * 4)) y) = 4) by (unfold len in *; rewrite firstn_length, skipn_length; lia).
        split; [rewrite app_assoc, firstn_skipn; reflexivity|]. split; [apply L4|]. split; [apply L4|exact H].
      * intros [H|(t & k & y & -> & Ht & Hk & H)]; [left; exact H|right]. exists (t ++ k), (t ++ k), y.
        assert (Q : skipn (N.to_nat ((n - 1) * 4)) (t ++ k) = k).
        { replace (N.to_nat ((n - 1) * 4)) with (length t) by (unfold len in Ht; lia). rewrite skipn_app, Nat.sub_diag, skipn_all. reflexivity. }
        rewrite Q. split; [rewrite <- app_assoc; reflexivity|]. split; [split; [reflexivity|rewrite len_app; lia]|exact H].
    + intros t y _ _. apply faults_unit; [apply passes_advance|apply faults_advance_read|apply obstacles_skip].
  - apply faults_rep_N; [apply passes_skip; assumption|apply obstacles_skip].
Qed.
End S.
(** A reader that reports exactly [G] without a limit. *)
Lemma faults_limited : forall E (p p0 : prog unit) G, (e_mem E = None -> p = p0) -> agree (eq PMem) p p0 -> faults p0 G -> forall bs e, wfb bs ->
  (run p bs = Err e -> G e bs) /\ (G e bs -> or_oom E (run p bs) (Err e)).
Proof.
  intros E p p0 G Hn Ha Gp bs e Hb. pose proof (Gp e bs Hb) as R. destruct (Ha bs) as [A|(q & <- & A)].
  - rewrite A, R. split; [auto|]. intros F. left. apply R, F.
  - split; [congruence|]. intros F. destruct (e_mem E) as [m|] eqn:Em.
    + right. rewrite Em. split; [discriminate|exact A].
    + left. rewrite Hn by reflexivity. apply R, F.
Qed.
