(** Two runs of a decoder under different resource limits agree unless a limit is hit.  Proofs. *)

From Verif Require Import Base BaseL Prog ProgL Prim PrimL Utf8 Tag Ty Ser De Typed RtL.
From Coq Require Import List NArith ZArith Bool Lia.
Import ListNotations.
Open Scope N_scope.

(** [p] does what [q] does, or stops with a panic in [P]. *)
Definition agree (P : pan -> Prop) {A} (p q : prog A) : Prop :=
  forall bs, run p bs = run q bs \/ exists x, P x /\ run p bs = Panic x.

Section Agree.
Variable P : pan -> Prop.

Lemma agree_refl : forall A (p : prog A), agree P p p.
Proof. intros A p bs. left; reflexivity. Qed.
Lemma agree_bind : forall A B (p q : prog A) (f g : A -> prog B),
  agree P p q -> (forall a, agree P (f a) (g a)) -> agree P (bind p f) (bind q g).
Proof.
  intros A B p q f g Hp Hf bs. rewrite !run_bind. destruct (Hp bs) as [->|(x & Hx & ->)].
  - destruct (run q bs) as [[a r]|e|x]; [apply Hf|left; reflexivity|left; reflexivity].
  - right. eauto.
Qed.
Lemma agree_map_err : forall A g (p q : prog A), agree P p q -> agree P (map_err g p) (map_err g q).
Proof.
  intros A g p q H bs. rewrite !run_map_err. destruct (H bs) as [->|(x & Hx & ->)]; [left; reflexivity|].
  right. cbn. eauto.
Qed.
Lemma agree_rep : forall A n (p q : prog A), agree P p q -> agree P (rep n p) (rep n q).
Proof.
  induction n as [|n IH]; intros p q H; cbn [rep]; [apply agree_refl|].
  apply agree_bind; [assumption|]. intros a. apply agree_bind; [apply IH; assumption|]. intros; apply agree_refl.
Qed.
Lemma agree_rep_ : forall A n (p q : prog A), agree P p q -> agree P (rep_ n p) (rep_ n q).
Proof.
  induction n as [|n IH]; intros p q H; cbn [rep_]; [apply agree_refl|].
  apply agree_bind; [assumption|]. intros a. apply IH; assumption.
Qed.
Lemma agree_in_buf : forall A (p q : prog A) buf, agree P p q -> agree P (in_buf p buf) (in_buf q buf).
Proof.
  intros A p q buf H bs. unfold in_buf. rewrite !run_of_res. destruct (H buf) as [->|(x & Hx & ->)]; [left; reflexivity|].
  right. cbn. eauto.
Qed.

(** The two environments differ in the memory limit at most. *)
Definition set_mem (m : option N) (E : env) : env :=
  mkEnv (e_fw E) (e_spec E) (e_dbg E) (e_ub E) m (e_esize E) (e_cmp E) (e_iter E) (e_dec E)
        (e_ext E) (e_time E) (e_sch E).

(** ... and in overflow checking, which matters to the size of an offset table only. *)
Definition set_lim (m : option N) (g : bool) (E : env) : env :=
  mkEnv (e_fw E) (e_spec E) g (e_ub E) m (e_esize E) (e_cmp E) (e_iter E) (e_dec E)
        (e_ext E) (e_time E) (e_sch E).

Variables (E : env) (m : option N) (g : bool).
Let E' := set_lim m g E.
Hypothesis Hal : forall n, agree P (alloc E n) (alloc E' n).
Hypothesis Hadd : forall n, agree P (add8 E n) (add8 E' n).
Variables (rec rec' : N -> prog val).
Hypothesis Hrec : forall n, agree P (rec n) (rec' n).

Ltac agr :=
  change (e_ub E') with (e_ub E);
  repeat first
  [ apply agree_refl | apply Hal | apply Hadd | apply Hrec | assumption
  | apply agree_bind; [|intros ?]
  | apply agree_rep | apply agree_map_err | apply agree_in_buf
  | match goal with |- agree _ (if ?c then _ else _) (if ?c then _ else _) => destruct c end ].

Lemma agree_str : agree P (de_str E) (de_str E').
Proof. unfold de_str, de_len. agr. Qed.
Lemma agree_blob : agree P (de_blob E) (de_blob E').
Proof. unfold de_blob, de_len. agr. Qed.
Lemma agree_bulk : forall k, agree P (de_bulk E k) (de_bulk E' k).
Proof. intros k. unfold de_bulk, de_len. destruct k as [| |[]]; agr. Qed.
Lemma agree_seq : forall sz p q, agree P p q -> agree P (de_seq E sz p) (de_seq E' sz q).
Proof. intros. unfold de_seq, de_len. agr. Qed.
Lemma agree_entry : forall p q p' q', agree P p p' -> agree P q q' -> agree P (de_entry p q) (de_entry p' q').
Proof. intros. unfold de_entry. agr. Qed.

Lemma agree_ty : forall t, agree P (de_ty E rec t) (de_ty E' rec' t).
Proof.
  induction t; cbn [de_ty];
    change (e_spec E') with (e_spec E);
    try match goal with |- context [if e_spec E then bulk_of ?x else None] => destruct (if e_spec E then bulk_of x else None) end;
    first [ apply agree_str
          | apply agree_bind;
            [first [apply agree_blob | apply agree_bulk | apply agree_seq; first [assumption | apply agree_entry; assumption]]
            |intros; apply agree_refl]
          | agr ].
Qed.
Lemma agree_mode : forall mo t, agree P (de_mode E rec mo t) (de_mode E' rec' mo t).
Proof.
  intros mo t. pose proof (fun a => agree_ty a) as HT.
  assert (Hs : forall a, agree P (de_idx_seq E a (de_ty E rec a)) (de_idx_seq E' a (de_ty E' rec' a))).
  { intros a. unfold de_idx_seq, read_varint. agr; apply HT. }
  assert (Hm : forall k a b, agree P (de_idx_map E k a b (de_ty E rec a) (de_ty E rec b)) (de_idx_map E' k a b (de_ty E' rec' a) (de_ty E' rec' b))).
  { intros k a b. unfold de_idx_map, read_varint.
    apply agree_bind; [agr|intros]. apply agree_bind; [agr|intros]. apply agree_bind; [destruct k; agr|intros].
    change (e_ub E') with (e_ub E). destruct (N.land a0 1 =? 0).
    - agr; apply HT.
    - agr; apply HT. }
  destruct mo; cbn [de_mode]; try (destruct t; apply HT).
  - assert (H : forall A (x : option A) (f : A -> prog val), agree P (match x with Some y => f y | None => Crash PType end) (match x with Some y => f y | None => Crash PType end)) by (intros; apply agree_refl).
    destruct t; apply agree_refl.
  - destruct t; try apply agree_refl. destruct (bulk_of t); [|apply agree_refl]. apply agree_bind; [apply agree_bulk|intros; apply agree_refl].
  - destruct t; try apply agree_refl. apply agree_bind; [apply Hm|intros; apply agree_refl].
  - destruct t; try apply agree_refl; (apply agree_bind; [apply Hs|intros; apply agree_refl]).
  - destruct t; try apply agree_refl; (apply agree_bind; [apply Hs|intros; apply agree_refl]).
Qed.
Lemma agree_fields : forall opt cur tgt fs, agree P (de_fields E rec opt cur tgt fs) (de_fields E' rec' opt cur tgt fs).
Proof.
  induction fs as [|f fs IH]; cbn [de_fields]; [apply agree_refl|].
  destruct (falive cur f), (falive tgt f); agr; apply agree_mode.
Qed.
Lemma agree_vfields : forall cur fs, agree P (de_vfields E rec cur fs) (de_vfields E' rec' cur fs).
Proof.
  induction fs as [|f fs IH]; cbn [de_vfields]; [apply agree_refl|].
  destruct (falive cur f); agr; apply agree_ty.
Qed.
Lemma agree_derived : forall s, agree P (de_derived E rec s) (de_derived E' rec' s).
Proof.
  intros s. unfold de_derived. agr. unfold de_body. destruct (sent s a) as [h|]; [|agr].
  destruct (s_body s) as [fs|vs].
  - unfold de_struct_opt, struct_payload, de_struct_legacy. destruct (h_opt h), (h_idx h); agr; apply agree_fields.
  - unfold de_enum_opt, de_enum_legacy, de_variant_opt, de_variant_legacy. destruct (h_opt h).
    + destruct (calc_disc a vs); [|agr]. apply agree_bind; [agr|]. intros ts.
      destruct (find_tag _ _ _) as [[vr d]|]; [|agr].
      apply agree_bind; [destruct (v_size vr) as [[]|]; cbn [variant_buf]; agr|]. intros buf. agr; apply agree_vfields.
    + destruct (calc_disc a vs); [|agr]. apply agree_bind; [agr|]. intros d.
      destruct (find_disc _ _) as [[vr d']|]; [|agr]. agr; apply agree_fields.
Qed.
End Agree.

Lemma alloc_agree : forall E n, agree (eq PMem) (alloc E n) (alloc (set_mem None E) n).
Proof.
  intros E n bs. unfold alloc. cbn [set_mem e_mem]. destruct (e_mem E); [|left; reflexivity].
  destruct (n <=? n0); [left; reflexivity|]. right. exists PMem. split; reflexivity.
Qed.
(** Memory: with a limit, the outcome is the unlimited one or a refused allocation. *)
Lemma mem_agree : forall E d t, agree (eq PMem) (deserialize E d t) (deserialize (set_mem None E) d t).
Proof.
  intros E d t. apply (agree_ty _ E None (e_dbg E)); [apply alloc_agree|].
  induction d as [|d IH]; intros n; cbn [de_ref]; [apply agree_refl|].
  cbn [set_mem e_sch]. destruct (e_sch E n); [|apply agree_refl].
  apply (agree_derived _ E None (e_dbg E)); [apply alloc_agree|intros; apply agree_refl|exact IH].
Qed.

Lemma set_mem_same : forall E, set_mem (e_mem E) E = E.
Proof. intros []; reflexivity. Qed.
Lemma set_lim_same : forall E, set_lim (e_mem E) (e_dbg E) E = E.
Proof. intros []; reflexivity. Qed.
(** Call depth: with a smaller stack, the outcome is the same or the stack is exhausted. *)
Lemma ref_depth : forall E k d n, agree (eq PStack) (de_ref E d n) (de_ref E (d + k) n).
Proof.
  intros E k. induction d as [|d IH]; intros n; cbn [de_ref Nat.add].
  - intros bs. right. exists PStack. auto.
  - destruct (e_sch E n); [|apply agree_refl].
    pose proof (agree_derived (eq PStack) E (e_mem E) (e_dbg E)) as H. rewrite set_lim_same in H.
    apply H; [intros; apply agree_refl|intros; apply agree_refl|exact IH].
Qed.
Lemma depth_agree : forall E d d' t, (d <= d')%nat -> agree (eq PStack) (deserialize E d t) (deserialize E d' t).
Proof.
  intros E d d' t Hd. replace d' with (d + (d' - d))%nat by lia. unfold deserialize.
  pose proof (agree_ty (eq PStack) E (e_mem E) (e_dbg E)) as H. rewrite set_lim_same in H.
  apply H; [intros; apply agree_refl|]. intros n; apply ref_depth.
Qed.

(** Overflow checks: with them, the outcome is the same or a failed check. *)
Lemma dbg_agree : forall E d t, agree (eq POverflow) (deserialize (set_lim (e_mem E) true E) d t) (deserialize (set_lim (e_mem E) false E) d t).
Proof.
  intros E0 d t. set (E := set_lim (e_mem E0) true E0). change (set_lim (e_mem E0) false E0) with (set_lim (e_mem E) false E).
  assert (Ha : forall n, agree (eq POverflow) (add8 E n) (add8 (set_lim (e_mem E) false E) n)).
  { intros n bs. unfold add8. cbn [set_lim e_ub e_dbg]. change (e_dbg E) with true. destruct (n + 8 <? 2 ^ e_ub E); [left; reflexivity|].
    right. exists POverflow. split; reflexivity. }
  assert (Hl : forall n, agree (eq POverflow) (alloc E n) (alloc (set_lim (e_mem E) false E) n)) by (intros; apply agree_refl).
  apply (agree_ty _ E (e_mem E) false); [exact Hl|].
  induction d as [|d IH]; intros n; cbn [de_ref]; [apply agree_refl|].
  change (e_sch (set_lim (e_mem E) false E) n) with (e_sch E n). destruct (e_sch E n); [|apply agree_refl].
  apply (agree_derived _ E (e_mem E) false); [exact Hl|exact Ha|exact IH].
Qed.

(** [set_mem] changes nothing about encoding and typing. *)
Lemma ser_ty_mem : forall E m rec t v, ser_ty (set_mem m E) rec t v = ser_ty E rec t v.
Proof. reflexivity. Qed.
