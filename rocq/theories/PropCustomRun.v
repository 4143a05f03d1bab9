(** C93, C94 for programs with implementations written by hand (C83): stacks of any size, debug and release builds. *)

From Verif Require Import Base BaseL Prog ProgL Prim Ty Ser De Skip Agree SkipTot WalkRef Ex Custom PropCustom PropStack PropDebug.
From Verif Require Deeper Checked.
From Coq Require Import List NArith ZArith Bool Lia.
Import ListNotations.
Open Scope N_scope.

(** ** Specification *)

(** The same outcome, or a panic in [stops]. *)
Definition or_stops (stops : pan -> Prop) {A} (r r' : res A) : Prop := r = r' \/ exists x, stops x /\ r = Panic x.
(** A hand-written implementation catches no panic of the types inside it, and depends on nothing else: where theirs do the
    same or panic, so does it. *)
Definition hands_on (stops : pan -> Prop) (c : codec) : Prop :=
  (forall s s', (forall n v, or_stops stops (s n v) (s' n v)) -> forall v, or_stops stops (c_ser c s v) (c_ser c s' v))
  /\ (forall r r', (forall n bs, or_stops stops (run (r n) bs) (run (r' n) bs)) -> forall bs, or_stops stops (run (c_de c r) bs) (run (c_de c r') bs))
  /\ (forall k k' r r', (forall n bs, or_stops stops (run (k n) bs) (run (k' n) bs)) -> (forall n bs, or_stops stops (run (r n) bs) (run (r' n) bs)) ->
      forall bs, or_stops stops (run (c_skip c k r) bs) (run (c_skip c k' r') bs)).
Definition deep (x : pan) : Prop := PStack = x.
Definition failed_check (x : pan) : Prop := x = PAssert \/ x = POverflow.

(** ** Proofs: stacks *)
Lemma deep_rd : forall A (r r' : res A), or_stops deep r r' <-> Deeper.rd r r'.
Proof. intros A r r'. split; intros [->|H]; try (left; reflexivity); right; [destruct H as (x & <- & ->); reflexivity|exists PStack; split; [reflexivity|exact H]]. Qed.
Section Stacks.
Variables (E : env) (U : N -> option codec).
Hypothesis H : forall n c, U n = Some c -> hands_on deep c.
Lemma deep_ser : forall d d' n v, (d <= d')%nat -> Deeper.rd (user_ser E U d n v) (user_ser E U d' n v).
Proof.
  induction d as [|d IH]; intros d' n v Hd; [right; reflexivity|]. destruct d' as [|d']; [lia|]. cbn [user_ser].
  destruct (U n) as [c|] eqn:Eu; [apply deep_rd, (H n c Eu); intros m w; apply deep_rd, IH; lia|].
  destruct (e_sch E n) as [s|]; [|left; reflexivity]. apply Deeper.rd_derived. intros m w. apply IH. lia.
Qed.
Lemma deep_de : forall d d' n, (d <= d')%nat -> agree (eq PStack) (user_de E U d n) (user_de E U d' n).
Proof.
  induction d as [|d IH]; intros d' n Hd; [intros bs; right; exists PStack; auto|]. destruct d' as [|d']; [lia|]. cbn [user_de].
  destruct (U n) as [c|] eqn:Eu; [exact (proj1 (proj2 (H n c Eu)) _ _ (fun m => IH d' m (le_S_n _ _ Hd)))|].
  destruct (e_sch E n) as [s|]; [|apply agree_refl]. pose proof (agree_derived (eq PStack) E (e_mem E) (e_dbg E)) as K. rewrite set_lim_same in K.
  apply K; [intros; apply agree_refl|intros; apply agree_refl|]. intros m. apply IH. lia.
Qed.
Lemma deep_skip : forall d d' n, (d <= d')%nat -> agree (eq PStack) (user_skip E U d n) (user_skip E U d' n).
Proof.
  induction d as [|d IH]; intros d' n Hd; [intros bs; right; exists PStack; auto|]. destruct d' as [|d']; [lia|]. cbn [user_skip].
  assert (Hd' : (d <= d')%nat) by lia.
  destruct (U n) as [c|] eqn:Eu; [exact (proj2 (proj2 (H n c Eu)) _ _ _ _ (fun m => IH d' m Hd') (fun m => deep_de d d' m Hd'))|].
  destruct (e_sch E n) as [s|]; [|apply agree_refl]. apply agree_bind; [apply agree_refl|]. intros r. unfold sk_body.
  destruct (sent s r) as [h|]; [|apply agree_refl]. pose proof (fun m => deep_de d d' m Hd') as D. pose proof (fun m => IH d' m Hd') as K.
  destruct (s_body s) as [fs|vs]; destruct (h_opt h); try apply agree_refl; [apply agree_sk_fields; assumption|].
  unfold sk_enum_legacy. destruct (calc_disc r vs) as [ds|]; [|apply agree_refl]. apply agree_bind; [apply agree_refl|]. intros x.
  destruct (find_disc x ds) as [[vr ?]|]; [apply agree_sk_fields; assumption|apply agree_refl].
Qed.
End Stacks.

(** ** Proofs: builds *)
Section Builds.
Variables (E : env) (U : N -> option codec).
Hypothesis H : forall n c, U n = Some c -> hands_on failed_check c.
Lemma check_ser : forall d n v, Checked.rd (user_ser (debug E) U d n v) (user_ser (release E) U d n v).
Proof.
  induction d as [|d IH]; intros n v; [left; reflexivity|]. cbn [user_ser].
  destruct (U n) as [c|] eqn:Eu; [exact (proj1 (H n c Eu) _ _ IH v)|].
  change (e_sch (release E) n) with (e_sch (debug E) n). destruct (e_sch (debug E) n) as [s|]; [|left; reflexivity]. apply (Checked.rd_derived E). exact IH.
Qed.
Lemma check_de : forall d n, agree Checked.check (user_de (debug E) U d n) (user_de (release E) U d n).
Proof.
  induction d as [|d IH]; intros n; [apply agree_refl|]. cbn [user_de].
  destruct (U n) as [c|] eqn:Eu; [exact (proj1 (proj2 (H n c Eu)) _ _ IH)|].
  change (e_sch (release E) n) with (e_sch (debug E) n). destruct (e_sch (debug E) n) as [s|]; [|apply agree_refl].
  apply (agree_derived Checked.check (debug E) (e_mem E) false); [intros k; apply (Checked.chk_alloc E)|intros k; apply (Checked.chk_add8 E)|exact IH].
Qed.
Lemma check_skip : forall d n, agree Checked.check (user_skip (debug E) U d n) (user_skip (release E) U d n).
Proof.
  induction d as [|d IH]; intros n; [apply agree_refl|]. cbn [user_skip].
  destruct (U n) as [c|] eqn:Eu; [exact (proj2 (proj2 (H n c Eu)) _ _ _ _ IH (check_de d))|].
  change (e_sch (release E) n) with (e_sch (debug E) n). destruct (e_sch (debug E) n) as [s|]; [|apply agree_refl].
  apply agree_bind; [apply agree_refl|]. intros r. unfold sk_body.
  destruct (sent s r) as [h|]; [|apply agree_refl]. pose proof (check_de d) as D.
  destruct (s_body s) as [fs|vs]; destruct (h_opt h); [apply agree_refl|apply (Checked.chk_sk_fields E); assumption|apply agree_refl|].
  unfold sk_enum_legacy. destruct (calc_disc r vs) as [ds|]; [|apply agree_refl]. apply agree_bind; [apply agree_refl|]. intros x.
  destruct (find_disc x ds) as [[vr ?]|]; [apply (Checked.chk_sk_fields E); assumption|apply agree_refl].
Qed.
End Builds.

(** ** C93, C94 *)
Theorem C93_hand_written : forall E U d d' t, (d <= d')%nat -> (forall n c, U n = Some c -> hands_on (fun x => PStack = x) c) ->
  (forall v, or_deep (u_to_vec E U d t v) (u_to_vec E U d' t v))
  /\ (forall bs, or_deep (run (u_read E U d t) bs) (run (u_read E U d' t) bs))
  /\ (forall bs, or_deep (run (u_skip E U d t) bs) (run (u_skip E U d' t) bs)).
Proof.
  intros E U d d' t Hd H. split; [|split].
  - intros v. apply Deeper.rd_bytes, Deeper.rd_ty. intros n w. apply deep_ser; assumption.
  - intros bs. apply Deeper.rd_run. pose proof (agree_ty (eq PStack) E (e_mem E) (e_dbg E)) as K. rewrite set_lim_same in K.
    apply K; [intros; apply agree_refl|]. intros n. apply deep_de; assumption.
  - intros bs. apply Deeper.rd_run. apply agree_sk_ty; intros n; [apply deep_skip|apply deep_de]; assumption.
Qed.
Theorem C94_hand_written : forall E U d t, (forall n c, U n = Some c -> hands_on (fun x => x = PAssert \/ x = POverflow) c) ->
  (forall v, or_check (u_to_vec (debug E) U d t v) (u_to_vec (release E) U d t v))
  /\ (forall bs, or_check (run (u_read (debug E) U d t) bs) (run (u_read (release E) U d t) bs))
  /\ (forall bs, or_check (run (u_skip (debug E) U d t) bs) (run (u_skip (release E) U d t) bs)).
Proof.
  intros E U d t H. split; [|split].
  - intros v. apply rd_check, Checked.rd_bytes, (Checked.rd_ty E). apply check_ser. exact H.
  - intros bs. apply rd_check, Checked.rd_run, (Checked.chk_de_ty E). apply check_de. exact H.
  - intros bs. apply rd_check, Checked.rd_run, (Checked.chk_sk_ty E); [apply check_skip|apply check_de]; exact H.
Qed.
(** The bitmaps, the documented implementation and the usual one for several fields. *)
Theorem C93_usual : forall stops n m enc dec (ok : val -> Prop),
  hands_on stops (my_type n) /\ hands_on stops (two_fields n m) /\ hands_on stops (foreign enc dec ok).
Proof.
  intros stops n m enc dec ok. split; [|split].
  - split; [intros s s' Hs; exact (Hs n)|]. split; [intros r r' Hr; exact (Hr n)|intros k k' r r' Hk Hr; exact (Hk n)].
  - split; [|split].
    + intros s s' Hs v. cbn [two_fields c_ser]. destruct v as [| | | |a b| |]; try (left; reflexivity).
      unfold sbind. destruct (Hs n a) as [->|(x & Hx & ->)]; [|right; exists x; split; [exact Hx|reflexivity]].
      destruct (s' n a) as [l|e|x]; [|left; reflexivity..]. destruct (Hs m b) as [->|(x & Hx & ->)]; [left; reflexivity|right; exists x; split; [exact Hx|reflexivity]].
    + intros r r' Hr. change (agree stops (c_de (two_fields n m) r) (c_de (two_fields n m) r')). cbn [two_fields c_de].
      apply agree_bind; [exact (Hr n)|]. intros a. apply agree_bind; [exact (Hr m)|]. intros c. apply agree_refl.
    + intros k k' r r' Hk Hr. change (agree stops (c_skip (two_fields n m) k r) (c_skip (two_fields n m) k' r')). cbn [two_fields c_skip].
      apply agree_bind; [exact (Hk n)|]. intros a. exact (Hk m).
  - repeat split; intros; left; reflexivity.
Qed.

(** ** Example: the program of PropCustom.v. *)
Example C93_hand_written_case :
  (forall stops n c, mixed n = Some c -> hands_on stops c)
  /\ u_to_vec (only row1) mixed 2 (TVec (TRef 4)) a_list = Panic PStack
  /\ u_to_vec (only row1) mixed 4 (TVec (TRef 4)) a_list = Ok a_bytes
  /\ run (u_read (only row1) mixed 2 (TVec (TRef 4))) a_bytes = Panic PStack
  /\ run (u_read (only row1) mixed 4 (TVec (TRef 4))) a_bytes = Ok (a_list, [])
  /\ run (u_read (only row1) mixed 9 (TVec (TRef 4))) a_bytes = Ok (a_list, [])
  /\ run (u_read (debug (only row1)) mixed 4 (TVec (TRef 4))) a_bytes = Ok (a_list, [])
  /\ run (u_read (release (only row1)) mixed 4 (TVec (TRef 4))) a_bytes = Ok (a_list, []).
Proof.
  split.
  { intros stops n c Hc. unfold mixed in Hc. destruct (n =? 2); [inversion Hc; apply (C93_usual stops 1 2)|].
    destruct (n =? 3); [inversion Hc; apply (C93_usual stops 1 2 bits_enc bits_dec bits_ok)|].
    destruct (n =? 4); [inversion Hc; apply (C93_usual stops 3 2 bits_enc bits_dec bits_ok)|discriminate]. }
  repeat split; vm_compute; reflexivity.
Qed.

Print Assumptions C93_hand_written.
Print Assumptions C94_hand_written.
Print Assumptions C93_usual.
