(** C05, C06: behaviour with arbitrary readers and writers. *)

From Verif Require Import Base BaseL Prog ProgL Prim Ty Ser De Typed Mig Parts PartsL RtL RtId SerL Ex.
From Coq Require Import List NArith ZArith Bool Lia.
Import ListNotations.
Open Scope N_scope.

(** C05.  [sch] is what successive calls to [read] do: return some bytes (any positive number up to
    what is asked and left), or fail with [Interrupted].  Result and unread rest do not depend on
    it. *)
Theorem C05_fragmentation : forall E d t sch bs,
  (forall e, In e sch -> e <> IoFail) ->
  run_sched (deserialize E d t) sch bs = run (deserialize E d t) bs.
Proof. intros E d t sch bs H. apply run_sched_run. apply Forall_forall. exact H. Qed.
(** A reader that fails for another reason part way never makes the decoder return a different
    value. *)
Theorem C05_failing_reader : forall E d t sch bs v rest,
  run_sched (deserialize E d t) sch bs = Ok (v, rest) -> run (deserialize E d t) bs = Ok (v, rest).
Proof. intros E d t sch bs v rest. apply run_sched_ok. Qed.

Example C05_case :
  run_sched (deserialize new 1 (TRef 1)) [Give 0; Interrupted; Give 1; Interrupted; Interrupted; Give 0]
            [1; 3; 97; 195; 169; 41; 0; 0; 0; 2; 3; 0; 255; 255; 9] =
  Ok (VSeq [a_str [97; 195; 169]; VSeq [VInt 3; VInt 65535]; VSeq []; VInt 42; VVar 0 []], [9]).
Proof. vm_compute. reflexivity. Qed.

(** C06.  [sch]: what successive calls to [write] do.  [inl x]: to_writer returned Ok and the writer
    holds [x]; [inr x]: it returned an IO error with [x] delivered. *)
Lemma ops_q : forall E d t v ops (T : ty -> val -> Prop) (Q : wop -> Prop),
  wf_env E -> wt E d t v -> every E T d t v ->
  (forall b, wfb b -> Q (WAll b)) -> (forall w, Q w -> wfb (wop_bytes w)) ->
  (forall x, T TBool x -> Q (WOnce [0]) /\ Q (WOnce [1])) ->
  to_writer E d t v = Ok ops -> Forall Q ops.
Proof.
  intros E d t v ops T Q W Hw Ht Q1 Q2 Q3 Hs.
  pose proof (sspec_writer (fun _ => True) (fun _ => True) T (fun _ _ _ => I) (fun _ _ _ _ => I) Q Q1 Q2 E W Q3 (fun _ _ _ _ _ _ => I) (or_introl I) d t v Hw Ht) as H.
  rewrite Hs in H. exact H.
Qed.

Definition no_bool (t : ty) (_ : val) : Prop := t <> TBool.

(** Values that contain no bool (in particular all values of types without bool). *)
Theorem C06_delivers_all : forall E d t v ops sch x,
  wf_env E -> wt E d t v -> every E no_bool d t v ->
  to_writer E d t v = Ok ops -> write_ops ops sch [] = inl x -> to_vec E d t v = Ok x.
Proof.
  intros E d t v ops sch x W Hw Hb Hs Hx.
  assert (H : Forall (fun w => match w with WAll b => wfb b | WOnce _ => False end) ops).
  { eapply (ops_q E d t v ops no_bool _ W Hw Hb); [auto| | |exact Hs]; [intros [b|b] Hq; [exact Hq|destruct Hq]|]. intros y Hy. exfalso. apply Hy. reflexivity. }
  unfold to_vec, ser_bytes. rewrite Hs. cbn [rmap]. f_equal. symmetry. eapply (write_ops_ok ops sch []); [|exact Hx].
  eapply Forall_impl; [|exact H]. intros [b|b] Hq; [exact I|destruct Hq].
Qed.
(** On an IO error what was delivered is a prefix of the encoding. *)
Theorem C06_error_prefix : forall E d t v ops sch x,
  wf_env E -> wt E d t v -> every E no_bool d t v ->
  to_writer E d t v = Ok ops -> write_ops ops sch [] = inr x -> exists y, to_vec E d t v = Ok (x ++ y).
Proof.
  intros E d t v ops sch x W Hw Hb Hs Hx.
  assert (H : Forall (fun w => match w with WAll b => wfb b | WOnce _ => False end) ops).
  { eapply (ops_q E d t v ops no_bool _ W Hw Hb); [auto| | |exact Hs]; [intros [b|b] Hq; [exact Hq|destruct Hq]|]. intros y Hy. exfalso. apply Hy. reflexivity. }
  destruct (write_ops_err ops sch [] x) as (u & w & -> & Hu); [|exact Hx|].
  - eapply Forall_impl; [|exact H]. intros [b|b] Hq; [exact I|destruct Hq].
  - exists w. unfold to_vec, ser_bytes. rewrite Hs. cbn [rmap]. rewrite Hu. reflexivity.
Qed.

(** Every value, with writers that never answer [Ok(0)] to a non-empty buffer. *)
Lemma write_ops_pos : forall l sch acc x,
  Forall (fun w => match w with WAll _ => True | WOnce b => len b = 1 end) l ->
  ~ In WZero sch -> write_ops l sch acc = inl x -> x = acc ++ out l.
Proof.
  assert (T : forall sch b acc x s, write_all sch b acc = inl (x, s) -> ~ In WZero sch -> ~ In WZero s).
  { induction sch as [|[|k| |] sch IH]; intros [|c b] acc x s H Hn; cbn [write_all] in H; try discriminate;
      try (inversion H; subst; assumption).
    - eapply IH; [exact H|]. intros Hi. apply Hn. right. exact Hi.
    - destruct (split_at (k + 1) (c :: b)) as [[u w]|].
      + eapply IH; [exact H|]. intros Hi. apply Hn. right. exact Hi.
      + inversion H; subst. intros Hi. apply Hn. right. exact Hi. }
  induction l as [|[b|b] l IH]; intros sch acc x Hl Hn H; cbn [write_ops] in H.
  - inversion H; subst. cbn. rewrite app_nil_r. reflexivity.
  - destruct (write_all sch b acc) as [[y s]|y] eqn:E; [|discriminate].
    pose proof (T _ _ _ _ _ E Hn). apply write_all_ok in E. subst y. inversion Hl; subst. apply IH in H; [|assumption|assumption].
    subst x. unfold out; cbn [flat_map wop_bytes]; fold (out l). rewrite app_assoc. reflexivity.
  - inversion Hl as [|? ? Hb Hl']; subst. destruct b as [|c [|c' b]]; unfold len in Hb; cbn [length] in Hb; try lia.
    assert (exists s, write_once sch [c] acc = inl (acc ++ [c], s) /\ ~ In WZero s) as (s & Es & Hn').
    { unfold write_once in *. destruct sch as [|[|k| |] s]; try discriminate.
      - exists []. split; [reflexivity|]. intros [].
      - assert (Hn' : ~ In WZero s) by (intros Hi; apply Hn; right; exact Hi).
        destruct (split_at (k + 1) [c]) as [[u w]|] eqn:Es; [|eauto].
        apply split_at_some in Es. destruct Es as [Eu El]. destruct u as [|a [|a' u]]; unfold len in El; cbn [length] in El; try lia.
        + cbn [app] in Eu. injection Eu as -> Ew. eauto.
        + cbn [app] in Eu. discriminate Eu.
      - exfalso. apply Hn. left. reflexivity. }
    rewrite Es in H. apply IH in H; [|assumption|assumption]. subst x. unfold out; cbn [flat_map wop_bytes]; fold (out l). rewrite <- app_assoc. reflexivity.
Qed.
Theorem C06_delivers_all_positive_writers : forall E d t v ops sch x,
  wf_env E -> wt E d t v -> ~ In WZero sch ->
  to_writer E d t v = Ok ops -> write_ops ops sch [] = inl x -> to_vec E d t v = Ok x.
Proof.
  intros E d t v ops sch x W Hw Hn Hs Hx.
  assert (H : Forall (fun w => match w with WAll b => wfb b | WOnce b => wfb b /\ len b = 1 end) ops).
  { eapply (ops_q E d t v ops (fun _ _ => True) _ W Hw); [apply every_true; auto|auto| | |exact Hs].
    - intros [b|b] Hq; [exact Hq|apply Hq].
    - intros y _. repeat constructor. }
  unfold to_vec, ser_bytes. rewrite Hs. cbn [rmap]. f_equal. symmetry. eapply (write_ops_pos ops sch []); [|exact Hn|exact Hx].
  eapply Forall_impl; [|exact H]. intros [b|b] Hq; [exact I|apply Hq].
Qed.
(** Without that restriction the claim is false: a full [&mut [u8]] answers [Ok(0)], and
    [bool::serialize_revisioned] (primitives.rs:146) ignores the count. *)
Theorem C06_bool_refuted : exists E d t v ops sch x b,
  wf_env E /\ wt E d t v /\ to_writer E d t v = Ok ops /\ write_ops ops sch [] = inl x
  /\ to_vec E d t v = Ok b /\ x <> b.
Proof.
  exists new, 0%nat, (TPair (TInt U8) TBool), (VPair (VInt 7) (VBool true)), [WAll [7]; WOnce [1]], [WTake 0; WZero], [7], [7; 1].
  split; [apply wf_new|]. split; [apply wtb_ok; vm_compute; reflexivity|]. repeat split; try reflexivity. discriminate.
Qed.

Example C06_case : exists ops, to_writer new 2 (TRef 1) u_new = Ok ops
  /\ write_ops ops [WInterrupted; WTake 0; WTake 3; WInterrupted; WTake 100] [] = inl (match to_vec new 2 (TRef 1) u_new with Ok b => b | _ => [] end)
  /\ every new no_bool 2 (TRef 1) u_new.
Proof.
  eexists. split; [vm_compute; reflexivity|]. split; [vm_compute; reflexivity|].
  apply (every_types new (fun t => match t with TBool => false | _ => true end)).
  - intros t v H Ht. subst. discriminate.
  - apply wf_new.
  - reflexivity.
  - intros n s. cbn [new ex_env e_sch]. unfold sch3. destruct (n =? 1); [|destruct (n =? 2)]; intros H; inversion H; reflexivity.
  - apply wt_new.
Qed.

Print Assumptions C05_fragmentation.
Print Assumptions C05_failing_reader.
Print Assumptions C06_delivers_all.
Print Assumptions C06_error_prefix.
Print Assumptions C06_delivers_all_positive_writers.
Print Assumptions C06_bool_refuted.
