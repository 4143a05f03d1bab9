(** C05: readers that fail part way, and skipping from readers that deliver their data in pieces. *)

From Verif Require Import Base BaseL Prog ProgL Prim Ty Ser De SliceReader Skip Ex.
From Coq Require Import List NArith ZArith Bool Lia.
Import ListNotations.
Open Scope N_scope.

Lemma read_exact_zero : forall sch bs acc, read_exact sch 0 bs acc <> None.
Proof. intros [|[|k|] sch] bs acc; discriminate. Qed.
Lemma failing_truncates : forall A (p : prog A) sch bs,
  run_sched p sch bs = run p bs \/ exists q s e, bs = q ++ s /\ run_sched p sch bs = Err e /\ run p q = Err e.
Proof.
  intros A p. induction p as [a|e|x|n e k IH]; intros sch bs; cbn [run_sched run]; try (left; reflexivity).
  destruct (read_exact sch n bs []) as [[[x y] sch']|] eqn:Er.
  - apply read_exact_some in Er. destruct Er as (z & Hz & Hs & _). rewrite Hs. cbn [app] in Hz. subst z. destruct (IH x sch' y) as [->|(q & s & e' & -> & -> & Hq)]; [left; reflexivity|].
    right. apply split_at_some in Hs. destruct Hs as [-> Hn]. exists (x ++ q), s, e'. split; [rewrite app_assoc; reflexivity|]. split; [reflexivity|].
    rewrite <- Hn, split_at_app by reflexivity. exact Hq.
  - right. exists [], bs, e. split; [reflexivity|]. split; [reflexivity|]. destruct n as [|m]; [exfalso; exact (read_exact_zero _ _ _ Er)|]. reflexivity.
Qed.

(** Whatever a reader does, errors other than Interrupted included: decoding gives what it gives on all the bytes, or
    the error it gives when the input ends where the reader failed (or before). *)
Theorem C05_failing_is_truncation : forall E d t sch bs,
  run_sched (deserialize E d t) sch bs = run (deserialize E d t) bs
  \/ exists q s e, bs = q ++ s /\ run_sched (deserialize E d t) sch bs = Err e /\ run (deserialize E d t) q = Err e.
Proof. intros E d t. apply failing_truncates. Qed.
(** Skipping, checked or not, likewise. *)
Theorem C05_skip : forall E d t sch bs,
  ((forall e, In e sch -> e <> IoFail) ->
     run_sched (skip E d t) sch bs = run (skip E d t) bs /\ run_sched (skip_check E d t) sch bs = run (skip_check E d t) bs)
  /\ (run_sched (skip E d t) sch bs = run (skip E d t) bs
      \/ exists q s e, bs = q ++ s /\ run_sched (skip E d t) sch bs = Err e /\ run (skip E d t) q = Err e)
  /\ (run_sched (skip_check E d t) sch bs = run (skip_check E d t) bs
      \/ exists q s e, bs = q ++ s /\ run_sched (skip_check E d t) sch bs = Err e /\ run (skip_check E d t) q = Err e).
Proof.
  intros E d t sch bs. split; [|split; apply failing_truncates]. intros H. split; apply run_sched_run; apply Forall_forall; exact H.
Qed.

(** A reader that fails after five bytes of a string of five. *)
Example C05_failing_case : run_sched (deserialize new 0 TStr) [Give 9; Give 3; IoFail] [5; 97; 98; 99; 100; 101] = Err EIo
  /\ run (deserialize new 0 TStr) [5; 97; 98; 99; 100] = Err EIo
  /\ run_sched (deserialize new 0 TStr) [Give 9; Give 3; Interrupted; Give 0; IoFail] [5; 97; 98; 99; 100; 101] = run (deserialize new 0 TStr) [5; 97; 98; 99; 100; 101]
  /\ run_sched (skip new 0 TStr) [Give 0; Interrupted; Give 2; Give 3] [5; 97; 98; 99; 100; 101; 7] = Ok (tt, [7])
  /\ run_sched (skip_check new 0 TStr) [Give 0; IoFail] [5; 97; 98; 99; 100; 101; 7] = Err EIo.
Proof. vm_compute. repeat split. Qed.

Print Assumptions C05_failing_is_truncation.
Print Assumptions C05_skip.
