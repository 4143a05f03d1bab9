(** C83: skipping types with implementations written by hand, on slices and with checks. *)

From Verif Require Import Base BaseL Prog ProgL Prim SliceReader Ty Ser De Skip SkipL Typed WalkRef Ex Custom CustomSpec CustomSkip PropSkip PropCustom.
From Coq Require Import List NArith ZArith Bool Lia.
Import ListNotations.
Open Scope N_scope.

(** ** Specification *)

(** On a slice reader [m] does what [p] does on the bytes that remain: the same outcome, and the reader is behind what [p] read. *)
Definition does_as {A} (m : sm A) (p : prog A) : Prop :=
  forall bs orig, m (mkSR bs orig) = rmap (fun q => (fst q, mkSR (snd q) orig)) (run p bs).
(** A hand-written [skip_revisioned_slice] does what the [skip_revisioned] of its type does, if those of the types inside it do. *)
Definition slices_alike (c : codec) (o : (N -> sm unit) -> (N -> prog unit) -> (N -> prog val) -> sm unit) : Prop :=
  forall slice_in skip_in de_in, (forall n, does_as (slice_in n) (skip_in n)) -> does_as (o slice_in skip_in de_in) (c_skip c skip_in de_in).
(** A hand-written [skip_check_revisioned] accepts what its reader reads, if those of the types inside it do. *)
Definition checks_what_reads (c : codec) (k : (N -> prog unit) -> (N -> prog val) -> prog unit) : Prop :=
  forall de_in check_in, (forall n bs v rest, run (de_in n) bs = Ok (v, rest) -> run (check_in n) bs = Ok (tt, rest)) ->
  forall bs v rest, run (c_de c de_in) bs = Ok (v, rest) -> run (k check_in de_in) bs = Ok (tt, rest).
(** ... and rejects what its reader rejects, with the same error. *)
Definition checks_as_reads (c : codec) (k : (N -> prog unit) -> (N -> prog val) -> prog unit) : Prop :=
  forall de_in check_in, (forall n bs, run (check_in n) bs = rmap (fun p => (tt, snd p)) (run (de_in n) bs)) ->
  forall bs, run (k check_in de_in) bs = rmap (fun p => (tt, snd p)) (run (c_de c de_in) bs).

(** ** Proofs *)
Lemma as_follows : forall A (m : sm A) p, does_as m p <-> follows m p.
Proof.
  intros A m p. split; intros H.
  - intros [bs orig]. rewrite H. cbn [sr_inner sr_orig]. destruct (run p bs) as [[a r]|e|x]; reflexivity.
  - intros bs orig. rewrite (H (mkSR bs orig)). cbn [sr_inner sr_orig]. destruct (run p bs) as [[a r]|e|x]; reflexivity.
Qed.
Lemma slice_follows : forall E U O d t, (forall n c o, U n = Some c -> O n = Some o -> slices_alike c o) ->
  follows (ss_ty E (user_slice E U O d) (user_de E U d) t) (u_skip E U d t).
Proof.
  intros E U O d t H. apply fol_ty. induction d as [|d IH]; intros n; cbn [user_slice user_skip]; [apply fol_panic|].
  destruct (U n) as [c|] eqn:Eu.
  - destruct (O n) as [o|] eqn:Eo; [|apply fol_run]. apply as_follows, (H n c o Eu Eo). intros m. apply as_follows, IH.
  - destruct (e_sch E n) as [s|]; [|apply fol_panic]. apply fol_derived. exact IH.
Qed.

(** ** C83 *)
Theorem C83_skip_slice : forall E U O d t bs, (forall n c o, U n = Some c -> O n = Some o -> slices_alike c o) ->
  u_skip_slice E U O d t bs = rmap (fun p => len bs - len (snd p)) (run (u_skip E U d t) bs).
Proof.
  intros E U O d t bs H. unfold u_skip_slice. rewrite (slice_follows E U O d t H (sr_new bs)). cbn [sr_new sr_inner sr_orig].
  destruct (run (u_skip E U d t) bs) as [[a r]|e|x]; reflexivity.
Qed.
(** What is written is skipped whole. *)
Theorem C83_skip_slice_encoding : forall E U O d t v b rest,
  wf_env E -> e_mem E = None -> u_sizes_honest E U -> spec_built E ->
  (forall n c, U n = Some c -> reads_back c) -> (forall n c, U n = Some c -> skips_alike (2 ^ e_ub E) c) ->
  (forall n c o, U n = Some c -> O n = Some o -> slices_alike c o) ->
  u_ok E U d t v -> u_to_vec E U d t v = Ok b -> len (b ++ rest) < 2 ^ e_ub E -> u_skip_slice E U O d t (b ++ rest) = Ok (len b).
Proof.
  intros E U O d t v b rest W Hm Hh SB H1 H2 H3 Hw Hs Hl. rewrite (C83_skip_slice E U O d t _ H3).
  rewrite (C83_skip E U d t (b ++ rest) v rest SB H2 Hl (C83_round_trip E U d t v b rest W Hm Hh H1 Hw Hs)). cbn [rmap snd]. f_equal. rewrite len_app. lia.
Qed.
Theorem C83_skip_check_accepts : forall E U K d t bs v rest,
  (forall n c, U n = Some c -> exists k, K n = Some k /\ checks_what_reads c k) ->
  run (u_read E U d t) bs = Ok (v, rest) -> run (u_skip_check E U K d t) bs = Ok (tt, rest).
Proof.
  intros E U K d t bs v rest H R.
  assert (Q : forall d n bs v rest, run (user_de E U d n) bs = Ok (v, rest) -> run (user_check E U K d n) bs = Ok (tt, rest)).
  { clear - H. induction d as [|d IH]; intros n bs v rest R; cbn [user_de user_check] in *; [discriminate|].
    destruct (U n) as [c|] eqn:Eu.
    - destruct (H n c Eu) as (k & -> & Hk). exact (Hk _ _ IH bs v rest R).
    - destruct (e_sch E n) as [s|]; [|discriminate]. rewrite run_drop, R. reflexivity. }
  assert (C : covers (len bs + 1) (u_read E U d t) (u_skip_check E U K d t)); [|eapply C; [lia|exact R]].
  generalize (len bs + 1). clear - Q. intros M. unfold u_read, u_skip_check. induction t; cbn [user_check_ty]; try apply cov_drop.
  - cbn [de_ty]. apply cov_then; [assumption|]. intros. apply cov_ret. assumption.
  - cbn [de_ty]. apply cov_ret, cov_rep. assumption.
  - intros bs v r Hb H. cbn [de_ty] in *. rewrite ?run_bind in *.
    destruct (run (de_int (e_fw E) (e_ub E) U64) bs) as [[s y]|e|x]; try discriminate. cbn [run]. rewrite ?run_bind in *.
    destruct (run (de_int (e_fw E) (e_ub E) U32) y) as [[k z]|e|x]; try discriminate. cbn [run].
    destruct (dur_new s k); cbn [of_res] in H; rewrite ?run_bind in H; cbn [run] in H; try discriminate.
    rewrite run_of_res in H. destruct (time_add E a); cbn in H; try discriminate. inversion H; subst. reflexivity.
  - intros bs v r _ R. exact (Q d n bs v r R).
Qed.
(** Apart from times directly in tuples and arrays (C14). *)
Theorem C83_skip_check : forall E U K d t bs, no_time t = true ->
  (forall n c, U n = Some c -> exists k, K n = Some k /\ checks_as_reads c k) ->
  run (u_skip_check E U K d t) bs = rmap (fun p => (tt, snd p)) (run (u_read E U d t) bs)
  /\ u_skip_check_slice E U K d t bs = rmap (fun p => len bs - len (snd p)) (run (u_read E U d t) bs).
Proof.
  intros E U K d t bs Ht H.
  assert (Q : forall d n bs, run (user_check E U K d n) bs = dropped (run (user_de E U d n) bs)).
  { clear - H. induction d as [|d IH]; intros n bs; cbn [user_de user_check]; [reflexivity|].
    destruct (U n) as [c|] eqn:Eu.
    - destruct (H n c Eu) as (k & -> & Hk). exact (Hk _ _ IH bs).
    - destruct (e_sch E n) as [s|]; [apply run_drop|reflexivity]. }
  assert (R : run (u_skip_check E U K d t) bs = dropped (run (u_read E U d t) bs)).
  { unfold u_skip_check, u_read. clear H. revert bs. induction t; cbn [user_check_ty]; try (intros; apply run_drop).
    - reflexivity.
    - cbn [no_time] in Ht. apply andb_prop in Ht. destruct Ht as [H1 H2]. intros bs. cbn [de_ty]. rewrite !run_bind, IHt1 by assumption.
      destruct (run (de_ty E (user_de E U d) t1) bs) as [[a r]|e|x]; try reflexivity. cbn [dropped rmap snd]. rewrite IHt2 by assumption.
      rewrite run_bind. destruct (run (de_ty E (user_de E U d) t2) r) as [[b r']|e|x]; reflexivity.
    - cbn [no_time] in Ht. intros bs. cbn [de_ty]. rewrite (rep_drop _ n (de_ty E (user_de E U d) t)) by auto.
      rewrite run_bind. destruct (run (rep n (de_ty E (user_de E U d) t)) bs) as [[l r]|e|x]; reflexivity.
    - discriminate.
    - intros bs. apply Q. }
  split; [exact R|]. unfold u_skip_check_slice. rewrite R. destruct (run (u_read E U d t) bs) as [[a r]|e|x]; reflexivity.
Qed.
(** With no hand-written types these are the functions of C13 and C14. *)
Theorem C83_skips_derived_only : forall E O K d t bs,
  u_skip_slice E (fun _ => None) O d t bs = skip_slice E d t bs
  /\ (no_time t = true -> run (u_skip_check E (fun _ => None) K d t) bs = run (skip_check E d t) bs).
Proof.
  intros E O K d t bs. destruct (C83_derived_only E d t) as (_ & R & S & _). split.
  - rewrite C83_skip_slice by discriminate. rewrite S. unfold skip_slice. rewrite (fol_skip E d t (sr_new bs)). cbn [sr_new sr_inner sr_orig].
    destruct (run (skip E d t) bs) as [[a r]|e|x]; reflexivity.
  - intros Ht. rewrite (C14_skip_check_is_deserialize E d t bs Ht), <- R. apply (C83_skip_check E (fun _ => None) K d t bs Ht). discriminate.
Qed.
(** The bitmaps, the documented implementation and the usual one for several fields, each in the obvious way. *)
Theorem C83_usual_skips : forall n m enc dec (ok : val -> Prop),
  slices_alike (my_type n) (fun s _ _ => s n) /\ checks_as_reads (my_type n) (fun k _ => k n)
  /\ slices_alike (two_fields n m) (fun s _ _ => sm_bind (s n) (fun _ => s m)) /\ checks_as_reads (two_fields n m) (fun k _ => k n ;;; k m)
  /\ checks_as_reads (foreign enc dec ok) (fun _ _ => map_err (fun _ => EDeserialize MInner) dec ;;; Ret tt).
Proof.
  intros n m enc dec ok. split; [intros s k r H; exact (H n)|]. split; [intros r k H bs; exact (H n bs)|]. split.
  - intros s k r H. apply as_follows. cbn [two_fields c_skip]. apply fol_bind; [apply as_follows, H|]. intros _. apply as_follows, H.
  - split.
    + intros r k H bs. cbn [two_fields c_de]. rewrite !run_bind, H. destruct (run (r n) bs) as [[a x]|e|x]; cbn [rmap snd]; try reflexivity.
      rewrite H, run_bind. destruct (run (r m) x) as [[b y]|e|y]; reflexivity.
    + intros r k H bs. cbn [foreign c_de]. apply run_drop.
Qed.

(** ** Example: the program of PropCustom.v. *)
Definition mixed_o (n : N) : option ((N -> sm unit) -> (N -> prog unit) -> (N -> prog val) -> sm unit) :=
  if n =? 3 then Some (fun s _ _ => sm_bind (s 1) (fun _ => s 2)) else None.
Definition mixed_k (n : N) : option ((N -> prog unit) -> (N -> prog val) -> prog unit) :=
  if n =? 2 then Some (fun _ _ => map_err (fun _ => EDeserialize MInner) bits_dec ;;; Ret tt)
  else if n =? 3 then Some (fun k _ => k 1 ;;; k 2) else if n =? 4 then Some (fun k _ => k 3) else None.
Example C83_skips_case :
  (forall n c o, mixed n = Some c -> mixed_o n = Some o -> slices_alike c o)
  /\ (forall n c, mixed n = Some c -> exists k, mixed_k n = Some k /\ checks_as_reads c k)
  /\ u_skip_slice (only row1) mixed mixed_o 4 (TVec (TRef 4)) (a_bytes ++ [5]) = Ok (len a_bytes)
  /\ u_skip_check_slice (only row1) mixed mixed_k 4 (TVec (TRef 4)) (a_bytes ++ [5]) = Ok (len a_bytes)
  /\ u_skip_check_slice (only row1) mixed mixed_k 1 (TPair (TRef 2) (TInt U8)) [1; 0; 0; 0] = Err (EDeserialize MInner).
Proof.
  split.
  { intros n c o Hc Ho. unfold mixed, mixed_o in *. destruct (N.eqb_spec n 2) as [->|]; [discriminate|]. destruct (n =? 3); [|discriminate].
    inversion Hc; inversion Ho. apply (C83_usual_skips 1 2 bits_enc bits_dec bits_ok). }
  split.
  { intros n c Hc. unfold mixed, mixed_k in *.
    destruct (n =? 2); [inversion Hc; eexists; split; [reflexivity|apply (C83_usual_skips 1 2)]|].
    destruct (n =? 3); [inversion Hc; eexists; split; [reflexivity|apply (C83_usual_skips 1 2 bits_enc bits_dec bits_ok)]|].
    destruct (n =? 4); [inversion Hc; eexists; split; [reflexivity|apply (C83_usual_skips 3 2 bits_enc bits_dec bits_ok)]|discriminate]. }
  repeat split; vm_compute; reflexivity.
Qed.

Print Assumptions C83_skip_slice.
Print Assumptions C83_skip_slice_encoding.
Print Assumptions C83_skip_check_accepts.
Print Assumptions C83_skip_check.
Print Assumptions C83_skips_derived_only.
Print Assumptions C83_usual_skips.
