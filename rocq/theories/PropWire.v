(** C01-C04: the wire format is a faithful, self-delimiting, prefix-free code. *)

From Verif Require Import Base BaseL Prog ProgL Prim Ty Ser De Typed Parts Mig RtL RtId Agree Spec EofL Cross Ex.
From Coq Require Import List NArith ZArith Bool Lia.
Import ListNotations.
Open Scope N_scope.

(** [wf_env E]: the program's type declarations are ones the derive macro accepts, its [Ord]
    instances are total orders, ...; [wt E d t v]: [v] is a value of type [t] (nesting of derived
    types at most [d]); [sizes_honest E]: [size = "fixed(N)"] declarations are true or checked.
    The decoder is given any recursion depth [d'] the value needs, and any memory limit. *)

(** C01 *)
Theorem C01_round_trip : forall E d d' t v b,
  wf_env E -> sizes_honest E -> wt E d t v -> (d <= d')%nat ->
  to_vec E d t v = Ok b -> or_oom E (from_slice E d' t b) (Ok v).
Proof.
  intros E d d' t v b W Hh Hw Hd Hs. unfold from_slice.
  destruct (same E d d' t v b [] W Hh Hw Hd Hs) as [H|[Hm H]]; rewrite app_nil_r in H; rewrite H; [left|right]; auto.
Qed.

(** C02 *)
Theorem C02_self_delimiting : forall E d d' t v b rest,
  wf_env E -> sizes_honest E -> wt E d t v -> (d <= d')%nat ->
  to_vec E d t v = Ok b ->
  or_oom E (run (deserialize E d' t) (b ++ rest)) (Ok (v, rest)).
Proof. intros. eapply same; eauto. Qed.

Theorem C02_back_to_back : forall E d d' l bs rest,
  wf_env E -> sizes_honest E -> (d <= d')%nat ->
  Forall (fun p => wt E d (fst p) (snd p)) l ->
  rmapM (fun p => to_vec E d (fst p) (snd p)) l = Ok bs ->
  or_oom E (run (decode_all E d' (map fst l)) (concat bs ++ rest)) (Ok (map snd l, rest)).
Proof.
  intros E d d' l bs rest W Hh Hd Hw. revert bs. induction Hw as [|[t v] l Hv Hl IH]; intros bs Hs; cbn [rmapM fst snd] in Hs.
  - apply Ok_inj in Hs. subst. left. reflexivity.
  - apply rbind_ok in Hs. destruct Hs as (b & Hb & Hs). apply rbind_ok in Hs. destruct Hs as (bs' & Hbs & Hs). apply Ok_inj in Hs. subst bs.
    cbn [map fst snd decode_all concat]. rewrite <- app_assoc, run_bind. cbn [fst snd] in Hv.
    destruct (same E d d' t v b (concat bs' ++ rest) W Hh Hv Hd Hb) as [->|[Hm ->]]; [|right; auto].
    rewrite run_bind. destruct (IH bs' Hbs) as [->|[Hm ->]]; [left; reflexivity|right; auto].
Qed.

(** C03.  The error is the reader's ([UnexpectedEof]), or, inside a [Result] or [Bound], the [Deserialize] error
    these make of it. *)
Lemma cut : forall (P : err -> Prop) E d d' t v b q s, reads P (deserialize (set_mem None E) d' t) ->
  wf_env E -> sizes_honest E -> wt E d t v -> (d <= d')%nat ->
  to_vec E d t v = Ok b -> b = q ++ s -> s <> [] ->
  exists e, P e /\ or_oom E (from_slice E d' t q) (Err e).
Proof.
  intros P E d d' t v b q s R W Hh Hw Hd Hs -> Hne.
  pose proof (same0 E d d' t v (q ++ s) [] W Hh Hw Hd Hs) as S0. rewrite app_nil_r in S0.
  destruct (reads_prefix _ _ _ R _ _ q s S0 eq_refl Hne) as (e & He & Pe). exists e. split; [exact Pe|]. unfold from_slice.
  destruct (e_mem E) as [m|] eqn:Em.
  - destruct (mem_agree E d' t q) as [H|(x & <- & Hx)].
    + left. rewrite H, He. reflexivity.
    + right. rewrite Hx, Em. split; [discriminate|reflexivity].
  - left. replace E with (set_mem None E) by (destruct E; cbn in *; subst; reflexivity). rewrite He. reflexivity.
Qed.
Theorem C03_no_strict_prefix : forall E d d' t v b q s,
  wf_env E -> sizes_honest E -> wt E d t v -> (d <= d')%nat ->
  to_vec E d t v = Ok b -> b = q ++ s -> s <> [] ->
  exists e, (e = EIo \/ e = EDeserialize MInner) /\ or_oom E (from_slice E d' t q) (Err e).
Proof.
  intros E d d' t v b q s. apply (cut (fun e => e = EIo \/ e = EDeserialize MInner)).
  apply (reads_deserialize _ (fun _ => true)); auto; [|apply ty_all_any; reflexivity].
  intros n s' _. unfold fields_all. destruct (s_body s') as [fs|vs]; rewrite forallb_forall; intros x _; [apply ty_all_any; reflexivity|].
  rewrite forallb_forall. intros; apply ty_all_any; reflexivity.
Qed.
(** Types that do not rewrite the errors of their parts. *)
Definition transparent (t : ty) : bool := match t with TResult _ _ | TBound _ => false | _ => true end.
Theorem C03_end_of_input : forall E d d' t v b q s,
  wf_env E -> sizes_honest E -> wt E d t v -> (d <= d')%nat ->
  ty_all transparent t = true -> env_all (fun f => ty_all transparent (f_ty f)) E ->
  to_vec E d t v = Ok b -> b = q ++ s -> s <> [] ->
  or_oom E (from_slice E d' t q) (Err EIo).
Proof.
  intros E d d' t v b q s W Hh Hw Hd Ht HE Hs Hb Hne.
  destruct (cut (fun e => e = EIo) E d d' t v b q s) as (e & -> & H); auto.
  apply (reads_deserialize _ transparent); auto.
Qed.

(** C04 *)
Theorem C04_prefix_free : forall E d t v v' b b' s s',
  wf_env E -> sizes_honest E -> wt E d t v -> wt E d t v' ->
  to_vec E d t v = Ok b -> to_vec E d t v' = Ok b' -> b ++ s = b' ++ s' -> v = v' /\ s = s'.
Proof.
  intros E d t v v' b b' s s' W Hh Hw Hw' Hs Hs' Heq.
  pose proof (same0 E d d t v b s W Hh Hw (le_n _) Hs) as H. pose proof (same0 E d d t v' b' s' W Hh Hw' (le_n _) Hs') as H'.
  rewrite Heq, H' in H. inversion H; subst. auto.
Qed.
Theorem C04_injective : forall E d t v v' b,
  wf_env E -> sizes_honest E -> wt E d t v -> wt E d t v' ->
  to_vec E d t v = Ok b -> to_vec E d t v' = Ok b -> v = v'.
Proof. intros. eapply (C04_prefix_free E d t v v' b b [] []); eauto. Qed.

(** Hypotheses met: a derived struct, optimised and indexed, with a map of nine entries (offset
    table) and a recursive field. *)
Definition u_new_bytes : bytes := match to_vec new 2 (TRef 1) u_new with Ok b => b | _ => [] end.
Example C01_case : wf_env new /\ sizes_honest new /\ wt new 2 (TRef 1) u_new
  /\ to_vec new 2 (TRef 1) u_new = Ok u_new_bytes /\ from_slice new 2 (TRef 1) u_new_bytes = Ok u_new.
Proof. split; [apply wf_new|]. split; [apply honest_new|]. split; [apply wt_new|]. split; vm_compute; reflexivity. Qed.
Example C02_case : run (decode_all new 2 [TRef 1; TStr; TRef 1]) (u_new_bytes ++ [1; 120] ++ u_new_bytes ++ [77])
  = Ok ([u_new; VBytes [120]; u_new], [77]).
Proof. vm_compute. reflexivity. Qed.
Example C03_case : from_slice new 2 (TRef 1) (firstn 179 u_new_bytes) = Err EIo.
Proof. vm_compute. reflexivity. Qed.
Example C03_transparent : env_all (fun f => ty_all transparent (f_ty f)) new.
Proof. intros n s. cbn [ex_env e_sch new]. unfold sch3. destruct (n =? 1); [|destruct (n =? 2)]; intros H; inversion H; subst; reflexivity. Qed.
Example C03_wrapped : to_vec new 0 (TResult (TInt U32) TStr) (VVar 0 [VInt 300]) = Ok [0; 251; 44; 1]
  /\ from_slice new 0 (TResult (TInt U32) TStr) [0; 251; 44] = Err (EDeserialize MInner)
  /\ from_slice new 0 (TResult (TInt U32) TStr) [] = Err EIo.
Proof. vm_compute. auto. Qed.
Example C04_case : wt new 2 (TRef 1) u_new /\ wt new 1 (TRef 2) (VVar 2 [VInt 1; VInt 2]).
Proof. split; [apply wt_new|]. apply wtb_ok. vm_compute. reflexivity. Qed.

Print Assumptions C01_round_trip.
Print Assumptions C02_self_delimiting.
Print Assumptions C02_back_to_back.
Print Assumptions C03_no_strict_prefix.
Print Assumptions C03_end_of_input.
Print Assumptions C04_prefix_free.
Print Assumptions C04_injective.
