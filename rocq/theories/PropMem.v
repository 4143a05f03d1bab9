(** C54: memory requested while decoding is paid for by the input. *)

From Verif Require Import Base BaseL Prog ProgL Prim PrimL Tag Ty Ser De Typed Mig Evol RtL RtTy RtId Agree Spec Cross Users Parts Size MemL PropMig Ex.
From Coq Require Import List NArith ZArith Bool Lia Relations.
Import ListNotations.
Open Scope N_scope.

(** C54.  [e_mem E = Some m]: the allocator refuses a single request of more than [m] bytes.
    [set_mem None E]: the same program with unlimited memory.  Whatever decodes with unlimited memory
    decodes as well with [max 8 G] bytes of memory per byte of input: no request is larger. *)
Theorem C54_limit_harmless : forall E G m d t bs v rest, roomy E G -> e_mem E = Some m ->
  run (deserialize (set_mem None E) d t) bs = Ok (v, rest) -> N.max 8 G * (len bs - len rest) <= m ->
  run (deserialize E d t) bs = Ok (v, rest).
Proof. intros E G m d t bs v rest HG Hm H Hl. exact (fits_deserialize E m G d t Hm HG bs v rest H Hl). Qed.

(** So the round trip needs no more memory than that ... *)
Theorem C54_round_trip : forall E G m d d' t v b rest,
  wf_env E -> sizes_honest E -> wt E d t v -> (d <= d')%nat -> to_vec E d t v = Ok b ->
  roomy E G -> e_mem E = Some m -> N.max 8 G * len b <= m ->
  run (deserialize E d' t) (b ++ rest) = Ok (v, rest).
Proof.
  intros E G m d d' t v b rest W Hh Hw Hd Hs HG Hm Hl.
  apply (C54_limit_harmless E G m d' t _ v rest HG Hm (same0 E d d' t v b rest W Hh Hw Hd Hs)).
  rewrite len_app. replace (len b + len rest - len rest) with (len b) by lia. exact Hl.
Qed.
(** ... nor does reading the data of an older program. *)
Theorem C54_later_programs_read : forall E E' G m d d' t v v' b rest,
  wf_env E -> wf_env E' -> later E E' -> opt_safe E E' -> user_panics E' (fun x => x <> PStack) ->
  sizes_honest E -> wt E d t v -> (d <= d')%nat -> to_vec E d t v = Ok b -> migrate E E' d t v = Ok v' ->
  roomy E' G -> e_mem E' = Some m -> N.max 8 G * len b <= m ->
  run (deserialize E' d' t) (b ++ rest) = Ok (v', rest).
Proof.
  intros E E' G m d d' t v v' b rest W W' L O U Hh Hw Hd Hs Hv HG Hm Hl.
  apply (C54_limit_harmless E' G m d' t _ v' rest HG Hm).
  - pose proof (cross E (set_mem None E') d d' t v b rest W (wf_set_mem _ _ W') (compatible_set_mem None E E' (later_compatible E E' W L O)) Hh Hw Hd) as H.
    rewrite migrate_set_mem, Hv in H. destruct H as [H|[H _]]; [discriminate|exact Hs|exact H|contradiction].
  - rewrite len_app. replace (len b + len rest - len rest) with (len b) by lia. exact Hl.
Qed.
(** A request is refused, when the input is that small, only if the input is no encoding of anything:
    with any amount of memory it would have been rejected. *)
Theorem C54_refused_is_malformed : forall E G m d t bs, roomy E G -> e_mem E = Some m -> N.max 8 G * len bs <= m ->
  run (deserialize E d t) bs = Panic PMem -> forall v rest, run (deserialize (set_mem None E) d t) bs <> Ok (v, rest).
Proof.
  intros E G m d t bs HG Hm Hl H v rest Hu. rewrite (C54_limit_harmless E G m d t bs v rest HG Hm Hu) in H; [discriminate|].
  etransitivity; [|exact Hl]. apply N.mul_le_mono_l. lia.
Qed.

(** The condition on elements without bytes on the wire is needed: a [Box<()>] is a pointer in memory and
    nothing on the wire, so that at most nine bytes ask for any amount of memory. *)
Theorem C54_boxed_units_refuted : forall E d n m, wf_env E -> e_mem E = Some m -> 0 < e_esize E (TWrap TUnit) ->
  m < n -> n < 2 ^ e_ub E ->
  exists bs, len bs <= 9
    /\ run (deserialize (set_mem None E) d (TVec (TWrap TUnit))) bs = Ok (VSeq (repeat VUnit (N.to_nat n)), [])
    /\ run (deserialize E d (TVec (TWrap TUnit))) bs = Panic PMem.
Proof.
  intros E d n m W Hm Hz Hlt Hn. exists (ser_len E n). split; [|split].
  - unfold ser_len, ser_usize, ser_u64. destruct (e_fw E).
    + rewrite le_bytes_len. discriminate.
    + unfold encode_u64. repeat (match goal with |- context [if ?c then _ else _] => destruct c end); rewrite ?len_cons, ?len_nil, ?le_bytes_len; cbn; lia.
  - pose proof (run_len_prefix E E eq_refl eq_refl (we_ub E W) n [] Hn) as H. rewrite app_nil_r in H.
    unfold deserialize. cbn [de_ty bulk_of set_mem e_spec]. replace (if e_spec E then None else None) with (@None bk) by (destruct (e_spec E); reflexivity).
    unfold de_seq. rewrite !run_bind. change (de_len (set_mem None E)) with (de_len E). rewrite H. replace (n =? 0) with false by (symmetry; apply N.eqb_neq; lia).
    unfold alloc. cbn [e_mem set_mem bind].
    assert (R : forall m bs, run (rep m (Ret VUnit)) bs = Ok (repeat VUnit m, bs)).
    { clear. induction m as [|m IH]; intros bs; cbn [rep repeat]; [reflexivity|]. cbn [bind]. rewrite run_bind, IH. reflexivity. }
    rewrite R. reflexivity.
  - pose proof (run_len_prefix E E eq_refl eq_refl (we_ub E W) n [] Hn) as H. rewrite app_nil_r in H.
    unfold deserialize. cbn [de_ty bulk_of]. replace (if e_spec E then None else None) with (@None bk) by (destruct (e_spec E); reflexivity).
    unfold de_seq. rewrite !run_bind. rewrite H. replace (n =? 0) with false by (symmetry; apply N.eqb_neq; lia).
    unfold alloc. rewrite Hm. replace (n * e_esize E (TWrap TUnit) <=? m) with false; [reflexivity|].
    symmetry. apply N.leb_gt. apply N.lt_le_trans with (n * 1); [lia|]. apply N.mul_le_mono_l. lia.
Qed.

(** ** The hypotheses are satisfiable *)
(** The example program with elements of at most 16 bytes and a memory limit. *)
Definition small (m : N) : env :=
  mkEnv (e_fw new) (e_spec new) (e_dbg new) (e_ub new) (Some m) (fun t => if zero_width t then 0 else 16)
        (e_cmp new) (e_iter new) (e_dec new) (e_ext new) (e_time new) (e_sch new).
Example wf_small : forall m, wf_env (small m).
Proof. intros m. destruct wf_new. constructor; assumption. Qed.
Example roomy_small : forall m, roomy (small m) 16.
Proof. intros m t. cbn [small e_esize]. destruct (zero_width t); [reflexivity|apply N.le_refl]. Qed.
Example C54_case : exists b, to_vec new 2 (TRef 1) u_new = Ok b
  /\ (forall rest, run (deserialize (small (16 * len b)) 2 (TRef 1)) (b ++ rest) = Ok (u_new, rest))
  /\ run (deserialize (small 40) 2 (TRef 1)) b = Panic PMem.
Proof.
  destruct (to_vec new 2 (TRef 1) u_new) as [b| |] eqn:Eb; [|vm_compute in Eb; discriminate..].
  exists b. split; [reflexivity|]. split.
  - intros rest. apply (C54_round_trip (small (16 * len b)) 16 (16 * len b) 2 2 (TRef 1) u_new b rest (wf_small _)); auto.
    + left. reflexivity.
    + apply wtb_ok. vm_compute. reflexivity.
    + apply roomy_small.
    + apply N.le_refl.
  - vm_compute in Eb. apply Ok_inj in Eb. subst b. vm_compute. reflexivity.
Qed.
Example C54_upgrade_case : exists b, to_vec old 1 (TRef 1) u_old = Ok b
  /\ forall rest, run (deserialize (small 224) 1 (TRef 1)) (b ++ rest) =
       Ok (VSeq [a_str [97; 195; 169]; VSeq [VInt 3; VInt 65535]; VSeq []; VInt 42; VVar 0 []], rest).
Proof.
  eexists. split; [exact enc_old|]. intros rest.
  apply (C54_later_programs_read old (small 224) 16 224 1 1 (TRef 1) u_old _ _ rest wf_old (wf_small _)).
  - apply rt_step. exact edit_old_new.
  - exact opt_safe_old_new.
  - exact user_new.
  - exact honest_old.
  - exact wt_old.
  - lia.
  - exact enc_old.
  - exact mig_old.
  - apply roomy_small.
  - reflexivity.
  - vm_compute. discriminate.
Qed.
(** Two bytes that declare a string of 100 bytes. *)
Example C54_refused_case : run (deserialize (small 50) 0 TStr) [100; 97] = Panic PMem
  /\ N.max 8 16 * len [100; 97] <= 50.
Proof. split; [vm_compute; reflexivity|vm_compute; discriminate]. Qed.
Example C54_boxed_case : exists bs, len bs <= 9
  /\ run (deserialize (set_mem (Some 1000) new) 0 (TVec (TWrap TUnit))) bs = Panic PMem.
Proof.
  destruct (C54_boxed_units_refuted (set_mem (Some 1000) new) 0 1001 1000) as (bs & Hl & _ & H); try reflexivity.
  - destruct wf_new. constructor; assumption.
  - exists bs. auto.
Qed.

Print Assumptions C54_limit_harmless.
Print Assumptions C54_round_trip.
Print Assumptions C54_later_programs_read.
Print Assumptions C54_refused_is_malformed.
Print Assumptions C54_boxed_units_refuted.
