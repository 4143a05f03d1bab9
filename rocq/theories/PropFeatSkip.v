(** C63, continued: skipping with and without the cargo features. *)

From Verif Require Import Base BaseL Prog ProgL Prim PrimL Utf8 Tag Ty Ser De SliceReader Skip SkipL Typed Parts SortL Agree Transp TranspL Spec Format Ex PropSkip PropFormat Local LocalL PropLocal Feature FeatureL PropFeature FeatSkipL.
From Coq Require Import List NArith ZArith Bool Lia.
Import ListNotations.
Open Scope N_scope.

(** Types that do not use a vector of [bool] or of wide integers are skipped the same, from a reader, from a slice and with
    checks: over the same bytes, or not at all. *)
Theorem C63_specialised_skipping : forall E b d t bs, wf_env E -> e_mem E = None -> specialised_free E t -> wfb bs -> len bs < 2 ^ e_ub E ->
  (forall rest, run (skip (with_specialised b E) d t) bs = Ok (tt, rest) <-> run (skip E d t) bs = Ok (tt, rest))
  /\ (forall n, skip_slice (with_specialised b E) d t bs = Ok n <-> skip_slice E d t bs = Ok n)
  /\ (forall rest, run (skip_check (with_specialised b E) d t) bs = Ok (tt, rest) <-> run (skip_check E d t) bs = Ok (tt, rest))
  /\ (forall n, skip_check_slice (with_specialised b E) d t bs = Ok n <-> skip_check_slice E d t bs = Ok n).
Proof.
  intros E b d t bs W M H Hb Hl.
  assert (A : forall rest, run (skip (with_specialised b E) d t) bs = Ok (tt, rest) <-> run (skip E d t) bs = Ok (tt, rest)) by (intros rest; apply so_skip; try assumption; split; assumption).
  assert (C : forall x rest, run (skip_check (with_specialised b E) d t) bs = Ok (x, rest) <-> run (skip_check E d t) bs = Ok (x, rest)) by (intros x rest; apply so_skip_check; try assumption; split; assumption).
  split; [exact A|]. split; [|split; [intros rest; apply C|]].
  - intros n. rewrite !C13_skip_slice. split; intros (r & K & L); exists r; (split; [|exact L]); [exact (proj1 (A r) K)|exact (proj2 (A r) K)].
  - intros n. unfold skip_check_slice. split; intros K.
    + destruct (run (skip_check (with_specialised b E) d t) bs) as [[x r]| |] eqn:R; try discriminate K. rewrite (proj1 (C x r) eq_refl). exact K.
    + destruct (run (skip_check E d t) bs) as [[x r]| |] eqn:R; try discriminate K. rewrite (proj2 (C x r) eq_refl). exact K.
Qed.
(** Vectors of every other element type are not (without [fixed-width-encoding]; with it, the lengths agree). *)
Theorem C63_specialised_skipping_exact : forall E d t, wf_env E -> e_fw E = false -> same_either_way false t = false ->
  exists v b, wt E d (TVec t) v /\ to_vec (with_specialised false E) d (TVec t) v = Ok b /\ run (skip (with_specialised false E) d (TVec t)) b = Ok (tt, [])
    /\ run (skip (with_specialised true E) d (TVec t)) b <> Ok (tt, []).
Proof.
  intros E d t W Hf H.
  assert (F : forall n, n < 256 -> fits E n). { intros n Hn. unfold fits. destruct (we_ub E W) as [-> | ->]; cbn; lia. }
  assert (U : forall n, n < 251 -> n mod 2 ^ e_ub E = n). { intros n Hn. apply N.mod_small. destruct (we_ub E W) as [-> | ->]; cbn; lia. }
  destruct t; try discriminate H.
  - exists (VSeq [VBool true; VBool true]), [2; 1; 1]. split; [split; [apply F; reflexivity|split; [exact I|repeat constructor]]|].
    split; [unfold to_vec; cbn; unfold ser_len; cbn; rewrite Hf; reflexivity|]. unfold skip. cbn [sk_ty with_specialised e_spec bulk_of]. split.
    + unfold sk_seq, de_len. cbn [with_specialised e_fw e_ub]. rewrite Hf, run_bind. unfold de_usize, de_u64. cbn [bind run]. cbn. rewrite U by reflexivity. reflexivity.
    + unfold sk_bulk, de_len. cbn [with_specialised e_fw e_ub]. rewrite Hf, run_bind. cbn. rewrite U by reflexivity. cbn. discriminate.
  - exists (VSeq [VInt 0]), [1; 0].
    assert (G : forall s w n bs, 1 < n -> n = N.of_nat w -> bs = [1; 0] -> run (sk_bulk (with_specialised true E) (BFix s w)) bs <> Ok (tt, [])).
    { intros s w n bs Hn -> ->. unfold sk_bulk, de_len. cbn [with_specialised e_fw e_ub]. rewrite Hf, run_bind. cbn [run de_usize de_u64]. 
      replace (run (de_usize false (e_ub E)) [1; 0]) with (Ok (1, [0])) by (cbn; rewrite U by reflexivity; reflexivity). destruct w as [|[|w]]; [discriminate..|].
      destruct (1 * N.of_nat (S (S w)) <? 2 ^ e_ub E); [|discriminate]. rewrite run_advance_read. unfold drop_n. rewrite (proj2 (split_at_none _ [0] (1 * N.of_nat (S (S w))))) by (change (len [0]) with 1; lia). discriminate. }
    destruct i; try discriminate H.
    all: split; [split; [apply F; reflexivity|split; [unfold vec_fits; cbn [bulk_of]; first [exact I|apply F; reflexivity]|constructor; [split; (discriminate||reflexivity)|constructor]]]|].
    all: split; [unfold to_vec; cbn; unfold ser_len; cbn; rewrite Hf; reflexivity|].
    all: unfold skip; cbn [sk_ty with_specialised e_spec bulk_of]; split; [unfold sk_seq, de_len; cbn [with_specialised e_fw e_ub]; rewrite Hf, run_bind; replace (run (de_usize false (e_ub E)) [1; 0]) with (Ok (1, [0])) by (cbn; rewrite U by reflexivity; reflexivity); cbn [de_ty with_specialised e_fw e_ub]; rewrite Hf; reflexivity|].
    all: eapply G; [|reflexivity|reflexivity]; reflexivity.
Qed.

(** ** The feature [fixed-width-encoding] *)
Lemma fw_skip : forall E b rec rec' drec drec' t, fixed_width_free t = true -> eqr (sk_ty (with_fixed_width b E) rec' drec' t) (sk_ty E rec drec t).
Proof.
  intros E b rec rec' drec drec'. induction t; intros S; pose proof S as S9; unfold fixed_width_free in S; cbn [ty_all] in S; apply andb_prop in S; destruct S as [S0 S]; try discriminate S0;
    try (apply andb_prop in S; destruct S as [S1 S2]); try apply eqr_refl; cbn [sk_ty].
  - apply eqr_bind; [apply fw_de, S9|]. intros x. apply eqr_refl.
  - apply eqr_bind; [apply IHt1, S1|]. intros x. apply IHt2, S2.
  - clear S9. induction n as [|n IH]; cbn [rep_]; [apply eqr_refl|]. apply eqr_bind; [apply IHt, S|]. intros x. exact IH.
  - apply eqr_bind; [apply eqr_refl|]. intros x. destruct (x =? 0); [apply eqr_refl|]. destruct (x =? 1); [apply IHt, S|apply eqr_refl].
  - apply IHt, S.
  - match goal with |- eqr (if ?m then _ else _) _ => destruct m end; [|apply IHt, S]. apply eqr_bind; [apply fw_de, S9|]. intros x. apply eqr_refl.
Qed.
Lemma fw_check : forall E b drec drec' t, fixed_width_free t = true -> eqr (sc_ty (with_fixed_width b E) drec' t) (sc_ty E drec t).
Proof.
  intros E b drec drec'. induction t; intros S; pose proof S as S9; unfold fixed_width_free in S; cbn [ty_all] in S; apply andb_prop in S; destruct S as [S0 S]; try discriminate S0;
    try (apply andb_prop in S; destruct S as [S1 S2]); try apply eqr_refl; cbn [sc_ty]; try (apply eqr_bind; [apply fw_de, S9|]; intros x; apply eqr_refl).
  - apply eqr_bind; [apply IHt1, S1|]. intros x. apply IHt2, S2.
  - clear S9. induction n as [|n IH]; cbn [rep_]; [apply eqr_refl|]. apply eqr_bind; [apply IHt, S|]. intros x. exact IH.
Qed.
(** Types with neither lengths nor revision numbers nor wide integers are skipped the same, to the last error. *)
Theorem C63_fixed_width_skipping : forall E b d t bs, fixed_width_free t = true ->
  run (skip (with_fixed_width b E) d t) bs = run (skip E d t) bs
  /\ skip_slice (with_fixed_width b E) d t bs = skip_slice E d t bs
  /\ run (skip_check (with_fixed_width b E) d t) bs = run (skip_check E d t) bs
  /\ skip_check_slice (with_fixed_width b E) d t bs = skip_check_slice E d t bs.
Proof.
  intros E b d t bs H. assert (A : run (skip (with_fixed_width b E) d t) bs = run (skip E d t) bs) by apply fw_skip, H.
  assert (C : run (skip_check (with_fixed_width b E) d t) bs = run (skip_check E d t) bs) by apply fw_check, H.
  split; [exact A|]. split; [|split; [exact C|]].
  - unfold skip_slice. rewrite !(fol_skip _ d t (sr_new bs)). cbn [sr_new sr_inner sr_orig]. rewrite A. reflexivity.
  - unfold skip_check_slice. rewrite C. reflexivity.
Qed.

(** ** Non-vacuity: the types of C63_case_free and C63_case_wf, from a stream with something behind the value *)
Example C63_case_skip : exists b, to_vec feat 2 (TRef 1) feat_v = Ok b /\ run (skip (with_specialised false feat) 2 (TRef 1)) (b ++ [7; 7]) = Ok (tt, [7; 7])
  /\ run (skip feat 2 (TRef 1)) (b ++ [7; 7]) = Ok (tt, [7; 7]) /\ skip_slice feat 2 (TRef 1) (removelast b) = Err EIo /\ skip_slice (with_specialised false feat) 2 (TRef 1) (removelast b) = Err EIo.
Proof. eexists. split; [vm_compute; reflexivity|]. repeat split; vm_compute; reflexivity. Qed.
(** How the two fail may differ: a count whose elements do not fit into the address space is an overflow to the one, the end
    of the input to the other. *)
Example C63_case_error : 
  run (skip (with_specialised true feat) 2 (TVec TUuid)) (encode_u64 (2 ^ 62)) = Err EOverflow
  /\ skip (with_specialised false feat) 2 (TVec TUuid) = sk_seq feat (advance_read 16).
Proof. split; [vm_compute; reflexivity|reflexivity]. Qed.

Print Assumptions C63_specialised_skipping.
Print Assumptions C63_specialised_skipping_exact.
Print Assumptions C63_fixed_width_skipping.
