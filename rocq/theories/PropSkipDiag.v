(** C88: which error skipping a rejected input gets. *)

From Verif Require Import Base BaseL Prog ProgL Prim PrimL Utf8 Utf8L Tag Ty Ser De Typed RtL DiscL Agree Spec Cross Ex Format FormatL Diag DiagL SliceReader Skip SkipIdx SkipL SkipForm SkipFormL SkipDiag SkipDiagL Users Mig Parts Total SkipTot PropWire PropFormat PropMig PropIdx PropDiag PropUntrusted.
From Verif Require PropSkip PropSkipForm.
From Coq Require Import List NArith ZArith Bool Lia.
Import ListNotations.
Open Scope N_scope.

Lemma obstacle_mem : forall E d t e x, obstacle (set_mem None E) d t e x = obstacle E d t e x.
Proof. reflexivity. Qed.
Lemma unmem : forall E A (f : env -> A), e_mem E = None -> f E = f (set_mem None E).
Proof. intros E A f H. rewrite <- H, set_mem_same. reflexivity. Qed.

(** Skipping fails with an error exactly when the input has that obstacle. *)
Theorem C88_reports_exactly : forall E d t bs e, wf_env E -> e_mem E = None -> wfb bs ->
  (run (skip E d t) bs = Err e <-> obstacle E d t e bs).
Proof. intros E d t bs e W Hm Hb. apply (obstacles_skip E W Hm d t). exact Hb. Qed.
(** The same from a slice. *)
Theorem C88_slice_exactly : forall E d t bs e, wf_env E -> e_mem E = None -> wfb bs ->
  (skip_slice E d t bs = Err e <-> obstacle E d t e bs).
Proof.
  intros E d t bs e W Hm Hb. rewrite <- C88_reports_exactly by assumption. unfold skip_slice. rewrite (fol_skip E d t (sr_new bs)). cbn [sr_new sr_inner sr_orig].
  destruct (run (skip E d t) bs) as [[u r]|e'|q]; cbn [with_orig rmap]; split; intros H; try discriminate; apply Err_inj in H; subst; reflexivity.
Qed.
(** With a memory limit: an error reported is the obstacle there is; an obstacle is reported, or memory runs out before. *)
Theorem C88_limited : forall E d t bs e, wf_env E -> wfb bs ->
  (run (skip E d t) bs = Err e -> obstacle E d t e bs)
  /\ (obstacle E d t e bs -> or_oom E (run (skip E d t) bs) (Err e)).
Proof.
  intros E d t bs e W Hb. apply (faults_limited E _ (skip (set_mem None E) d t)); [apply (unmem E _ (fun E => skip E d t))|apply mem_skip| |exact Hb].
  exact (obstacles_skip (set_mem None E) (wf_set_mem None E W) eq_refl d t).
Qed.
(** The checking skip, from a reader and from a slice. *)
Theorem C88_checks_exactly : forall E d t bs e, wf_env E -> e_mem E = None -> wfb bs ->
  (run (skip_check E d t) bs = Err e <-> check_fault E d t e bs) /\ (skip_check_slice E d t bs = Err e <-> check_fault E d t e bs).
Proof.
  intros E d t bs e W Hm Hb. pose proof (obstacles_check E W Hm d t e bs Hb) as R. split; [exact R|]. rewrite <- R. unfold skip_check_slice.
  destruct (run (skip_check E d t) bs) as [[u r]|e'|q]; cbn [rmap]; split; intros H; try discriminate; apply Err_inj in H; subst; reflexivity.
Qed.
Theorem C88_check_limited : forall E d t bs e, wf_env E -> wfb bs ->
  (run (skip_check E d t) bs = Err e -> check_fault E d t e bs)
  /\ (check_fault E d t e bs -> or_oom E (run (skip_check E d t) bs) (Err e)).
Proof.
  intros E d t bs e W Hb. apply (faults_limited E _ (skip_check (set_mem None E) d t)); [apply (unmem E _ (fun E => skip_check E d t))|apply mem_skip_check| |exact Hb].
  exact (obstacles_check (set_mem None E) (wf_set_mem None E W) eq_refl d t).
Qed.
(** Fields declared [indexed_map], [indexed_seq], [indexed_set]. *)
Theorem C88_indexed_map_exactly : forall E d a b s e, wf_env E -> e_mem E = None -> wfb (sr_inner s) ->
  (skip_indexed_map E d a b s = Err e <-> idx_map_obstacle E d a b e (sr_inner s)).
Proof. intros E d a b s e W Hm Hs. apply faults_follows with (p := p_idx_map E d a b); [apply fol_idx_map|apply obstacles_idx_map; assumption|exact Hs]. Qed.
Theorem C88_indexed_seq_exactly : forall E d a s e, wf_env E -> e_mem E = None -> wfb (sr_inner s) ->
  (skip_indexed_seq E d a s = Err e <-> idx_seq_obstacle E d a e (sr_inner s)).
Proof. intros E d a s e W Hm Hs. apply faults_follows with (p := p_idx_seq E d a); [apply fol_idx_seq|apply obstacles_idx_seq; assumption|exact Hs]. Qed.
Lemma follows_limited : forall E (m : sm unit) p p0 G, follows m p -> (e_mem E = None -> p = p0) -> agree (eq PMem) p p0 -> faults p0 G -> forall s e, wfb (sr_inner s) ->
  (m s = Err e -> G e (sr_inner s)) /\ (G e (sr_inner s) -> or_oom E (m s) (Err e)).
Proof.
  intros E m p p0 G Hf Hn Ha Gp s e Hs. destruct (faults_limited E p p0 G Hn Ha Gp (sr_inner s) e Hs) as [A B]. rewrite Hf. split.
  - intros H. apply A. destruct (run p (sr_inner s)) as [[u y]|e'|q]; cbn [with_orig] in H; try discriminate. apply Err_inj in H. subst. reflexivity.
  - intros H. destruct (B H) as [R|[R1 R2]]; [left; rewrite R; reflexivity|right; split; [exact R1|rewrite R2; reflexivity]].
Qed.
Theorem C88_indexed_limited : forall E d a b s e, wf_env E -> wfb (sr_inner s) ->
  ((skip_indexed_map E d a b s = Err e -> idx_map_obstacle E d a b e (sr_inner s))
   /\ (idx_map_obstacle E d a b e (sr_inner s) -> or_oom E (skip_indexed_map E d a b s) (Err e)))
  /\ ((skip_indexed_seq E d a s = Err e -> idx_seq_obstacle E d a e (sr_inner s))
   /\ (idx_seq_obstacle E d a e (sr_inner s) -> or_oom E (skip_indexed_seq E d a s) (Err e))).
Proof.
  intros E d a b s e W Hs. split.
  - apply (follows_limited E _ (p_idx_map E d a b) (p_idx_map (set_mem None E) d a b)); [apply fol_idx_map|apply (unmem E _ (fun E => p_idx_map E d a b))|apply mem_idx_map| |exact Hs].
    exact (obstacles_idx_map (set_mem None E) (wf_set_mem None E W) eq_refl d a b).
  - apply (follows_limited E _ (p_idx_seq E d a) (p_idx_seq (set_mem None E) d a)); [apply fol_idx_seq|apply (unmem E _ (fun E => p_idx_seq E d a))|apply mem_idx_seq| |exact Hs].
    exact (obstacles_idx_seq (set_mem None E) (wf_set_mem None E W) eq_refl d a).
Qed.

(** An input has at most one obstacle, and none if it begins with something that can be skipped. *)
Theorem C88_one_answer : forall E d t bs e, wf_env E -> wfb bs -> obstacle E d t e bs ->
  (forall e', obstacle E d t e' bs -> e' = e) /\ (forall x rest, bs = x ++ rest -> ~ shape E d t x).
Proof.
  intros E d t bs e W Hb F. rewrite <- obstacle_mem in F. pose proof (wf_set_mem None E W) as W0.
  pose proof (fun e => C88_reports_exactly (set_mem None E) d t bs e W0 eq_refl Hb) as R. apply R in F. split.
  - intros e' F'. rewrite <- obstacle_mem in F'. apply R in F'. congruence.
  - intros x rest -> Fx. assert (K : run (skip (set_mem None E) d t) (x ++ rest) = Ok (tt, rest)); [|congruence].
    apply PropSkipForm.C61_skips_exactly; [exact W0|reflexivity|exact Hb|]. exists x. split; [reflexivity|]. rewrite PropSkipForm.shape_mem. exact Fx.
Qed.
(** Where skipping does not panic (C55), every input begins with something that can be skipped or has an obstacle. *)
Theorem C88_every_input : forall E d t bs,
  wf_env E -> closed E t -> quiet_env E -> ty_all quiet t = true -> (length bs < d)%nat -> wfb bs ->
  (exists x rest, bs = x ++ rest /\ shape E d t x) \/ exists e, obstacle E d t e bs.
Proof.
  intros E d t bs W C Q Ht Hd Hb. pose proof (wf_set_mem None E W) as W0.
  destruct (C55_no_panic E d t bs W C Q Ht Hd) as [(rest & R & _)|(e & R)].
  - left. apply (proj1 (PropSkipForm.C61_limited E d t bs W Hb)) in R. destruct R as (x & -> & F). exists x, rest. auto.
  - right. exists e. apply (C88_limited E d t bs e W Hb). exact R.
Qed.
(** What stops a skip is not decoded either. *)
Theorem C88_decoding_rejects_too : forall E d t bs e, wf_env E -> spec_built E -> wfb bs -> len bs < 2 ^ e_ub E ->
  obstacle E d t e bs -> forall v x rest, bs = x ++ rest -> ~ form E d t v x.
Proof.
  intros E d t bs e W Hs Hb Hl O v x rest -> F. apply wfb_app in Hb. rewrite len_app in Hl.
  apply (proj2 (C88_one_answer E d t (x ++ rest) e W (proj2 (wfb_app x rest) Hb) O) x rest eq_refl).
  apply (PropSkipForm.C61_forms_are_skippable E d t v x W Hs (proj1 Hb)); [lia|exact F].
Qed.

(** Not so: the error is not the one decoding reports.  Skipping looks into less, so that it may stop later, at
    something else; *)
Theorem C88_later_refuted : exists E t bs, wf_env E /\ obstacle E 0 t EIo bs /\ fault E 0 t EUtf8 bs.
Proof.
  assert (B : wfb [1; 255]) by (repeat constructor; lia). exists new, (TPair TStr TBool), [1; 255]. split; [apply wf_new|].
  split; [apply C88_reports_exactly|apply C62_reports_exactly]; [apply wf_new|reflexivity|exact B|reflexivity|apply wf_new|reflexivity|exact B|reflexivity].
Qed.
(** and it tells the cause of an error within [Result] and [Bound], where decoding does not. *)
Theorem C88_cause_refuted : exists E t bs, wf_env E /\ obstacle E 0 t (EInvalidBool 2) bs /\ fault E 0 t (EDeserialize MInner) bs.
Proof.
  assert (B : wfb [1; 2]) by (repeat constructor; lia). exists new, (TBound TBool), [1; 2]. split; [apply wf_new|].
  split; [apply C88_reports_exactly|apply C62_reports_exactly]; [apply wf_new|reflexivity|exact B|reflexivity|apply wf_new|reflexivity|exact B|reflexivity].
Qed.

(** ** Cases, from the specification *)
Example C88_case_option : obstacle new 0 (TOption TStr) (EDeserialize MBadOption) [2; 0].
Proof. right. right. exists 2, [0]. repeat split; discriminate. Qed.
Example C88_case_second : obstacle new 0 (TPair (TVec TStr) TBool) (EInvalidBool 9) [1; 1; 255; 9].
Proof.
  right. exists [1; 1; 255], [9]. split; [reflexivity|]. split.
  - exists 1, [1], [1; 255]. split; [reflexivity|]. split; [exists 1; split; [constructor; lia|split; reflexivity]|].
    exists [[1; 255]]. split; [reflexivity|]. split; [|reflexivity]. constructor; [|constructor].
    exists 1, [1], [255]. split; [reflexivity|]. split; [exists 1; split; [constructor; lia|split; reflexivity]|reflexivity].
  - right. exists 9, []. repeat split; discriminate.
Qed.
Example C88_case_tag : obstacle new 1 (TRef 2) (EInvalidTag 99) [2; 99].
Proof.
  exists shape2. split; [reflexivity|]. right. exists 2, [2], [99]. split; [reflexivity|]. split.
  - exists 2. split; [constructor; lia|]. split; [reflexivity|]. split; [discriminate|reflexivity].
  - right. exists (mkHent true false). split; [reflexivity|]. eexists. split; [reflexivity|]. right. exists 99, []. split; reflexivity.
Qed.
Lemma stopped : forall d t bs e, wfb bs -> run (skip new d t) bs = Err e -> obstacle new d t e bs.
Proof. intros d t bs e Hb R. apply C88_reports_exactly; [apply wf_new|reflexivity|exact Hb|exact R]. Qed.
Example C88_cases : obstacle new 1 (TRef 1) (EDeserialize MInvalidRevision) [9; 1; 2; 3]
  /\ obstacle new 1 (TRef 1) EIo [3; 2; 0; 0; 0; 255] /\ obstacle new 1 (TRef 2) (EDeserialize MUnknownVariant) [1; 7]
  /\ obstacle new 1 (TVec TStr) EOverflow [254] /\ obstacle new 1 (TVec TStr) EInvalidInt [2; 0; 255].
Proof. repeat split; (apply stopped; [repeat constructor; lia|reflexivity]). Qed.
(** A map of one entry, the region lengths of which say 7 bytes where 3 follow. *)
Example C88_case_indexed : idx_map_obstacle new 0 TStr (TInt U64) EIo ([1; 1] ++ repeat 255 8 ++ [2; 0; 0; 0; 5; 0; 0; 0] ++ [1; 2; 3])
  /\ idx_seq_obstacle new 0 (TInt U16) EInvalidInt ([1; 2] ++ repeat 255 4 ++ [3; 0; 0; 0] ++ [1; 2; 3; 255]).
Proof.
  split.
  - assert (R : skip_indexed_map new 0 TStr (TInt U64) (sr_new ([1; 1] ++ repeat 255 8 ++ [2; 0; 0; 0; 5; 0; 0; 0] ++ [1; 2; 3])) = Err EIo) by (vm_compute; reflexivity).
    apply C88_indexed_map_exactly in R; [exact R|apply wf_new|reflexivity|repeat constructor; lia].
  - assert (R : skip_indexed_seq new 0 (TInt U16) (sr_new ([1; 2] ++ repeat 255 4 ++ [3; 0; 0; 0] ++ [1; 2; 3; 255])) = Err EInvalidInt) by (vm_compute; reflexivity).
    apply C88_indexed_seq_exactly in R; [exact R|apply wf_new|reflexivity|repeat constructor; lia].
Qed.

Print Assumptions C88_reports_exactly.
Print Assumptions C88_slice_exactly.
Print Assumptions C88_limited.
Print Assumptions C88_checks_exactly.
Print Assumptions C88_check_limited.
Print Assumptions C88_indexed_map_exactly.
Print Assumptions C88_indexed_seq_exactly.
Print Assumptions C88_indexed_limited.
Print Assumptions C88_one_answer.
Print Assumptions C88_every_input.
Print Assumptions C88_decoding_rejects_too.
Print Assumptions C88_later_refuted.
Print Assumptions C88_cause_refuted.
