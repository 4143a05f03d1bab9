(** C62: which error a rejected input gets. *)

From Verif Require Import Base BaseL Prog ProgL Prim PrimL Utf8 Utf8L Tag Ty Ser De Typed Users RtL DiscL Agree Spec Cross Ex Format FormatL Diag DiagL Parts PropWire PropFormat PropTotal.
From Coq Require Import List NArith ZArith Bool Lia.
Import ListNotations.
Open Scope N_scope.

Lemma fault_mem : forall E d t e x, fault (set_mem None E) d t e x = fault E d t e x.
Proof. reflexivity. Qed.

(** Decoding fails with an error exactly when the input has that fault. *)
Theorem C62_reports_exactly : forall E d t bs e, wf_env E -> e_mem E = None -> wfb bs ->
  (run (deserialize E d t) bs = Err e <-> fault E d t e bs).
Proof. intros E d t bs e W Hm Hb. apply (faults_deserialize E W Hm d t). exact Hb. Qed.
Theorem C62_from_slice : forall E d t bs e, wf_env E -> e_mem E = None -> wfb bs ->
  (from_slice E d t bs = Err e <-> fault E d t e bs).
Proof.
  intros E d t bs e W Hm Hb. rewrite <- C62_reports_exactly by assumption. unfold from_slice.
  destruct (run (deserialize E d t) bs) as [[v r]|e'|q]; cbn [rmap]; split; intros H; try discriminate; apply Err_inj in H; subst; reflexivity.
Qed.
(** With a memory limit: an error reported is the fault there is; a fault is reported, or memory runs out before. *)
Theorem C62_limited : forall E d t bs e, wf_env E -> wfb bs ->
  (run (deserialize E d t) bs = Err e -> fault E d t e bs)
  /\ (fault E d t e bs -> or_oom E (run (deserialize E d t) bs) (Err e)).
Proof.
  intros E d t bs e W Hb.
  pose proof (C62_reports_exactly (set_mem None E) d t bs e (wf_set_mem None E W) eq_refl Hb) as R. rewrite fault_mem in R.
  destruct (mem_agree E d t bs) as [A|(x & <- & A)].
  - rewrite A, R. split; [auto|]. intros F. left. rewrite R. exact F.
  - rewrite A. split; [discriminate|]. intros F. right. split; [|reflexivity]. intros Hm.
    assert (Q : set_mem None E = E) by (rewrite <- Hm; apply set_mem_same). rewrite Q in R. apply R in F. congruence.
Qed.
(** An input has at most one fault, and none if it begins with the form of a value. *)
Theorem C62_one_answer : forall E d t bs e, wf_env E -> wfb bs -> fault E d t e bs ->
  (forall e', fault E d t e' bs -> e' = e) /\ (forall v x rest, bs = x ++ rest -> ~ form E d t v x).
Proof.
  intros E d t bs e W Hb F. rewrite <- fault_mem in F.
  pose proof (fun e => C62_reports_exactly (set_mem None E) d t bs e (wf_set_mem None E W) eq_refl Hb) as R. apply R in F. split.
  - intros e' F'. rewrite <- fault_mem in F'. apply R in F'. congruence.
  - intros v x rest -> Fv.
    pose proof (means_run _ _ _ (means_deserialize (set_mem None E) (wf_set_mem None E W) eq_refl d t) (x ++ rest) v rest Hb) as M.
    assert (K : run (deserialize (set_mem None E) d t) (x ++ rest) = Ok (v, rest)) by (apply M; exists x; split; [reflexivity|exact Fv]). congruence.
Qed.
(** Where nothing panics (C15), every input begins with a form or has a fault. *)
Theorem C62_every_input : forall E d t bs,
  wf_env E -> closed E t -> no_time E t -> no_idx_map E \/ e_dbg E = false ->
  user_panics E (fun _ => False) -> (length bs < d)%nat -> wfb bs ->
  (exists v x rest, bs = x ++ rest /\ form E d t v x) \/ exists e, fault E d t e bs.
Proof.
  intros E d t bs W C T I U Hd Hb.
  pose proof (fun x => C15_no_panic (set_mem None E) d t bs x (wf_set_mem None E W) C T eq_refl I U Hd) as NP.
  destruct (run (deserialize (set_mem None E) d t) bs) as [[v rest]|e|q] eqn:R.
  - left. apply (means_run _ _ _ (means_deserialize (set_mem None E) (wf_set_mem None E W) eq_refl d t) _ _ _ Hb) in R. destruct R as (x & -> & F). exists v, x, rest. auto.
  - right. exists e. rewrite <- fault_mem. apply C62_reports_exactly; try assumption; [apply wf_set_mem; assumption|reflexivity].
  - elim (NP q eq_refl).
Qed.

(** Not so: [Result] and [Bound] do not tell the cause of an error in their content, though the content does. *)
Theorem C62_cause_refuted : exists E t bs e, wf_env E /\ fault E 0 t e bs /\ e <> EDeserialize MInner
  /\ fault E 0 (TResult t TUnit) (EDeserialize MInner) (0 :: bs) /\ ~ fault E 0 (TResult t TUnit) e (0 :: bs).
Proof.
  assert (B : wfb [2]) by (repeat constructor; lia). assert (B2 : wfb [0; 2]) by (repeat constructor; lia).
  exists new, TBool, [2], (EInvalidBool 2). split; [apply wf_new|]. split; [apply C62_reports_exactly; [apply wf_new|reflexivity|exact B|reflexivity]|].
  split; [discriminate|]. split; [apply C62_reports_exactly; [apply wf_new|reflexivity|exact B2|reflexivity]|].
  intros F. apply C62_reports_exactly in F; [|apply wf_new|reflexivity|exact B2]. vm_compute in F. discriminate.
Qed.
(** Not so: the end-of-input error does not mean that the input ended.  Within an optimised struct it means that the
    payload did. *)
Theorem C62_eof_refuted : exists E d t bs, wf_env E /\ forall x, wfb x -> fault E d t EIo (bs ++ x).
Proof.
  pose (s := mkSchema [mkHent true false] (SStruct [fld (TInt U16) 1 None])).
  pose (E := ex_env (fun n => if n =? 1 then Some s else None)).
  assert (W : wf_env E).
  { apply wf_ex. intros n s' H. destruct (n =? 1); inversion H; subst s'. apply wf_schemab_ok. reflexivity. }
  exists E, 1%nat, (TRef 1), [1; 0; 0; 0; 0]. split; [exact W|]. intros x Hx.
  apply C62_reports_exactly; [exact W|reflexivity| |].
  - apply wfb_app. split; [repeat constructor; lia|exact Hx].
  - destruct x; reflexivity.
Qed.

(** ** Cases, from the specification *)
Example C62_case_bool : fault new 0 TBool (EInvalidBool 7) [7; 1].
Proof. right. exists 7, [1]. repeat split; discriminate. Qed.
Example C62_case_vec : fault new 0 (TPair (TInt U8) (TVec TBool)) (EInvalidInt) [1; 255].
Proof. right. exists (VInt 1), [1], [255]. split; [reflexivity|]. split; [exists 1%Z; split; [reflexivity|split; reflexivity]|]. left. reflexivity. Qed.
Example C62_case_revision : fault new 1 (TRef 1) (EDeserialize MInvalidRevision) [9; 1; 2; 3].
Proof.
  exists user3. split; [reflexivity|]. right. exists 9, [9], [1; 2; 3]. split; [reflexivity|]. split; [|reflexivity].
  exists 9. split; [constructor; lia|]. split; [reflexivity|]. split; [discriminate|reflexivity].
Qed.
Example C62_case_tag : fault new 1 (TRef 2) (EInvalidTag 99) [2; 99].
Proof.
  exists shape2. split; [reflexivity|]. right. exists 2, [2], [99]. split; [reflexivity|]. split.
  - exists 2. split; [constructor; lia|]. split; [reflexivity|]. split; [discriminate|reflexivity].
  - eexists. split; [reflexivity|]. right. exists 99, []. split; reflexivity.
Qed.
Lemma reported : forall d t bs e, wfb bs -> run (deserialize new d t) bs = Err e -> fault new d t e bs.
Proof. intros d t bs e Hb R. apply C62_reports_exactly; [apply wf_new|reflexivity|exact Hb|exact R]. Qed.
Example C62_case_variant : fault new 1 (TRef 2) (EDeserialize MUnknownVariant) [1; 7].
Proof. apply reported; [repeat constructor; lia|reflexivity]. Qed.
Example C62_case_wrong_class : fault new 1 (TRef 2) (EDeserialize MUnknownVariant) [2; 64].
Proof. apply reported; [repeat constructor; lia|reflexivity]. Qed.
Example C62_case_table : fault new 1 (TRef 1) ESubReaderOverrun [3; 4; 0; 0; 0; 1; 2; 3; 4].
Proof. apply reported; [repeat constructor; lia|reflexivity]. Qed.
Example C62_case_lengths : fault new 1 (TVec TStr) EOverflow [254] /\ fault new 1 (TVec TStr) EInvalidInt [255] /\ fault new 1 TStr EUtf8 [1; 255] /\ fault new 1 TStr EIo [2; 255].
Proof. repeat split; (apply reported; [repeat constructor; lia|reflexivity]). Qed.

Print Assumptions C62_reports_exactly.
Print Assumptions C62_from_slice.
Print Assumptions C62_limited.
Print Assumptions C62_one_answer.
Print Assumptions C62_every_input.
Print Assumptions C62_cause_refuted.
Print Assumptions C62_eof_refuted.
