(** C64: data depends on the declarations in use only. *)

From Verif Require Import Base BaseL Prog ProgL Prim PrimL Utf8 Tag Ty Ser De SliceReader Skip SkipL Typed Agree Transp TranspL Spec Ex Local LocalL.
From Coq Require Import List NArith ZArith Bool Lia.
Import ListNotations.
Open Scope N_scope.

Section Loc.
Variables (E : env) (t : ty) (S : N -> option schema).
Hypothesis H : same_used E t S.
Lemma uses_closed : forall n s f m, uses E t n -> e_sch E n = Some s -> has_field s f -> In m (names (f_ty f)) -> uses E t m.
Proof. intros n s f m Hn Hs Hf Hm. eapply uses_in; eassumption. Qed.
Lemma loc_writer : forall d v, to_writer (set_sch E S) d t v = to_writer E d t v.
Proof.
  intros d v. unfold to_writer. change (ser_ty (set_sch E S)) with (ser_ty E). apply loc_ser_ty. intros n Hn w.
  apply (loc_ser_ref E S (uses E t)); [exact uses_closed|exact H|constructor; exact Hn].
Qed.
Lemma loc_de : forall d, eqr (deserialize (set_sch E S) d t) (deserialize E d t).
Proof.
  intros d. unfold deserialize. change (de_ty (set_sch E S)) with (de_ty E). apply loc_de_ty. intros n Hn.
  apply (loc_de_ref E S (uses E t)); [exact uses_closed|exact H|constructor; exact Hn].
Qed.
Lemma loc_sk : forall d, eqr (skip (set_sch E S) d t) (skip E d t).
Proof.
  intros d. unfold skip. change (sk_ty (set_sch E S)) with (sk_ty E). apply loc_sk_ty; intros n Hn.
  - apply (loc_de_ref E S (uses E t)); [exact uses_closed|exact H|constructor; exact Hn].
  - apply (loc_sk_ref E S (uses E t)); [exact uses_closed|exact H|constructor; exact Hn].
Qed.
Lemma loc_sc : forall d, eqr (skip_check (set_sch E S) d t) (skip_check E d t).
Proof.
  intros d. unfold skip_check. change (sc_ty (set_sch E S)) with (sc_ty E). apply loc_sc_ty. intros n Hn.
  apply (loc_de_ref E S (uses E t)); [exact uses_closed|exact H|constructor; exact Hn].
Qed.
Lemma loc_wt : forall d v, wt (set_sch E S) d t v <-> wt E d t v.
Proof.
  intros d v. unfold wt. change (wt_ty (set_sch E S)) with (wt_ty E).
  split; apply loc_wt_ty; intros n Hn w Hw; apply (loc_wt_ref E S (uses E t)) in Hw || apply (loc_wt_ref E S (uses E t)); try exact Hw; try exact uses_closed; try exact H; constructor; exact Hn.
Qed.
End Loc.

(** What is written, whatever the writer does, and which errors there are. *)
Theorem C64_encoding : forall E t S d v, same_used E t S ->
  to_vec (set_sch E S) d t v = to_vec E d t v /\ to_writer (set_sch E S) d t v = to_writer E d t v.
Proof. intros E t S d v H. unfold to_vec. rewrite loc_writer by exact H. auto. Qed.
(** What is read: the value, what is left over, the error, the panic. *)
Theorem C64_decoding : forall E t S d bs, same_used E t S ->
  run (deserialize (set_sch E S) d t) bs = run (deserialize E d t) bs /\ from_slice (set_sch E S) d t bs = from_slice E d t bs.
Proof. intros E t S d bs H. unfold from_slice. rewrite loc_de by exact H. auto. Qed.
Theorem C64_any_reader : forall E t S d sch bs, same_used E t S -> no_fail sch ->
  run_sched (deserialize (set_sch E S) d t) sch bs = run_sched (deserialize E d t) sch bs.
Proof. intros E t S d sch bs H Hs. rewrite !run_sched_run by exact Hs. apply loc_de, H. Qed.
Theorem C64_skipping : forall E t S d bs, same_used E t S ->
  run (skip (set_sch E S) d t) bs = run (skip E d t) bs
  /\ skip_slice (set_sch E S) d t bs = skip_slice E d t bs
  /\ run (skip_check (set_sch E S) d t) bs = run (skip_check E d t) bs.
Proof.
  intros E t S d bs H. split; [apply loc_sk, H|]. split; [|apply loc_sc, H].
  unfold skip_slice. rewrite (fol_skip (set_sch E S) d t (sr_new bs)), (fol_skip E d t (sr_new bs)). cbn [sr_new sr_inner]. rewrite loc_sk by exact H. reflexivity.
Qed.
(** The values the type has. *)
Theorem C64_values : forall E t S d v, same_used E t S -> (wt (set_sch E S) d t v <-> wt E d t v).
Proof. intros. apply loc_wt. assumption. Qed.

(** In particular a type can be added, or a type that is not used changed. *)
Definition declare (n : N) (s : schema) (S : N -> option schema) : N -> option schema := fun m => if m =? n then Some s else S m.
Theorem C64_new_declaration : forall E t n s, ~ uses E t n -> forall d v bs,
  to_vec (set_sch E (declare n s (e_sch E))) d t v = to_vec E d t v
  /\ from_slice (set_sch E (declare n s (e_sch E))) d t bs = from_slice E d t bs
  /\ skip_slice (set_sch E (declare n s (e_sch E))) d t bs = skip_slice E d t bs.
Proof.
  intros E t n s Hn d v bs. assert (H : same_used E t (declare n s (e_sch E))).
  { intros m Hm. unfold declare. destruct (N.eqb_spec m n); [subst; contradiction|reflexivity]. }
  split; [apply C64_encoding, H|]. split; [apply C64_decoding, H|apply C64_skipping, H].
Qed.

(** ** Cases *)
(** A record that uses one type, which uses another, next to one that is not used. *)
Definition three : env :=
  ex_env (fun n => if n =? 1 then Some (mkSchema [mkHent false false; mkHent true false] (SStruct [fld (TVec (TOption (TRef 2))) 1 None; fld TStr 1 (Some 2)]))
                   else if n =? 2 then Some (mkSchema [mkHent false false] (SStruct [fld (TInt U16) 1 None; fld (TMap KOrd TStr (TRef 3)) 1 None]))
                   else if n =? 3 then Some (mkSchema [mkHent false false] (SStruct [fld TBool 1 None]))
                   else if n =? 4 then Some (mkSchema [mkHent false false] (SStruct [fld (TRef 1) 1 None]))
                   else None).
Example C64_case_uses : uses three (TRef 1) 3.
Proof.
  eapply (uses_in _ _ 2); [|reflexivity|right; left; reflexivity|left; reflexivity].
  eapply (uses_in _ _ 1); [|reflexivity|left; reflexivity|left; reflexivity]. constructor. left. reflexivity.
Qed.
Example C64_case_unused : ~ uses three (TRef 1) 4 /\ ~ uses three (TRef 1) 9.
Proof.
  assert (K : forall n, uses three (TRef 1) n -> n = 1 \/ n = 2 \/ n = 3).
  { intros n U. induction U as [n Hn|m s f n U IH Hs Hf Hn]; [destruct Hn as [<-|[]]; auto|].
    destruct IH as [->|[->| ->]]; inversion Hs; subst s; repeat destruct Hf as [<-|Hf]; try contradiction; cbn in Hn; repeat destruct Hn as [<-|Hn]; try contradiction; auto. }
  split; intros U; apply K in U; lia.
Qed.
Example C64_case_bytes : exists b, to_vec three 3 (TRef 1) (VSeq [VSeq [VVar 1 [VSeq [VInt 300; VSeq [VPair (VBytes [97]) (VSeq [VBool true])]]]]]) = Ok b /\ (length b > 10)%nat.
Proof. eexists. split; [reflexivity|]. repeat constructor. Qed.
(** A declaration that is used matters, even one that only a field long removed refers to. *)
Theorem C64_removed_field_refuted : exists E t S d bs, wf_env E /\ (exists v, from_slice E d t bs = Ok v) /\ (forall v b, to_vec E d t v = Ok b -> to_vec (set_sch E S) d t v = Ok b)
  /\ from_slice (set_sch E S) d t bs <> from_slice E d t bs.
Proof.
  pose (inner := fun i => mkSchema [mkHent false false] (SStruct [fld (TInt i) 1 None])).
  pose (outer := mkSchema [mkHent false false; mkHent false false] (SStruct [fld (TRef 2) 1 (Some 2); fld (TInt U8) 1 None])).
  pose (P := fun i => (fun n => if n =? 1 then Some outer else if n =? 2 then Some (inner i) else None) : N -> option schema).
  exists (ex_env (P U8)), (TRef 1), (P U16), 2%nat, [1; 1; 251; 9]. split.
  { apply wf_ex. intros n s Hs. unfold P in Hs. destruct (n =? 1); [inversion Hs; subst; apply wf_schemab_ok; reflexivity|].
    destruct (n =? 2); inversion Hs; subst; apply wf_schemab_ok; reflexivity. }
  split; [eexists; vm_compute; reflexivity|]. split; [|vm_compute; discriminate].
  intros v b Hb. vm_compute in Hb |- *. exact Hb.
Qed.

Print Assumptions C64_encoding.
Print Assumptions C64_decoding.
Print Assumptions C64_any_reader.
Print Assumptions C64_skipping.
Print Assumptions C64_values.
Print Assumptions C64_new_declaration.
Print Assumptions C64_removed_field_refuted.
