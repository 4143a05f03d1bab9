(** Where older data is not migrated as declared: why PropMig.v assumes [opt_safe], and why the size class of a variant
    may not be edited. *)

From Verif Require Import Base Prog Prim Tag Ty Ser De Typed Mig Evol Ex WalkRef Macro MacroSpec MacroL PropMacro.
From Coq Require Import List NArith ZArith Bool Relations Lia.
Import ListNotations.
Open Scope N_scope.

Definition none : res val := Ok VUnit.
(** The schema a declaration expands to. *)
Definition schema_of (i : mitem) : schema := match expand i with Done (s, _) => s | Fail _ => mkSchema [] (SStruct []) end.
Definition compiles (i : mitem) : Prop := type_checks i /\ exists x, expand i = Done (schema_of i, x).
Lemma later_only : forall s s', edit_schema s s' -> later (only s) (only s').
Proof.
  intros s s' H. apply rt_step. repeat split. intros n t Hn. cbn in Hn |- *. destruct (n =? 1); [|discriminate]. inversion Hn; subst. eauto.
Qed.
Lemma wf_compiles : forall i, compiles i -> wf_env (only (schema_of i)).
Proof.
  intros i [Ht (x & Hx)]. apply wf_ex. intros n s Hs. destruct (n =? 1); [|discriminate]. inversion Hs; subst. eapply expand_wf; eassumption.
Qed.

(** An optimised struct with an [indexed_seq] field, replaced in revision 2 by a plain field that its [convert_fn] fills. *)
Definition names1 : mitem := mkItem [IEntry 1 [EOptimised]] []
  (KStruct [mkMfield (TVec TStr) (Ok (VSeq [])) [FIndexed ISeq]]).
Definition names2 : mitem := mkItem [IEntry 1 [EOptimised]; IEntry 2 [EOptimised]] []
  (KStruct [mkMfield (TVec TStr) (Ok (VSeq [])) [FIndexed ISeq; FEnd 2; FConvert (fun _ _ v => Ok [v])];
            mkMfield (TVec TStr) (Ok (VSeq [])) [FStart 2]]).
Lemma fits_by : forall m, forallb (fun o => match o with FIndexed ISeq => mode_ok MIdxSeq (mf_ty m) | FStart _ | FEnd _ | FConvert _ | FDefault _ => true | _ => false end) (mf_opts m) = true ->
  attrs_fit m.
Proof.
  intros m H. rewrite forallb_forall in H. repeat split; intros Hi; apply H in Hi; try discriminate. exact Hi.
Qed.
Lemma names_compile : compiles names1 /\ compiles names2.
Proof.
  split; (split; [split; [|exact I]; intros fs f -> Hf; repeat destruct Hf as [<-|Hf]; try destruct Hf; apply fits_by; reflexivity|eexists; reflexivity]).
Qed.
(** Both versions compile, and the second is a proper edit of the first; yet the second reads the names of the first as
    no names at all, where the declared migration keeps them. *)
Theorem C17_removed_indexed_refuted : exists i i' v b v' w,
  compiles i /\ compiles i' /\ later (only (schema_of i)) (only (schema_of i'))
  /\ wt (only (schema_of i)) 1 (TRef 1) v /\ to_vec (only (schema_of i)) 1 (TRef 1) v = Ok b
  /\ migrate (only (schema_of i)) (only (schema_of i')) 1 (TRef 1) v = Ok v'
  /\ from_slice (only (schema_of i')) 1 (TRef 1) b = Ok w
  /\ v' = VSeq [VSeq [a_str [97]; a_str [98]]] /\ w = VSeq [VSeq []].
Proof.
  exists names1, names2, (VSeq [VSeq [a_str [97]; a_str [98]]]). do 3 eexists.
  split; [apply names_compile|]. split; [apply names_compile|]. split.
  { apply later_only. split; [exists [opt]; reflexivity|]. apply ef_keep.
    - repeat split. right. split; [reflexivity|]. exists 2. split; [reflexivity|]. vm_compute. reflexivity.
    - apply ef_add; [vm_compute; reflexivity|constructor]. }
  split; [apply wtb_ok; vm_compute; reflexivity|]. split; [vm_compute; reflexivity|]. split; [vm_compute; reflexivity|]. split; [vm_compute; reflexivity|]. split; reflexivity.
Qed.

(** An optimised enum whose variant has a field replaced by another of the same type: neither the [convert_fn] of the
    one nor the [default_fn] of the other is called; the new field gets the old one's value. *)
Definition cell1 : mitem := mkItem [IEntry 1 [EOptimised]] []
  (KEnum [mkMvariant 0 [VSize SVarlen] [mkMfield (TInt U8) (Ok (VInt 0)) []]]).
Definition cell2 : mitem := mkItem [IEntry 1 [EOptimised]; IEntry 2 [EOptimised]] []
  (KEnum [mkMvariant 0 [VSize SVarlen] [mkMfield (TInt U8) (Ok (VInt 0)) [FEnd 2; FConvert (fun this _ _ => Ok this)];
                                        mkMfield (TInt U8) (Ok (VInt 0)) [FStart 2; FDefault (fun _ => Ok (VInt 9))]]]).
Lemma cell_compile : compiles cell1 /\ compiles cell2.
Proof.
  split; (split; [split; [|split; [repeat constructor; intros []|vm_compute; discriminate]]; intros fs f (v & [<-|[]] & ->) Hf; repeat destruct Hf as [<-|Hf]; try destruct Hf; apply fits_by; reflexivity|eexists; reflexivity]).
Qed.
Theorem C18_optimised_fields_refuted : exists i i' v b v' w,
  compiles i /\ compiles i' /\ later (only (schema_of i)) (only (schema_of i'))
  /\ wt (only (schema_of i)) 1 (TRef 1) v /\ to_vec (only (schema_of i)) 1 (TRef 1) v = Ok b
  /\ migrate (only (schema_of i)) (only (schema_of i')) 1 (TRef 1) v = Ok v'
  /\ from_slice (only (schema_of i')) 1 (TRef 1) b = Ok w
  /\ v' = VVar 0 [VInt 9] /\ w = VVar 0 [VInt 5].
Proof.
  exists cell1, cell2, (VVar 0 [VInt 5]). do 3 eexists.
  split; [apply cell_compile|]. split; [apply cell_compile|]. split.
  { apply later_only. split; [exists [opt]; reflexivity|]. apply ev_keep; [|constructor].
    split; [reflexivity|]. split; [reflexivity|]. split; [right; reflexivity|]. split; [intros x _; reflexivity|]. split; [left; reflexivity|]. apply ef_keep.
    - repeat split. right. split; [reflexivity|]. exists 2. split; [reflexivity|]. vm_compute. reflexivity.
    - apply ef_add; [vm_compute; reflexivity|constructor]. }
  split; [apply wtb_ok; vm_compute; reflexivity|]. split; [vm_compute; reflexivity|]. split; [vm_compute; reflexivity|]. split; [vm_compute; reflexivity|]. split; reflexivity.
Qed.

(** A size class that is changed along with a new revision: nothing ties it to the revisions that used the old one,
    and their data is no longer read. *)
Definition sized (z : vsize) (l : list iopt) : mitem := mkItem l [] (KEnum [mkMvariant 0 [VSize z] [mkMfield (TInt U8) (Ok (VInt 0)) []]]).
Theorem C18_size_class_refuted : exists i i' v b,
  compiles i /\ compiles i' /\ i = sized SVarlen [IEntry 1 [EOptimised]] /\ i' = sized (SFixed 1) [IEntry 1 [EOptimised]; IEntry 2 [EOptimised]]
  /\ wt (only (schema_of i)) 1 (TRef 1) v /\ to_vec (only (schema_of i)) 1 (TRef 1) v = Ok b
  /\ from_slice (only (schema_of i')) 1 (TRef 1) b = Err (EDeserialize MUnknownVariant).
Proof.
  exists (sized SVarlen [IEntry 1 [EOptimised]]), (sized (SFixed 1) [IEntry 1 [EOptimised]; IEntry 2 [EOptimised]]), (VVar 0 [VInt 5]). eexists.
  assert (C : forall z l, (exists x, expand (sized z l) = Done (schema_of (sized z l), x)) -> compiles (sized z l)).
  { intros z l Hx. split; [|exact Hx]. split; [|split; [repeat constructor; intros []|vm_compute; discriminate]]. intros fs f (v & [<-|[]] & ->) Hf; repeat destruct Hf as [<-|Hf]; try destruct Hf; apply fits_by; reflexivity. }
  split; [apply C; eexists; reflexivity|]. split; [apply C; eexists; reflexivity|]. split; [reflexivity|]. split; [reflexivity|].
  split; [apply wtb_ok; vm_compute; reflexivity|]. split; [vm_compute; reflexivity|]. vm_compute. reflexivity.
Qed.
Print Assumptions C17_removed_indexed_refuted.
Print Assumptions C18_optimised_fields_refuted.
Print Assumptions C18_size_class_refuted.
