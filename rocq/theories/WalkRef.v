(** Where walkers and decoders disagree: why the theorems of PropWalk.v restrict the derived types. *)

From Verif Require Import Base Prog Prim Tag Ty Ser De Typed Ex SliceReader Skip SkipIdx Walk.
From Coq Require Import List NArith ZArith Bool.
Import ListNotations.
Open Scope N_scope.

(** A program with one derived type. *)
Definition only (s : schema) : env := ex_env (fun n => if n =? 1 then Some s else None).
Lemma wf_only : forall s, wf_schemab s = true -> wf_env (only s).
Proof. intros s H. apply wf_ex. intros n s' Hs. destruct (n =? 1); [|discriminate]. inversion Hs; subst. apply wf_schemab_ok, H. Qed.
Definition leg : hent := mkHent false false.
Definition opt : hent := mkHent true false.
Definition ixd : hent := mkHent true true.
Definition decodes (s : schema) (b : bytes) (v : val) (rest : bytes) : Prop := run (deserialize (only s) 1 (TRef 1)) b = Ok (v, rest).
Definition encodes (s : schema) (v : val) (b : bytes) : Prop := wt (only s) 1 (TRef 1) v /\ to_vec (only s) 1 (TRef 1) v = Ok b /\ decodes s b v [].
Definition walks (s : schema) (b : bytes) (a : act) : res (obs * bytes) := rmap (fun p => (fst p, sr_inner (snd p))) (walk_with (only s) 9 1 (TRef 1) a (mkSR b (len b))).
Ltac case_by := match goal with |- wf_env _ => apply wf_only | |- _ => idtac end; vm_compute; reflexivity.
Ltac enc_by := split; [apply wtb_ok; vm_compute; reflexivity|split; vm_compute; reflexivity].

(** A [fixed] field: the walker reads a varint. *)
Definition r_fixed : schema := mkSchema [leg] (SStruct [fixedf (fld (TInt U32) 1 None)]).
Theorem C37_fixed_refuted : exists s v b, wf_env (only s) /\ encodes s (VSeq [v]) b /\ v = VInt 300
  /\ walks s b (Field Decode Rest) = Ok (OCons (OVal (VInt 44)) ODone, [1; 0; 0]).
Proof. exists r_fixed, (VInt 300), [1; 44; 1; 0; 0]. split; [case_by|]. split; [enc_by|]. split; [reflexivity|]. vm_compute. reflexivity. Qed.

(** [decode_<field>] of an [indexed_seq] field of an indexed struct: the walker uses the plain decoder. *)
Definition r_indexed : schema := mkSchema [ixd] (SStruct [idxd ISeq (fld (TVec TStr) 1 None)]).
Theorem C37_indexed_refuted : exists s v b, wf_env (only s) /\ encodes s (VSeq [v]) b /\ v = VSeq [a_str [97]; a_str [98]]
  /\ walks s b (Field Decode Rest) = Ok (OCons (OVal (VSeq [])) ODone, []).
Proof.
  exists r_indexed, (VSeq [a_str [97]; a_str [98]]), [1; 10; 0; 0; 0; 4; 0; 0; 0; 0; 2; 1; 97; 1; 98]. split; [case_by|]. split; [enc_by|]. split; [reflexivity|]. vm_compute. reflexivity.
Qed.
(** The same field at a revision that is not optimised: the walker expects the indexed form. *)
Definition r_legacy : schema := mkSchema [leg] (SStruct [idxd ISeq (fld (TVec TStr) 1 None)]).
Theorem C37_legacy_indexed_refuted : exists s v b, wf_env (only s) /\ encodes s (VSeq [v]) b /\ v = VSeq [a_str [97]; a_str [98]]
  /\ walks s b (Field Decode Rest) = Err EIo /\ walks s b (Field Skip Rest) = Err EIo.
Proof. exists r_legacy, (VSeq [a_str [97]; a_str [98]]), [1; 2; 1; 97; 1; 98]. split; [case_by|]. split; [enc_by|]. split; [reflexivity|]. split; vm_compute; reflexivity. Qed.
(** [walk_<field>] of an [indexed_*] field the data does not have yet: [decode_<field>] uses the default,
    [walk_<field>] reads what follows. *)
Definition r_view : schema := mkSchema [leg; leg] (SStruct [with_default (VSeq []) (idxd ISeq (fld (TVec TStr) 2 None)); fld (TVec TBool) 1 None]).
Definition r_view_bytes : bytes := [1; 0; 0; 0; 0; 9].
Theorem C37_view_refuted : exists s b x, wf_env (only s) /\ decodes s b (VSeq [VSeq []; VSeq []]) x /\ x = [0; 0; 0; 9]
  /\ walks s b (Field Decode Rest) = Ok (OCons (OVal (VSeq [])) ODone, x)
  /\ walks s b (Field View Rest) = Ok (OCons (OBytes [0; 0]) ODone, [0; 9]).
Proof. exists r_view, r_view_bytes, [0; 0; 0; 9]. split; [case_by|]. repeat split; vm_compute; reflexivity. Qed.
(** Older data of an indexed struct: the walker looks up the fields of the current revision in the table of
    the older one, and indexes past its end. *)
Definition r_older : schema := mkSchema [ixd; ixd] (SStruct [fld (TInt U8) 1 None; with_default (VInt 9) (fld (TInt U8) 2 None)]).
Theorem C37_older_indexed_refuted : exists s b, wf_env (only s) /\ decodes s b (VSeq [VInt 6; VInt 9]) [] /\ walks s b (Field Decode Rest) = Panic PSlice.
Proof. exists r_older, [1; 5; 0; 0; 0; 4; 0; 0; 0; 6]. split; [case_by|]. split; vm_compute; reflexivity. Qed.
(** An optimised struct whose length says more than its fields take: the decoder goes by the length. *)
Definition r_length : schema := mkSchema [opt] (SStruct [fld (TInt U8) 1 None]).
Theorem C37_length_refuted : exists s b, wf_env (only s) /\ decodes s b (VSeq [VInt 9]) [55] /\ walks s b (Field Decode Rest) = Ok (OCons (OVal (VInt 9)) ODone, [8; 7; 55]).
Proof. exists r_length, [1; 3; 0; 0; 0; 9; 8; 7; 55]. split; [case_by|]. split; vm_compute; reflexivity. Qed.
(** Older data of a type with [convert_fn]s whose current revision is optimised: the walker over the copy
    starts at the length, or takes the tag for the discriminant. *)
Definition r_copy : schema := mkSchema [leg; opt]
  (SStruct [with_convert (fun this _ v => match this with [_; y] => Ok [v; y] | _ => Ok this end) (fld (TInt U8) 1 (Some 2)); with_default (VInt 0) (fld (TInt U8) 2 None); fld (TInt U8) 1 None]).
Theorem C37_optimised_copy_refuted : exists s b, wf_env (only s) /\ decodes s b (VSeq [VInt 6; VInt 7]) []
  /\ walks s b (Field Decode (Field Decode Rest)) = Ok (OCons (OVal (VInt 2)) (OCons (OVal (VInt 0)) ODone), []).
Proof. exists r_copy, [1; 6; 7]. split; [case_by|]. split; vm_compute; reflexivity. Qed.
Theorem C38_optimised_copy_refuted : exists b, wf_env new /\ run (deserialize new 1 (TRef 2)) b = Ok (VVar 0 [VInt 0], [])
  /\ walk_with new 9 1 (TRef 2) (DecodeVar 0) (mkSR b 0) = Err (EDeserialize (MOther 2)).
Proof. exists [1; 1]. split; [exact wf_new|]. split; vm_compute; reflexivity. Qed.
(** A field added to an existing variant: [decode_<variant>] on older data reads what follows. *)
Definition r_added : schema := mkSchema [leg; leg] (SEnum [var 0 1 None None [with_default (VInt 9) (fld (TInt U8) 2 None)]]).
Theorem C38_added_field_refuted : exists s b, wf_env (only s) /\ decodes s b (VVar 0 [VInt 9]) [77] /\ walks s b (DecodeVar 0) = Ok (OVal (VInt 77), []).
Proof. exists r_added, [1; 0; 77]. split; [case_by|]. split; vm_compute; reflexivity. Qed.
(** A variant inserted into an optimised enum: on older data [is_<variant>] compares with the discriminants of
    the current revision, and the walker shows another variant than the decoder. *)
Definition r_inserted : schema := mkSchema [opt; opt]
  (SEnum [var 0 1 None (Some (SFixed 1)) [fld (TInt U8) 1 None]; var 1 2 None (Some (SFixed 1)) [fld (TInt U8) 1 None]; var 2 1 None (Some (SFixed 1)) [fld (TInt U8) 1 None]]).
Theorem C38_inserted_variant_refuted : exists s b, wf_env (only s) /\ decodes s b (VVar 2 [VInt 5]) []
  /\ walks s b (DecodeVar 1) = Ok (OVal (VInt 5), []) /\ walks s b (DecodeVar 2) = Err (EDeserialize (MOther 2)).
Proof. exists r_inserted, [1; 33; 5]. split; [case_by|]. repeat split; vm_compute; reflexivity. Qed.
(** [NotNan]: the walker shows the float, and takes a NaN the decoder refuses (external type 0 refuses 0). *)
Theorem C39_notnan_refuted : exists t b, t = TExt 0 false TF32 /\ run (deserialize new 1 t) b = Err (EDeserialize (MExternal 0))
  /\ walk_with new 9 1 t Decode (mkSR b 0) = Ok (OVal (VInt 0), mkSR [] 0).
Proof. exists (TExt 0 false TF32), [0; 0; 0; 0]. split; [reflexivity|]. split; vm_compute; reflexivity. Qed.
(** An entry abandoned between its key and its value (walk.rs:625-630 calls it a programming error): every later
    call succeeds, but the next entry is made of the value of this one and the key of the next. *)
Theorem C39_abandoned_refuted : forall k1 v1 k2 v2 o,
  run (deserialize new 1 (TMap KOrd (TInt U8) (TInt U8))) [2; 1; 2; 3; 4] = Ok (VSeq [VPair (VInt 1) (VInt 2); VPair (VInt 3) (VInt 4)], [])
  /\ map_session new 9 1 (TInt U8) (TInt U8) [NextEntry; DecodeKey; NextEntry; DecodeKey; DecodeValue; Remaining] (mkSR [2; k1; v1; k2; v2] o)
     = Ok ([Ok ODone; Ok (OVal (VInt (Z.of_N k1))); Ok ODone; Ok (OVal (VInt (Z.of_N v1))); Ok (OVal (VInt (Z.of_N k2))); Ok (OVal (VInt 1))],
           Some (mkMS (mkSR [v2] o) 1 None)).
Proof. intros. split; vm_compute; reflexivity. Qed.
Print Assumptions C37_fixed_refuted.
Print Assumptions C37_indexed_refuted.
Print Assumptions C37_legacy_indexed_refuted.
Print Assumptions C37_view_refuted.
Print Assumptions C37_older_indexed_refuted.
Print Assumptions C37_length_refuted.
Print Assumptions C37_optimised_copy_refuted.
Print Assumptions C38_optimised_copy_refuted.
Print Assumptions C38_added_field_refuted.
Print Assumptions C38_inserted_variant_refuted.
Print Assumptions C39_notnan_refuted.
Print Assumptions C39_abandoned_refuted.
