(** C44: transparent wrappers (Box, Arc, Cow, Wrapping, Reverse) leave the bytes unchanged. *)

From Verif Require Import Base BaseL Prog ProgL Prim PrimL Ty Ser De Typed SortL RtL SliceReader Skip PropSkip Ex Transp TranspL.
From Coq Require Import List NArith ZArith Bool Lia Permutation.
Import ListNotations.
Open Scope N_scope.

(** Adding or removing wrappers anywhere in a type, and in the fields of all derived types below it, changes no
    encoding ([S]: the derived types of the other program). *)
Theorem C44_encode : forall E S d t t' v, rewrapped E S -> same_wire E t t' ->
  to_writer E d t v = to_writer (set_sch E S) d t' v.
Proof. intros E S d t t' v HS H. apply to_writer_same; assumption. Qed.
(** The same bytes decode to the same value, leave the same rest, or fail with the same error. *)
Theorem C44_decode : forall E S d t t' bs, e_mem E = None -> rewrapped E S -> same_wire E t t' ->
  run (deserialize E d t) bs = run (deserialize (set_sch E S) d t') bs.
Proof. intros E S d t t' bs HM HS H. apply deserialize_same; assumption. Qed.
(** Skipping, from readers and from slices. *)
Theorem C44_skip : forall E S d t t' bs, e_mem E = None -> rewrapped E S -> same_wire E t t' ->
  run (skip E d t) bs = run (skip (set_sch E S) d t') bs.
Proof. intros E S d t t' bs HM HS H. apply skip_same; assumption. Qed.
Theorem C44_skip_slice : forall E S d t t' bs n, e_mem E = None -> rewrapped E S -> same_wire E t t' ->
  (skip_slice E d t bs = Ok n <-> skip_slice (set_sch E S) d t' bs = Ok n).
Proof.
  intros E S d t t' bs n HM HS H. rewrite !C13_skip_slice.
  split; intros (rest & K & R); exists rest; (split; [|exact R]); rewrite <- K; [symmetry|]; apply skip_same; assumption.
Qed.
(** In particular, a wrapper around a whole type. *)
Theorem C44_wrapper : forall E d t,
  (forall v, to_writer E d (TWrap t) v = to_writer E d t v)
  /\ (forall bs, run (deserialize E d (TWrap t)) bs = run (deserialize E d t) bs)
  /\ (forall bs, run (skip E d (TWrap t)) bs = run (skip E d t) bs)
  /\ (forall bs, run (skip_check E d (TWrap t)) bs = run (deserialize E d t ;;; Ret tt) bs).
Proof. intros E d t. repeat split. Qed.

(** Every program can box every plain field. *)
Definition boxed_field (f : field) : field :=
  if f_fixed f || f_spec f || negb (match f_idx f with INone => true | _ => false end) then f
  else mkField (TWrap (f_ty f)) (f_start f) (f_end f) (f_default f) (f_convert f) (f_fixed f) (f_spec f) (f_idx f).
Definition boxed_variant (v : variant) : variant :=
  mkVariant (v_name v) (v_start v) (v_end v) (v_over v) (v_size v) (map boxed_field (v_fields v)) (v_convert v).
Definition boxed (s : schema) : schema :=
  MkSchema (s_hist s) (match s_body s with SStruct fs => SStruct (map boxed_field fs) | SEnum vs => SEnum (map boxed_variant vs) end) (s_conv s).
Lemma boxed_fields_same : forall E fs, Forall2 (same_field E) fs (map boxed_field fs).
Proof.
  intros E fs. induction fs as [|f fs IH]; cbn [map]; constructor; [|exact IH]. unfold boxed_field, same_field.
  destruct (f_fixed f) eqn:E1; [cbn; auto 10|]. destruct (f_spec f) eqn:E2; [cbn; auto 10|]. destruct (f_idx f) eqn:E3; cbn; auto 10.
  repeat split; auto. right. repeat split; auto. apply sw_wrap_r, sw_refl.
Qed.
Example boxed_rewrapped : forall E, rewrapped E (fun n => option_map boxed (e_sch E n)).
Proof.
  intros E n. destruct (e_sch E n) as [s|]; [|exact I]. cbn [option_map]. split; [reflexivity|]. cbn [boxed s_body].
  destruct (s_body s) as [fs|vs]; [apply boxed_fields_same|].
  induction vs as [|v vs IH]; cbn [map]; constructor; [|exact IH]. unfold same_variant. cbn. repeat split; auto. apply boxed_fields_same.
Qed.
Example boxed_user : to_vec new 3 (TRef 1) u_new = to_vec (set_sch new (fun n => option_map boxed (e_sch new n))) 3 (TWrap (TRef 1)) u_new
  /\ exists b, to_vec new 3 (TRef 1) u_new = Ok b /\ b <> [].
Proof.
  split.
  - unfold to_vec. rewrite (C44_encode new (fun n => option_map boxed (e_sch new n)) 3 (TRef 1) (TWrap (TRef 1)) u_new (boxed_rewrapped new)); [reflexivity|].
    apply sw_wrap_r, sw_refl.
  - eexists. split; [vm_compute; reflexivity|discriminate].
Qed.

(** The restrictions are needed.  With specialised-vectors, a vector of wrapped numbers has another encoding. *)
Theorem C44_specialised_refuted : wf_env new /\
  exists v b b', wt new 0 (TVec (TWrap (TInt U32))) v /\ wt new 0 (TVec (TInt U32)) v
    /\ to_vec new 0 (TVec (TWrap (TInt U32))) v = Ok b /\ to_vec new 0 (TVec (TInt U32)) v = Ok b' /\ b <> b'.
Proof.
  split; [apply wf_new|]. exists (VSeq [VInt 1; VInt 2]). eexists. eexists.
  split; [apply wtb_ok; vm_compute; reflexivity|]. split; [apply wtb_ok; vm_compute; reflexivity|].
  split; [vm_compute; reflexivity|]. split; [vm_compute; reflexivity|]. discriminate.
Qed.
(** A program whose wrapper is [Reverse]: a set of wrapped numbers is written in the opposite order. *)
Definition rev_env : env := mkEnv false true true 64 None (fun _ => 8)
  (fun t x y => match t with TWrap _ => vcmp y x | _ => vcmp x y end) (fun _ l => rev l) (fun b => b) (fun _ v => Some v) (2 ^ 62)%Z (fun _ => None).
Lemma wf_rev_env : wf_env rev_env.
Proof.
  constructor; cbn [rev_env e_ub e_cmp e_iter e_dec e_ext e_time e_sch].
  - auto.
  - intros t. assert (L : lawful (fun x y => vcmp x y)) by apply vcmp_lawful.
    assert (R : lawful (fun x y => vcmp y x)).
    { pose proof (proj1 (lawful_order _) vcmp_lawful) as O. constructor.
      - intros x y. apply (o_sym _ O).
      - intros x y z H1 H2. exact (o_lt _ O _ _ _ H2 H1).
      - intros x y z H. apply (o_eq_r _ _ O). exact H. }
    destruct t; first [exact L|exact R].
  - intros; apply Permutation_sym, Permutation_rev.
  - auto.
  - congruence.
  - lia.
  - discriminate.
Qed.
Theorem C44_reverse_refuted : wf_env rev_env /\
  exists l l' b b', Permutation l l' /\ wt rev_env 0 (TSet KOrd (TInt U32)) (VSeq l) /\ wt rev_env 0 (TSet KOrd (TWrap (TInt U32))) (VSeq l')
    /\ to_vec rev_env 0 (TSet KOrd (TInt U32)) (VSeq l) = Ok b /\ to_vec rev_env 0 (TSet KOrd (TWrap (TInt U32))) (VSeq l') = Ok b' /\ b <> b'.
Proof.
  split; [exact wf_rev_env|]. exists [VInt 1; VInt 2], [VInt 2; VInt 1]. eexists. eexists. split; [apply perm_swap|].
  split; [apply wtb_ok; vm_compute; reflexivity|]. split; [apply wtb_ok; vm_compute; reflexivity|].
  split; [vm_compute; reflexivity|]. split; [vm_compute; reflexivity|]. discriminate.
Qed.

Print Assumptions C44_encode.
Print Assumptions C44_decode.
Print Assumptions C44_skip.
Print Assumptions C44_skip_slice.
Print Assumptions C44_wrapper.
Print Assumptions C44_specialised_refuted.
Print Assumptions C44_reverse_refuted.
