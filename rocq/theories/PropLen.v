(** C74: which values can be encoded, and how long their encoding is. *)

From Verif Require Import Base BaseL Prog ProgL Prim Utf8 Ty Ser De Typed RtId OrderFree WireSize WireSizeL Ex.
From Coq Require Import List NArith ZArith Bool Lia Permutation.
Import ListNotations.
Open Scope N_scope.

(** C74.  [wire_size] (WireSize.v) is computed from the value; it is the length of what [to_vec] returns ... *)
Theorem C74_length : forall E d t v b, wf_env E -> wt E d t v -> to_vec E d t v = Ok b -> wire_size E d t v = Some (len b).
Proof.
  intros E d t v b W Hw H. pose proof (sz_writer E W d t v Hw) as Hz. unfold to_vec, ser_bytes in H.
  destruct (to_writer E d t v) as [ops|e|p]; try discriminate. cbn [rmap] in H. apply (f_equal (fun r => match r with Ok x => x | _ => [] end)) in H. subst b.
  cbn [sz] in Hz. destruct (wire_size E d t v) as [n|]; [subst n; reflexivity|contradiction].
Qed.
(** ... and [to_vec] succeeds whenever there is one. *)
Theorem C74_encodes : forall E d t v n, wf_env E -> wt E d t v -> wire_size E d t v = Some n ->
  exists b, to_vec E d t v = Ok b /\ len b = n.
Proof.
  intros E d t v n W Hw H. pose proof (sz_writer E W d t v Hw) as Hz. rewrite H in Hz. unfold to_vec, ser_bytes.
  destruct (to_writer E d t v) as [ops|e|p]; cbn [sz] in Hz; try contradiction. exists (out ops). split; [reflexivity|exact Hz].
Qed.
(** So neither success nor length depends on the order in which hash tables and heaps iterate. *)
Theorem C74_any_order : forall E it d t v b, wf_env E -> permutes it -> wt E d t v ->
  to_vec E d t v = Ok b -> exists b', to_vec (set_iter it E) d t v = Ok b' /\ len b' = len b.
Proof.
  intros E it d t v b W P Hw H. apply (C74_encodes (set_iter it E) d t v (len b)).
  - destruct W as [W1 W2 W3 W4 W5 W6 W7]. split; assumption.
  - exact Hw.
  - change (wire_size (set_iter it E) d t v) with (wire_size E d t v). apply C74_length; assumption.
Qed.
Theorem C74_any_order_fails : forall E it d t v, wf_env E -> permutes it -> wt E d t v ->
  (forall b, to_vec E d t v <> Ok b) -> forall b, to_vec (set_iter it E) d t v <> Ok b.
Proof.
  intros E it d t v W P Hw H b Hb. apply (C74_length (set_iter it E)) in Hb; [|destruct W as [W1 W2 W3 W4 W5 W6 W7]; split; assumption|exact Hw].
  destruct (C74_encodes E d t v (len b) W Hw Hb) as (b' & Hb' & _). exact (H b' Hb').
Qed.

(** ** The hypotheses are satisfiable *)
Example C74_case : exists b, to_vec new 2 (TRef 1) u_new = Ok b /\ wire_size new 2 (TRef 1) u_new = Some 180 /\ len b = 180
  /\ wf_env new /\ wt new 2 (TRef 1) u_new /\ permutes (fun _ l => rev l).
Proof.
  eexists. split; [vm_compute; reflexivity|]. split; [vm_compute; reflexivity|]. split; [vm_compute; reflexivity|]. split; [exact wf_new|]. split; [exact wt_new|].
  intros t l. apply Permutation_sym, Permutation_rev.
Qed.
(** The bytes do depend on the order. *)
Example C74_bytes_differ : exists b b', let v := VSeq [VInt 1; VInt 2] in
  to_vec new 0 (TSet KHash (TInt U8)) v = Ok b /\ to_vec (set_iter (fun _ l => l) new) 0 (TSet KHash (TInt U8)) v = Ok b' /\ len b = len b' /\ b <> b'.
Proof. do 2 eexists. cbv zeta. split; [vm_compute; reflexivity|]. split; [vm_compute; reflexivity|]. split; [reflexivity|discriminate]. Qed.

Print Assumptions C74_length.
Print Assumptions C74_encodes.
Print Assumptions C74_any_order.
Print Assumptions C74_any_order_fails.
