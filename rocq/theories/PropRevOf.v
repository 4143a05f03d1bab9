(** C90: what [revision()] says about data. *)

From Verif Require Import Base BaseL Prog ProgL Prim Tag Ty Ser De Typed RtL Ex PropMig PropWire RevOf.
From Coq Require Import List NArith ZArith Bool Lia.
Import ListNotations.
Open Scope N_scope.

(** ** Specification *)

(** The derived type at the bottom of a chain of wrappers. *)
Inductive holds_derived (n : N) : list wrapper -> named -> Prop :=
| hd_here : holds_derived n [] (NDerived n)
| hd_in : forall w ws a, holds_derived n ws a -> holds_derived n (w :: ws) (NWrap w a).
(** The bytes begin with the encoding of the revision number [r]. *)
Definition headed (E : env) (r : N) (b : bytes) : Prop :=
  exists header payload, b = header ++ payload /\ to_vec E 0 (TInt U16) (VInt (Z.of_N r)) = Ok header.

(** ** Proofs *)
Lemma chain_ser : forall E d n ws a v, holds_derived n ws a -> to_vec E d (as_ty a) v = to_vec E d (TRef n) v.
Proof. intros E d n ws a v H. induction H; [reflexivity|]. cbn [as_ty]. rewrite <- IHholds_derived. reflexivity. Qed.
Lemma chain_de : forall E d n ws a, holds_derived n ws a -> deserialize E d (as_ty a) = deserialize E d (TRef n).
Proof. intros E d n ws a H. induction H; [reflexivity|]. cbn [as_ty]. rewrite <- IHholds_derived. reflexivity. Qed.

(** What a derived type writes, in whatever wrappers, begins with the derived type's [revision()]. *)
Theorem C90_header : forall E d n ws a v b, holds_derived n ws a -> e_sch E n <> None ->
  to_vec E d (as_ty a) v = Ok b -> headed E (revision E (NDerived n)) b.
Proof.
  intros E d n ws a v b H Hs Hb. rewrite (chain_ser E d n ws a v H) in Hb. cbn [revision]. destruct (e_sch E n) as [s|] eqn:Es; [|contradiction].
  destruct d as [|d]; [discriminate Hb|]. destruct (C20_header_is_current E d n s v b Es Hb) as (h & p & -> & Hh). exists h, p. split; [reflexivity|exact Hh].
Qed.
(** It is also the wrapper's own [revision()] exactly if all the wrappers are [Cow]s or the type has had one revision only. *)
Theorem C90_wrappers : forall E n ws a, holds_derived n ws a ->
  (revision E a = revision E (NDerived n) <-> (forall w, In w ws -> w = WCow) \/ revision E (NDerived n) = 1).
Proof.
  intros E n ws a H. induction H as [|w ws a H IH].
  - split; [intros _; left; intros w []|reflexivity].
  - destruct w; cbn [revision] in *; try (split; [intros K; right; symmetry; exact K|intros [K|K]; [discriminate (K _ (or_introl eq_refl))|symmetry; exact K]]).
    rewrite IH. split; (intros [K|K]; [left|right; exact K]).
    + intros w [<-|Hw]; [reflexivity|exact (K w Hw)].
    + intros w Hw. exact (K w (or_intror Hw)).
Qed.
(** So of a box it does not tell what the box writes. *)
Theorem C90_box_refuted : exists E n s v b, wf_env E /\ e_sch E n = Some s /\ wt E 2 (as_ty (NWrap WBox (NDerived n))) v
  /\ to_vec E 2 (as_ty (NWrap WBox (NDerived n))) v = Ok b
  /\ ~ headed E (revision E (NWrap WBox (NDerived n))) b /\ headed E (revision E (NWrap WCow (NDerived n))) b.
Proof.
  exists new, 1. destruct (e_sch new 1) as [s|] eqn:Es; [|discriminate]. exists s, u_new, u_new_bytes.
  split; [exact wf_new|]. split; [reflexivity|]. split; [exact wt_new|]. split; [vm_compute; reflexivity|]. split.
  - intros (h & p & H1 & H2). vm_compute in H2. apply Ok_inj in H2. subst h. vm_compute in H1. discriminate H1.
  - destruct (C90_header new 2 1 [] (NDerived 1) u_new u_new_bytes) as (h & p & H1 & H2); [constructor|discriminate|vm_compute; reflexivity|].
    exists h, p. split; [exact H1|]. exact H2.
Qed.
(** Data of a later revision than the derived type's [revision()], or of revision 0, is not read. *)
Theorem C90_readable : forall E d n ws a bs v rest, holds_derived n ws a -> e_sch E n <> None ->
  run (deserialize E d (as_ty a)) bs = Ok (v, rest) ->
  exists r y, run (deserialize E d (TInt U16)) bs = Ok (VInt (Z.of_N r), y) /\ 1 <= r <= revision E (NDerived n).
Proof.
  intros E d n ws a bs v rest H Hs R. rewrite (chain_de E d n ws a H) in R. cbn [revision]. destruct (e_sch E n) as [s|] eqn:Es; [|contradiction].
  destruct d as [|d]; [discriminate R|]. unfold deserialize in *. cbn [de_ty de_ref] in R. rewrite Es in R. unfold de_derived in R. rewrite run_bind in R.
  destruct (run (de_u16 (e_fw E)) bs) as [[r y]|e|x] eqn:Q; try discriminate R.
  exists r, y. split.
  - cbn [de_ty de_int]. rewrite run_bind. cbn [run]. rewrite run_bind, Q. reflexivity.
  - unfold de_body in R. destruct (sent s r) as [h|] eqn:Eh; [|discriminate R]. unfold sent in Eh. destruct (N.eqb_spec r 0) as [->|H0]; [discriminate Eh|].
    assert (K : nth_error (s_hist s) (N.to_nat (r - 1)) <> None) by (rewrite Eh; discriminate). apply nth_error_Some in K. unfold scur, len. lia.
Qed.

(** ** Cases *)
Example C90_case_chain : holds_derived 1 [WCow; WBox] (NWrap WCow (NWrap WBox (NDerived 1)))
  /\ revision new (NWrap WCow (NWrap WBox (NDerived 1))) = 1 /\ revision new (NWrap WCow (NWrap WCow (NDerived 1))) = revision new (NDerived 1)
  /\ revision new (NDerived 1) <> 1.
Proof. split; [repeat constructor|]. repeat split; vm_compute; [reflexivity..|discriminate]. Qed.
Example C90_case_read : exists v, run (deserialize new 2 (as_ty (NWrap WArc (NDerived 1)))) u_new_bytes = Ok (v, []).
Proof. exists u_new. vm_compute. reflexivity. Qed.

Print Assumptions C90_header.
Print Assumptions C90_wrappers.
Print Assumptions C90_box_refuted.
Print Assumptions C90_readable.
