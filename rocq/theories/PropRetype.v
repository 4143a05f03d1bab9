(** C60: changing the type of a field in place. *)

From Verif Require Import Base BaseL Prog ProgL Prim PrimL Utf8 Ty Ser De Typed Mig SortL RtL Agree Spec Cross Ex WalkRef Yield Transp Retype RetypeL RetypeS PropWire PropFormat.
From Coq Require Import List NArith ZArith Bool Lia Permutation.
Import ListNotations.
Open Scope N_scope.

(** [widens E o t t']: which changes of type are meant (Retype.v); [retyped E o S]: the derived types of the changed program,
    [set_sch E S], differ from those of [E] in such changes of their fields only. *)
Lemma widens_mem : forall E o t t', widens E o t t' -> widens (set_mem None E) o t t'.
Proof. intros E o t t' H. induction H; try (econstructor; eassumption). Qed.
Lemma retyped_mem : forall E o S, retyped E o S -> retyped (set_mem None E) o S.
Proof.
  intros E o S H n. specialize (H n). cbn [set_mem e_sch].
  assert (F : forall f f', retyped_field E o f f' -> retyped_field (set_mem None E) o f f').
  { intros f f' (H1 & H2 & H3 & H4 & H5 & H6 & H7 & K). repeat split; auto. destruct K as [K|(K & R)]; [left; exact K|right; split; [apply widens_mem, K|exact R]]. }
  destruct (e_sch E n) as [s|], (S n) as [s'|]; try contradiction; [|exact I]. destruct H as [Hh H]. split; [exact Hh|].
  assert (G : forall fs fs', Forall2 (retyped_field E o) fs fs' -> Forall2 (retyped_field (set_mem None E) o) fs fs').
  { intros fs fs' K. induction K; constructor; auto. }
  destruct (s_body s) as [fs|vs], (s_body s') as [fs'|vs']; try contradiction; [apply G, H|].
  induction H as [|v v' vs vs' Hv H IH]; constructor; [|exact IH]. destruct Hv as (H1 & H2 & H3 & H4 & H5 & H6 & H7). repeat split; auto.
Qed.
Lemma mem_widens : forall E o t t', widens (set_mem None E) o t t' -> widens E o t t'.
Proof. intros E o t t' H. induction H; try (econstructor; eassumption). Qed.

(** Whatever the program accepted before the change, from anywhere, it accepts after it, with the same value and the same
    rest of the input. *)
Theorem C60_widening : forall E o S d t t' bs v rest,
  wf_env E -> retyped E o S -> widens E o t t' -> wfb bs ->
  run (deserialize E d t) bs = Ok (v, rest) -> or_oom E (run (deserialize (set_sch E S) d t') bs) (Ok (v, rest)).
Proof.
  intros E o S d t t' bs v rest W HS Ht Hb H.
  assert (H0 : run (deserialize (set_mem None E) d t) bs = Ok (v, rest)).
  { destruct (mem_agree E d t bs) as [<-|(x & <- & K)]; [exact H|congruence]. }
  assert (Hub : 0 < e_ub (set_mem None E)) by (cbn [set_mem e_ub]; destruct (we_ub E W) as [->| ->]; reflexivity).
  pose proof (deserialize_up (set_mem None E) o S (retyped_mem E o S HS) eq_refl Hub d t t' (widens_mem E o t t' Ht) bs v rest Hb H0) as H1.
  change (set_sch (set_mem None E) S) with (set_mem None (set_sch E S)) in H1.
  destruct (e_mem E) as [m|] eqn:Em.
  - destruct (mem_agree (set_sch E S) d t' bs) as [->|(x & <- & K)]; [left; exact H1|right]. rewrite Em. split; [discriminate|exact K].
  - left. replace (set_mem None (set_sch E S)) with (set_sch E S) in H1; [exact H1|]. unfold set_mem, set_sch. cbn. rewrite Em. reflexivity.
Qed.
(** In particular everything it has written. *)
Theorem C60_old_data : forall E o S d d' t t' v b,
  wf_env E -> sizes_honest E -> retyped E o S -> widens E o t t' -> wt E d t v -> (d <= d')%nat ->
  to_vec E d t v = Ok b -> or_oom E (from_slice (set_sch E S) d' t' b) (Ok v).
Proof.
  intros E o S d d' t t' v b W Hh HS Ht Hw Hd Hs. assert (Hb : wfb b) by (eapply written_wfb; [| |exact Hs]; assumption).
  pose proof (same0 E d d' t v b [] W Hh Hw Hd Hs) as H0. rewrite app_nil_r in H0.
  assert (Wm : wf_env (set_mem None E)) by (apply wf_set_mem, W).
  destruct (C60_widening (set_mem None E) o S d' t t' b v [] Wm (retyped_mem _ _ _ HS) (widens_mem _ _ _ _ Ht) Hb H0) as [H|[K _]]; [|exfalso; apply K; reflexivity].
  change (set_sch (set_mem None E) S) with (set_mem None (set_sch E S)) in H. unfold from_slice.
  destruct (e_mem E) as [m|] eqn:Em.
  - destruct (mem_agree (set_sch E S) d' t' b) as [->|(x & <- & K)]; [left; rewrite H; reflexivity|right]. rewrite Em, K. split; [discriminate|reflexivity].
  - left. replace (set_mem None (set_sch E S)) with (set_sch E S) in H; [rewrite H; reflexivity|]. unfold set_mem, set_sch. cbn. rewrite Em. reflexivity.
Qed.
(** The program without the change, given data of the changed one, never takes it for another value: it returns the value
    that was written or fails. *)
Theorem C60_no_other_value : forall E o S d d' t t' v b v',
  wf_env E -> wf_env (set_sch E S) -> sizes_honest (set_sch E S) -> retyped E o S -> widens E o t t' ->
  wt (set_sch E S) d t' v -> (d <= d')%nat -> to_vec (set_sch E S) d t' v = Ok b ->
  from_slice E d' t b = Ok v' -> v' = v.
Proof.
  intros E o S d d' t t' v b v' W W' Hh HS Ht Hw Hd Hs Hf. assert (Hb : wfb b) by (eapply written_wfb; [| |exact Hs]; assumption).
  pose proof (same0 (set_sch E S) d d' t' v b [] W' Hh Hw Hd Hs) as H0. rewrite app_nil_r in H0.
  unfold from_slice in Hf. destruct (run (deserialize E d' t) b) as [[x r]|e|q] eqn:Er; try discriminate. cbn [rmap fst] in Hf. apply Ok_inj in Hf. subst x.
  assert (Er0 : run (deserialize (set_mem None E) d' t) b = Ok (v', r)).
  { destruct (mem_agree E d' t b) as [<-|(x & <- & K)]; [exact Er|congruence]. }
  assert (Wm : wf_env (set_mem None E)) by (apply wf_set_mem, W).
  destruct (C60_widening (set_mem None E) o S d' t t' b v' r Wm (retyped_mem _ _ _ HS) (widens_mem _ _ _ _ Ht) Hb Er0) as [H|[K _]]; [|exfalso; apply K; reflexivity].
  change (set_sch (set_mem None E) S) with (set_mem None (set_sch E S)) in H. rewrite H0 in H. apply Ok2 in H. symmetry. apply H.
Qed.
(** As long as the values fit the old types (and hash tables iterate in the same order), both write the same bytes, and both
    read them. *)
Theorem C60_same_bytes : forall E S d d' t t' v b,
  wf_env E -> sizes_honest E -> retyped E True S -> widens E True t t' -> wt E d t v -> (d <= d')%nat ->
  to_vec E d t v = Ok b ->
  to_vec (set_sch E S) d t' v = Ok b /\ or_oom E (from_slice E d' t b) (Ok v) /\ or_oom E (from_slice (set_sch E S) d' t' b) (Ok v).
Proof.
  intros E S d d' t t' v b W Hh HS Ht Hw Hd Hs. split; [|split].
  - eapply to_vec_up; eassumption.
  - eapply C01_round_trip; eassumption.
  - eapply C60_old_data; eassumption.
Qed.

(** [Vec<u8>] and [Bytes] are the same on the wire, in every configuration. *)
Definition byte_vals (b : bytes) : val := VSeq (map (fun x => VInt (Z.of_N x)) b).
Lemma rep_u8 : forall fw ub n bs, run (rep n (z <- de_int fw ub U8 ;; Ret (VInt z))) bs =
  match split_at (N.of_nat n) bs with Some (x, y) => Ok (map (fun x => VInt (Z.of_N x)) x, y) | None => Err EIo end.
Proof.
  intros fw ub. induction n as [|n IH]; intros bs.
  - cbn [rep run]. destruct bs; reflexivity.
  - cbn [rep]. rewrite run_bind, run_bind. cbn [de_int]. rewrite run_bind. unfold de_u8. destruct bs as [|b bs]; [reflexivity|].
    rewrite run_read_byte_cons. cbn [run]. rewrite run_bind, IH. replace (N.of_nat n) with (N.pred (N.of_nat (Datatypes.S n))) by lia. cbn [split_at].
    destruct (N.of_nat (Datatypes.S n)) eqn:En; [lia|]. destruct (split_at (N.pred (N.pos p)) bs) as [[x y]|]; reflexivity.
Qed.
Lemma chunks_1 : forall x, wfb x -> map (fun c => VInt (fixed_val false 1 c)) (chunks (length x) 1 x) = map (fun x => VInt (Z.of_N x)) x.
Proof.
  induction x as [|b x IH]; intros Hw; [reflexivity|]. apply wfb_cons in Hw. destruct Hw as [Hb Hw]. cbn [length chunks].
  assert (K : split_at 1 (b :: x) = Some ([b], x)) by (destruct x; reflexivity). rewrite K. cbn [map]. rewrite (IH Hw). f_equal. f_equal.
  unfold fixed_val. f_equal. cbn [le_val]. lia.
Qed.
Lemma de_len_lt : forall E bs n y, run (de_len E) bs = Ok (n, y) -> n < 2 ^ e_ub E.
Proof.
  intros E bs n y H. unfold de_len, de_usize in H. apply run_bind_inv in H. destruct H as (x & z & _ & H). cbn [run] in H. apply Ok2 in H. destruct H as [<- _].
  apply N.mod_lt, N.pow_nonzero. discriminate.
Qed.
Definition as_vec_u8 (v : val) : val := match v with VBytes b => byte_vals b | _ => v end.
Theorem C60_bytes : forall E d bs, wf_env E -> e_mem E = None -> wfb bs ->
  run (deserialize E d (TVec (TInt U8))) bs = rmap (fun p => (as_vec_u8 (fst p), snd p)) (run (deserialize E d TBytes) bs).
Proof.
  intros E d bs W HM Hb. unfold deserialize. cbn [de_ty]. unfold de_blob, de_bulk, de_seq, alloc. rewrite HM. cbn [bulk_of]. rewrite run_bind.
  destruct (run (de_len E) bs) as [[n y]|e|q] eqn:El.
  - assert (Hy : wfb y) by (eapply run_wfb; eassumption). assert (Hn : n < 2 ^ e_ub E) by (eapply de_len_lt; eassumption).
    rewrite run_bind, El. destruct (e_spec E).
    + rewrite run_bind, run_bind, El. destruct (N.eqb_spec n 0) as [->|H0]; [reflexivity|].
      change (N.of_nat 1) with 1. rewrite N.mul_1_r. replace (n <? 2 ^ e_ub E) with true by (symmetry; apply N.ltb_lt; exact Hn). cbn [bind].
      rewrite run_bind. cbn [read_n run]. destruct (split_at n y) as [[x r]|] eqn:Er; [|reflexivity]. cbn [run rmap fst snd as_vec_u8]. unfold byte_vals.
      apply split_at_some in Er. destruct Er as [-> El2]. apply wfb_app in Hy. destruct Hy as [Hx _]. subst n. unfold len. rewrite Nat2N.id, (chunks_1 x Hx). reflexivity.
    + rewrite run_bind, run_bind, El. destruct (N.eqb_spec n 0) as [->|H0]; [reflexivity|]. cbn [bind]. rewrite rep_u8, N2Nat.id. cbn [read_n run].
      destruct (split_at n y) as [[x r]|]; reflexivity.
  - destruct (e_spec E); rewrite !run_bind, El; reflexivity.
  - destruct (e_spec E); rewrite !run_bind, El; reflexivity.
Qed.
(** ** Examples: the hypotheses are met *)

(** [struct Rec { id: u32, name: String, parts: imbl::Vector<Option<i16>>, seen: HashSet<u16> }], revision 2 of which is optimised
    and indexed, becomes [{ id: u64, name: Bytes, parts: Box<imbl::Vector<Option<i64>>>, seen: BTreeSet<u32> }]. *)
Definition rec_old : schema := mkSchema [leg; ixd] (SStruct [fld (TInt U32) 1 None; fld TStr 1 None; fld (TImVec (TOption (TInt I16))) 2 None; fld (TSet KHash (TInt U16)) 1 None]).
Definition rec_new : schema := mkSchema [leg; ixd] (SStruct [fld (TInt U64) 1 None; fld TBytes 1 None; fld (TWrap (TImVec (TOption (TInt I64)))) 2 None; fld (TSet KOrd (TInt U32)) 1 None]).
Definition rec_val : val := VSeq [VInt 300; VBytes [104; 105]; VSeq [VVar 1 [VInt (-5)]; VVar 0 []]; VSeq [VInt 7; VInt 1000]].
Definition swapped : N -> option schema := fun n => if n =? 1 then Some rec_new else None.
Example rec_retyped : retyped (only rec_old) False swapped.
Proof.
  intros n. cbn [only ex_env e_sch]. unfold swapped. destruct (n =? 1); [|exact I]. split; [reflexivity|]. cbn [rec_old rec_new s_body].
  repeat apply Forall2_cons; [| | | |apply Forall2_nil]; (repeat split); right; (split; [|repeat split]); cbn [fld f_ty].
  - apply wd_int. reflexivity.
  - apply wd_str_bytes.
  - apply wd_wrap_r, wd_im, wd_option, wd_int. reflexivity.
  - apply wd_set; [apply wd_int; reflexivity|reflexivity| |intros []]. right. intros x y. apply vcmp_is_eq.
Qed.
Example rec_change : wf_env (only rec_old) /\ wt (only rec_old) 1 (TRef 1) rec_val
  /\ exists b, to_vec (only rec_old) 1 (TRef 1) rec_val = Ok b /\ from_slice (set_sch (only rec_old) swapped) 1 (TRef 1) b = Ok rec_val.
Proof.
  split; [apply wf_only; reflexivity|]. split; [apply wtb_ok; vm_compute; reflexivity|]. eexists. split; [vm_compute; reflexivity|]. vm_compute. reflexivity.
Qed.
(** Going back: a value that does not fit is an error. *)
Example rec_back : let E' := set_sch (only rec_old) swapped in wf_env E' /\
  exists v b, wt E' 1 (TRef 1) v /\ to_vec E' 1 (TRef 1) v = Ok b /\ from_slice (only rec_old) 1 (TRef 1) b = Err EOverflow.
Proof.
  split; [apply (wf_only rec_new); reflexivity|]. exists (VSeq [VInt (2 ^ 40); VBytes [255]; VSeq []; VSeq []]). eexists.
  split; [apply wtb_ok; vm_compute; reflexivity|]. split; [vm_compute; reflexivity|]. vm_compute. reflexivity.
Qed.
Example same_bytes_here : widens new True (TPair (TInt U32) (TOption TStr)) (TPair (TInt Usize) (TOption TPath))
  /\ wt new 1 (TPair (TInt U32) (TOption TStr)) (VPair (VInt 70000) (VVar 1 [VBytes [47]])).
Proof. split; [apply wd_pair; [apply wd_int; reflexivity|apply wd_option, wd_str_path]|apply wtb_ok; vm_compute; reflexivity]. Qed.

(** ** What is not among these changes *)

(** [u8] to [u16]: old data is silently misread. *)
Theorem C60_u8_refuted : exists E v v' b, wf_env E /\ wt E 0 (TPair (TInt U8) TStr) v /\ to_vec E 0 (TPair (TInt U8) TStr) v = Ok b
  /\ from_slice E 0 (TPair (TInt U16) TStr) b = Ok v' /\ v' <> v.
Proof.
  exists new, (VPair (VInt 251) (VBytes [97; 1; 120])), (VPair (VInt 24835) (VBytes [120])), [251; 3; 97; 1; 120].
  split; [apply wf_new|]. split; [apply wtb_ok; vm_compute; reflexivity|]. split; [vm_compute; reflexivity|]. split; [vm_compute; reflexivity|discriminate].
Qed.
(** Any widening under fixed-width-encoding. *)
Definition fixed_width : env := mkEnv true true true 64 None (fun _ => 8) (e_cmp new) (e_iter new) (e_dec new) (e_ext new) (e_time new) (e_sch new).
Lemma wf_fixed_width : wf_env fixed_width.
Proof. destruct wf_new. constructor; auto. Qed.
Theorem C60_fixed_width_refuted : exists E v v' b, wf_env E /\ wt E 0 (TPair (TInt U16) TStr) v /\ to_vec E 0 (TPair (TInt U16) TStr) v = Ok b
  /\ from_slice E 0 (TPair (TInt U32) TStr) b = Ok v' /\ v' <> v.
Proof.
  exists fixed_width, (VPair (VInt 5) (VBytes [0; 0])), (VPair (VInt 131077) (VBytes [])), [5; 0; 2; 0; 0; 0; 0; 0; 0; 0; 0; 0].
  split; [apply wf_fixed_width|]. split; [apply wtb_ok; vm_compute; reflexivity|]. split; [vm_compute; reflexivity|]. split; [vm_compute; reflexivity|discriminate].
Qed.
(** The elements of a vector under specialised-vectors. *)
Theorem C60_bulk_refuted : exists E v v' b, wf_env E /\ e_fw E = false /\ wt E 0 (TPair (TVec (TInt U16)) TStr) v /\ to_vec E 0 (TPair (TVec (TInt U16)) TStr) v = Ok b
  /\ from_slice E 0 (TPair (TVec (TInt U32)) TStr) b = Ok v' /\ v' <> v.
Proof.
  exists new, (VPair (VSeq [VInt 1; VInt 2]) (VBytes [97; 98; 99; 1; 120])), (VPair (VSeq [VInt 131073; VInt 1667391749]) (VBytes [120])), [2; 1; 0; 2; 0; 5; 97; 98; 99; 1; 120].
  split; [apply wf_new|]. split; [reflexivity|]. split; [apply wtb_ok; vm_compute; reflexivity|]. split; [vm_compute; reflexivity|]. split; [vm_compute; reflexivity|discriminate].
Qed.
(** Signed to unsigned. *)
Theorem C60_sign_refuted : exists E v v' b, wf_env E /\ wt E 0 (TInt I32) v /\ to_vec E 0 (TInt I32) v = Ok b /\ from_slice E 0 (TInt U64) b = Ok v' /\ v' <> v.
Proof.
  exists new, (VInt 3), (VInt 6), [6]. split; [apply wf_new|]. split; [apply wtb_ok; vm_compute; reflexivity|]. split; [vm_compute; reflexivity|]. split; [vm_compute; reflexivity|discriminate].
Qed.

Print Assumptions C60_widening.
Print Assumptions C60_old_data.
Print Assumptions C60_no_other_value.
Print Assumptions C60_same_bytes.
Print Assumptions C60_bytes.
Print Assumptions C60_u8_refuted.
Print Assumptions C60_fixed_width_refuted.
Print Assumptions C60_bulk_refuted.
Print Assumptions C60_sign_refuted.
