(** C87: single fields of an indexed struct payload, also for programs that know other fields. *)

From Verif Require Import Base BaseL Prog ProgL Prim Ty Ser De Typed Mig Evol EvolL SortL DiscL RtL RtTy RtId Agree Parts Spec Cross Ex IdxWalk IdxWalkL IdxEncL FieldAt PropIdx IdxL PropView PropSkip PropMig PropEnc PropWire.
From Coq Require Import List NArith ZArith Bool Lia.
Import ListNotations.
Open Scope N_scope.

(** The payload [p] of a struct whose fields are encoded as [es], opened for [m] fields. *)
Section Count.
Variables (es : list bytes) (p : bytes) (m : N).
Hypothesis Hp : p = struct_offsets (4 * len es) es ++ concat es.
Hypothesis L : len p < 2 ^ 32.

Lemma p_len : len p = 4 * len es + len (concat es).
Proof. rewrite Hp, len_app, struct_offsets_len. reflexivity. Qed.
Lemma p_marks : marks p 0 4 (4 * len es) es.
Proof. pose proof p_len. rewrite Hp. apply marks_struct. lia. Qed.
Lemma p_off : forall i, i < len es -> off p (i * 4) = 4 * len es + len (concat (firstn (N.to_nat i) es)).
Proof. intros i Hi. pose proof (p_marks i Hi) as M. rewrite N.add_0_r in M. exact M. Qed.

Lemma open_fewer : m <= len es -> struct_open false p m = Ok (mkStructW p m).
Proof.
  intros Hm. pose proof p_len. unfold struct_open. replace (len p <? m * 4) with false by (symmetry; apply N.ltb_ge; lia). reflexivity.
Qed.
Lemma open_same : forall w, struct_open true p m = Ok w -> w = mkStructW p m.
Proof.
  intros w H. unfold struct_open in H. destruct (_ <? _); [discriminate|]. destruct (at_range _ _ _); try discriminate. cbn [rbind] in H.
  destruct (validate_prologue _ _ _ _); try discriminate. cbn [rbind] in H. destruct (0 <? m); [|inversion H; reflexivity].
  destruct (u32_at _ _); try discriminate. cbn [rbind] in H. destruct (_ <? _); [discriminate|]. inversion H; reflexivity.
Qed.
Lemma table_cut : forall j, j < m -> m * 4 <= len p -> off (cutout p 0 (m * 4)) (j * 4) = off p (j * 4).
Proof.
  intros j Hj Hl. unfold off, cutout. f_equal. rewrite !N.sub_0_r. cbn [N.to_nat skipn].
  replace (j * 4 + 4 - j * 4) with 4 by lia. rewrite skipn_firstn_comm, firstn_firstn. f_equal. change (Pos.to_nat 4) with 4%nat. lia.
Qed.
Lemma open_true : m <= len es -> (struct_accepted p m <-> inner_nonempty (firstn (N.to_nat m) es)).
Proof.
  intros Hm. pose proof p_len as Lp. unfold struct_accepted, struct_open.
  replace (len p <? m * 4) with false by (symmetry; apply N.ltb_ge; lia). rewrite at_in by lia. cbn [rbind].
  rewrite N.mod_small by exact L. set (t := cutout p 0 (m * 4)).
  assert (Lt : len t = m * 4) by (unfold t; rewrite len_cutout; lia).
  pose proof (prologue_spec t m 4 (len p)) as P. specialize (P ltac:(intros; lia)).
  pose proof (monotone_order t 4 m (len p)) as Q.
  assert (Ln : len (firstn (N.to_nat m) es) = m) by (unfold len in *; rewrite firstn_length; lia).
  assert (Mt : marks t 0 4 (4 * len es) (firstn (N.to_nat m) es)).
  { intros j Hj. rewrite Ln in Hj. rewrite N.add_0_r. unfold t. rewrite table_cut by lia. rewrite p_off by lia.
    rewrite firstn_firstn. replace (Nat.min (N.to_nat j) (N.to_nat m)) with (N.to_nat j) by lia. reflexivity. }
  pose proof (marks_order t 0 4 (4 * len es) _ (len p) Mt ltac:(pose proof (marks_mono es (N.to_nat m)); lia)) as Q2. rewrite Ln in Q2.
  destruct (validate_prologue t m 4 (len p)) as [u|e|x]; cbn [rbind]; [|split; [intros [w H]; discriminate|intros; tauto]|contradiction].
  split; [intros _; tauto|]. intros _. destruct (N.ltb_spec 0 m) as [Z|Z]; [|eauto]. rewrite u32_in by lia. cbn [rbind].
  pose proof (p_off 0 ltac:(lia)) as M0. change (0 * 4) with 0 in M0. rewrite M0.
  replace (4 * len es + len (concat (firstn (N.to_nat 0) es)) <? m * 4) with false by (symmetry; apply N.ltb_ge; lia). eauto.
Qed.
Lemma open_more : len es < m -> exists e, struct_open true p m = Err e.
Proof.
  intros Hm. pose proof p_len as Lp. unfold struct_open. destruct (N.ltb_spec (len p) (m * 4)) as [H|H]; [eauto|]. rewrite at_in by lia. cbn [rbind].
  pose proof (prologue_spec (cutout p 0 (m * 4)) m 4 (len p mod 2 ^ 32)) as P. specialize (P ltac:(intros; rewrite len_cutout; lia)).
  destruct (validate_prologue _ _ _ _) as [u|e|x]; cbn [rbind]; [|eauto|contradiction].
  replace (0 <? m) with true by (symmetry; apply N.ltb_lt; lia). rewrite u32_in by lia. cbn [rbind].
  destruct (N.eq_dec (len es) 0) as [Z|Z].
  - exfalso. assert (es = []) by (destruct es; [reflexivity|unfold len in Z; cbn in Z; lia]). rewrite H0 in Lp. cbn [concat] in Lp. change (len []) with 0 in Lp. lia.
  - pose proof (p_off 0 ltac:(lia)) as M0. change (0 * 4) with 0 in M0. rewrite M0. cbn [N.to_nat firstn concat]. change (len []) with 0.
    replace (4 * len es + 0 <? m * 4) with true by (symmetry; apply N.ltb_lt; lia). eauto.
Qed.
(** The slice of a field is its encoding; that of the last one reaches to the end. *)
Lemma bytes_at : forall i e, i < m -> m <= len es -> nth_error es (N.to_nat i) = Some e ->
  exists rest, field_bytes (mkStructW p m) i = Ok (e ++ rest) /\ (i + 1 < m -> rest = []).
Proof.
  intros i e Hi Hm N1. pose proof p_len as Lp. unfold field_bytes. cbn [stw_count stw_payload].
  replace (m <=? i) with false by (symmetry; apply N.leb_gt; lia). rewrite u32_in by lia. cbn [rbind].
  pose proof (p_off i ltac:(lia)) as O1. pose proof (firstn_S_len es i e N1) as F1. pose proof (marks_mono es (N.to_nat (i + 1))) as F2.
  pose proof (nth_error_split es (N.to_nat i) N1) as (l1 & l2 & El & Hl).
  assert (Fi : firstn (N.to_nat i) es = l1) by (rewrite El, <- Hl; apply firstn_app_exact; reflexivity).
  assert (Ep : p = (struct_offsets (4 * len es) es ++ concat l1) ++ e ++ concat l2).
  { rewrite Hp. rewrite <- app_assoc. f_equal. rewrite El at 1. rewrite concat_app. reflexivity. }
  assert (Lq : len (struct_offsets (4 * len es) es ++ concat l1) = off p (i * 4)) by (rewrite len_app, struct_offsets_len, O1, Fi; reflexivity).
  destruct (N.ltb_spec (i + 1) m) as [H|H].
  - rewrite u32_in by lia. cbn [rbind]. rewrite (p_off (i + 1)) by lia. exists []. split; [|reflexivity]. rewrite app_nil_r.
    rewrite F1, N.add_assoc, <- O1, <- Lq. rewrite Ep at 1. apply at_app.
  - cbn [rbind]. exists (concat l2). split; [|lia]. rewrite <- Lq. 
    pose proof (at_app (struct_offsets (4 * len es) es ++ concat l1) (e ++ concat l2) []) as A. rewrite app_nil_r, <- Ep, <- len_app, <- Ep in A. exact A.
Qed.
End Count.

(** ** What is written *)

(** The bytes [b] of an indexed struct: header, length, payload [p]; [es] are the encodings of the fields. *)
Lemma written : forall E d n s fs h vs b,
  e_sch E n = Some s -> s_body s = SStruct fs -> sent s (scur s) = Some h -> h_opt h = true -> h_idx h = true ->
  to_vec E (S d) (TRef n) (VSeq vs) = Ok b ->
  exists hd p es, to_vec E d (TInt U16) (VInt (Z.of_N (scur s))) = Ok hd /\ b = envelope hd p
    /\ Forall2 (fun fv e => encode_field E d (mode_opt (fst fv)) (f_ty (fst fv)) (snd fv) = Ok e) (combine (filter (falive (scur s)) fs) vs) es
    /\ length es = length vs /\ p = struct_offsets (4 * len es) es ++ concat es /\ len p < 2 ^ 32.
Proof.
  intros E d n s fs h vs b Hs Hb Hh Ho Hi H. apply to_vec_ok in H. destruct H as (ops & H & ->).
  unfold to_writer in H. assert (H' : ser_ref E (S d) n (VSeq vs) = Ok ops) by exact H. clear H.
  cbn [ser_ref] in H'. rewrite Hs in H'. unfold ser_derived in H'. rewrite Hh, Hb in H'. unfold ser_struct in H'. rewrite Ho in H'.
  unfold ser_struct_opt, ser_payload in H'.
  destruct (rmapM ser_bytes (ser_fields E (ser_ref E d) true (scur s) fs vs)) as [es|e|x] eqn:R; try discriminate H'. cbn [rbind] in H'. rewrite Hi in H'.
  set (p := struct_offsets (4 * len es) es ++ concat es) in *.
  destruct (N.ltb_spec (len p) (2 ^ 32)) as [Hp|]; [|discriminate H']. unfold sall, sbind in H'. cbn [rbind] in H'. apply Ok_inj in H'. subst ops.
  exists (ser_u16 (e_fw E) (scur s)), p, es. split; [|split].
  - unfold to_vec, to_writer. cbn [ser_ty]. unfold ser_int. rewrite N2Z.id. unfold ser_bytes, sall. cbn [rmap out flat_map wop_bytes]. rewrite app_nil_r. reflexivity.
  - unfold envelope, out. cbn [app flat_map wop_bytes]. rewrite app_nil_r. reflexivity.
  - destruct (fields_enc E d _ _ _ _ R) as (F & L1 & L2). auto.
Qed.
Lemma F2_nth : forall A B (R : A -> B -> Prop) l l', Forall2 R l l' -> forall i a, nth_error l i = Some a -> exists b, nth_error l' i = Some b /\ R a b.
Proof.
  induction 1 as [|x y l l' H H' IH]; intros [|i] a Ha; cbn in *; try discriminate; [inversion Ha; subst; eauto|auto].
Qed.
Lemma nth_combine : forall A B (l : list A) (l' : list B) i a b, nth_error l i = Some a -> nth_error l' i = Some b -> nth_error (combine l l') i = Some (a, b).
Proof. induction l as [|x l IH]; intros [|y l'] [|i] a b Ha Hb; cbn in *; try discriminate; [congruence|auto]. Qed.

Lemma nth_firstn : forall A (l : list A) n j, (j < n)%nat -> nth_error (firstn n l) j = nth_error l j.
Proof. induction l as [|x l IH]; intros [|n] [|j] H; cbn; try reflexivity; try lia. apply IH. lia. Qed.

(** ** C87 *)

(** A walker opened on the payload of an indexed struct of a program or an earlier version of it, for as many fields as
    were written or fewer, decodes each field it knows to the value written, migrated. *)
Theorem C87_decode_field : forall E E' d d' n s fs h vs b,
  wf_env E -> wf_env E' -> later E E' -> opt_safe E E' -> user_panics E' (fun x => x <> PStack) -> sizes_honest E ->
  e_sch E n = Some s -> s_body s = SStruct fs -> sent s (scur s) = Some h -> h_opt h = true -> h_idx h = true ->
  wt E (S d) (TRef n) (VSeq vs) -> (d <= d')%nat -> to_vec E (S d) (TRef n) (VSeq vs) = Ok b ->
  exists hd p, to_vec E d (TInt U16) (VInt (Z.of_N (scur s))) = Ok hd /\ b = envelope hd p
    /\ forall count validate w, struct_open validate p count = Ok w -> count <= len vs ->
         (forall i f v, i < count -> nth_error (filter (falive (scur s)) fs) (N.to_nat i) = Some f -> nth_error vs (N.to_nat i) = Some v ->
            f_idx f = INone -> or_oom E' (decode_at E' d' w i (f_ty f)) (migrate E E' d (f_ty f) v))
         /\ forall i t, count <= i -> exists e, decode_at E' d' w i t = Err e.
Proof.
  intros E E' d d' n s fs h vs b W W' La O U Hh Hs Hb Hn Ho Hi Hw Hd Ht.
  destruct (written E d n s fs h vs b Hs Hb Hn Ho Hi Ht) as (hd & p & es & H1 & H2 & F & L1 & Hp & L).
  exists hd, p. split; [exact H1|]. split; [exact H2|]. intros m vl w Hop Hm.
  assert (Lv : len es = len vs) by (unfold len; rewrite L1; reflexivity).
  assert (Ew : w = mkStructW p m).
  { destruct vl; [apply (open_same p m); exact Hop|]. rewrite (open_fewer es p m Hp) in Hop by lia. apply Ok_inj in Hop. auto. }
  subst w. split.
  - intros i f v Him Hf Hv Hx.
    destruct (F2_nth _ _ _ _ _ F _ _ (nth_combine _ _ _ _ _ _ _ Hf Hv)) as (e & He & Hen). cbn [fst snd] in Hen. unfold mode_opt in Hen. rewrite Hx in Hen.
    assert (Hwt : wt E d (f_ty f) v).
    { unfold wt in Hw. cbn [wt_ty wt_ref] in Hw. rewrite Hs in Hw. unfold wt_derived in Hw. rewrite Hb in Hw. unfold wt_fields in Hw.
      destruct (F2_nth _ _ _ _ _ Hw _ _ Hf) as (v' & Hv' & Hwv). assert (v' = v) by congruence. subst v'. exact Hwv. }
    destruct (bytes_at es p m Hp L i e Him ltac:(lia) He) as (rest & Hb' & _).
    unfold decode_at. rewrite Hb'. cbn [rbind].
    destruct (C17_later_programs_read E E' d d' (f_ty f) v e rest W W' La O U Hh Hwt Hd Hen) as [R|[R1 R2]].
    + left. rewrite R. destruct (migrate E E' d (f_ty f) v); reflexivity.
    + right. split; [exact R1|]. rewrite R2. reflexivity.
  - intros i t Him. unfold decode_at, field_bytes. cbn [stw_count]. replace (m <=? i) with true by (symmetry; apply N.leb_le; lia). cbn [rbind]. eauto.
Qed.

(** Which counts can be opened.  For up to as many fields as written: always without validation, and with validation
    exactly if none of these fields, except the last one, is empty.  For more: never with validation. *)
Theorem C87_count : forall E d n s fs h vs b,
  e_sch E n = Some s -> s_body s = SStruct fs -> sent s (scur s) = Some h -> h_opt h = true -> h_idx h = true ->
  to_vec E (S d) (TRef n) (VSeq vs) = Ok b ->
  exists hd p es, to_vec E d (TInt U16) (VInt (Z.of_N (scur s))) = Ok hd /\ b = envelope hd p
    /\ Forall2 (fun fv e => encode_field E d (mode_opt (fst fv)) (f_ty (fst fv)) (snd fv) = Ok e) (combine (filter (falive (scur s)) fs) vs) es
    /\ length es = length vs
    /\ (forall count, count <= len vs -> (exists w, struct_open false p count = Ok w)
          /\ ((exists w, struct_open true p count = Ok w) <-> forall j e, nth_error es j = Some e -> N.of_nat j + 1 < count -> e <> []))
    /\ forall count, len vs < count -> exists e, struct_open true p count = Err e.
Proof.
  intros E d n s fs h vs b Hs Hb Hn Ho Hi Ht.
  destruct (written E d n s fs h vs b Hs Hb Hn Ho Hi Ht) as (hd & p & es & H1 & H2 & F & L1 & Hp & L).
  assert (Lv : len es = len vs) by (unfold len; rewrite L1; reflexivity).
  exists hd, p, es. split; [exact H1|]. split; [exact H2|]. split; [exact F|]. split; [exact L1|]. split.
  - intros m Hm. split; [eexists; apply (open_fewer es p m Hp); lia|].
    rewrite <- Lv in Hm. pose proof (open_true es p m Hp L Hm) as A. unfold struct_accepted in A. rewrite A. unfold inner_nonempty.
    assert (Ln : length (firstn (N.to_nat m) es) = N.to_nat m) by (unfold len in Hm; rewrite firstn_length; lia). rewrite Ln.
    split; intros Q j e He Hj.
    + apply (Q j e); [|lia]. rewrite <- He. apply nth_firstn. lia.
    + apply (Q j e); [|lia]. rewrite <- He. symmetry. apply nth_firstn. lia.
  - intros m Hm. apply (open_more es p m Hp L). lia.
Qed.

(** ** The hypotheses are met *)

(** The new version's [User] with nine scores; opened for the first four fields, for all, and for too many. *)
Example C87_case : wt new 2 (TRef 1) u_new /\ to_vec new 2 (TRef 1) u_new = Ok u_new_bytes /\ u_new_bytes = envelope [3] u_payload
  /\ match struct_open true u_payload 4, struct_open true u_payload 5, struct_open true u_payload 6 with
     | Ok w, Ok w5, Err _ =>
         decode_at new 1 w 0 TStr = Ok (a_str [98]) /\ decode_at new 1 w 3 (TInt I64) = Ok (VInt (-5))
         /\ (exists e, decode_at new 1 w 4 (TOption (TWrap (TRef 1))) = Err e)
         /\ (exists v, decode_at new 1 w5 4 (TOption (TWrap (TRef 1))) = Ok (VVar 1 [v]))
     | _, _, _ => False
     end.
Proof.
  split; [exact wt_new|]. split; [vm_compute; reflexivity|]. split; [vm_compute; reflexivity|].
  vm_compute. repeat split; eexists; reflexivity.
Qed.

(** ** Fields with an offset table of their own *)

(** [decode_field::<HashMap<String, u64>>] on the field [scores], which is declared [indexed_map]: two scores are read as
    none, and nine as one that was never written.  No error in either case. *)
Definition u_two : val := VSeq [a_str [98]; VSeq []; VSeq (map score [0; 1]); VInt (-5); VVar 0 []].
Theorem C87_indexed_refuted : exists b p w w9,
  wt new 2 (TRef 1) u_two /\ to_vec new 2 (TRef 1) u_two = Ok b /\ b = envelope [3] p /\ struct_open true p 5 = Ok w
  /\ struct_open true u_payload 5 = Ok w9
  /\ nth_error (filter (falive 3) (match s_body user3 with SStruct fs => fs | _ => [] end)) 2
     = Some (with_default (VSeq []) (idxd IMap (fld (TMap KHash TStr (TInt U64)) 2 None)))
  /\ decode_at new 2 w 2 (TMap KHash TStr (TInt U64)) = Ok (VSeq [])
  /\ decode_at new 2 w9 2 (TMap KHash TStr (TInt U64)) = Ok (VSeq [VPair (a_str [0; 0; 0; 0; 0; 0; 0; 0; 2]) (VInt 0)]).
Proof.
  exists (envelope [3] [20; 0; 0; 0; 22; 0; 0; 0; 23; 0; 0; 0; 31; 0; 0; 0; 32; 0; 0; 0; 1; 98; 0; 0; 2; 1; 48; 0; 1; 49; 1; 9; 0]).
  exists [20; 0; 0; 0; 22; 0; 0; 0; 23; 0; 0; 0; 31; 0; 0; 0; 32; 0; 0; 0; 1; 98; 0; 0; 2; 1; 48; 0; 1; 49; 1; 9; 0].
  do 2 eexists. split; [apply wtb_ok; vm_compute; reflexivity|]. split; [vm_compute; reflexivity|].
  split; [vm_compute; reflexivity|]. split; [vm_compute; reflexivity|]. split; [vm_compute; reflexivity|].
  repeat split; vm_compute; reflexivity.
Qed.
(** Nor is an index that no field has an error for [skip_field]. *)
Theorem C87_skip_refuted : exists w, struct_open true u_payload 5 = Ok w /\ skip_at w 7 = Ok tt /\ field_bytes w 7 = Err (EDeserialize (MOther 1)).
Proof. eexists. split; [vm_compute; reflexivity|]. split; vm_compute; reflexivity. Qed.

Print Assumptions C87_decode_field.
Print Assumptions C87_count.
Print Assumptions C87_indexed_refuted.
Print Assumptions C87_skip_refuted.
