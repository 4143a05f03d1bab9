(** C10, C11, C47: what the decoder returns. *)

From Verif Require Import Base BaseL Prog ProgL Prim PrimL Utf8 Utf8L Tag Ty Ser De Typed Mig RtL RtId Parts PartsL Agree Total SortL SerL Spec Cross Users Yield Ex PropWire PropTotal.
From Coq Require Import List NArith ZArith Bool Lia ZifyBool Sorted Permutation.
Import ListNotations.
Open Scope N_scope.

(** C10.  [wt E d t v] is the invariant of the Rust type: integers in range, strings valid UTF-8, chars
    scalar values, maps and sets strictly sorted without duplicates, arrays of the declared
    length, variants that exist in the current revision, ...  The user's own functions are assumed
    to have the types rustc checks ([users_typed], [ext_typed], [opt_stable], see Users.v). *)
Theorem C10_decoded_is_well_typed : forall E D d t bs v rest,
  wf_env E -> users_typed E (fun _ _ => True) D -> ext_typed E (fun _ _ => True) -> opt_stable E ->
  wfb bs -> 16 * (len bs + 1) <= 2 ^ e_ub E ->
  run (deserialize E d t) bs = Ok (v, rest) -> wt E (d + D) t v.
Proof.
  intros E D d t bs v rest W HU HX HO Hb Hk H.
  destruct (yld_deserialize (len bs + 1) E (fun _ _ => True) D W Hk
    (fun _ _ _ _ => I) (fun _ _ => I) (fun _ _ _ => I) HU HX HO d t ltac:(lia) bs v rest Hb ltac:(lia) H) as [V _].
  exact V.
Qed.
(** ... and what [utf8_ok] means: the bytes are the encoding of a sequence of Unicode scalar
    values. *)
Theorem C10_utf8 : forall b, wfb b -> (utf8_ok b = true <-> exists cs, Forall scalar cs /\ b = flat_map utf8_encode cs).
Proof.
  intros b Hb. split.
  - remember (length b) as n eqn:Hn. revert b Hb Hn. induction n as [n IH] using lt_wf_ind. intros b Hb Hn H.
    destruct b as [|b0 l]; [exists []; split; [constructor|reflexivity]|].
    assert (S : exists u r, b0 :: l = b0 :: u ++ r /\ char_length b0 = 1 + len u /\ utf8_ok (b0 :: u) = true /\ utf8_ok r = true).
    { apply wfb_cons in Hb. destruct Hb as [Hb0 Hb]. rewrite char_length_spec by assumption.
      apply utf8_ok_inv in H.
      destruct H as [[K R]|[(b1 & r' & -> & K & R)|[(b1 & b2 & r' & -> & K & R)|(b1 & b2 & b3 & r' & -> & K & R)]]].
      - exists [], l. rewrite utf8_ok_1 by assumption. replace (b0 <? 128) with true by lia. auto.
      - exists [b1], r'. rewrite utf8_ok_2 by assumption. unfold ok2, cont, inrng in K.
        replace (b0 <? 128) with false by lia. replace (b0 <? 192) with false by lia. replace (b0 <? 224) with true by lia. auto.
      - exists [b1; b2], r'. rewrite utf8_ok_3 by assumption. unfold ok3, cont, inrng in K.
        replace (b0 <? 128) with false by lia. replace (b0 <? 192) with false by lia. replace (b0 <? 224) with false by lia.
        replace (b0 <? 240) with true by lia. auto.
      - exists [b1; b2; b3], r'. rewrite utf8_ok_4 by assumption. unfold ok4, cont, inrng in K.
        replace (b0 <? 128) with false by lia. replace (b0 <? 192) with false by lia. replace (b0 <? 224) with false by lia.
        replace (b0 <? 240) with false by lia. replace (b0 <? 248) with true by lia. auto. }
    destruct S as (u & r & E & Hl & Hu & Hr).
    assert (D : run de_char (b0 :: l) = Ok (utf8_first (b0 :: u), r)).
    { rewrite E. unfold de_char. rewrite run_bind, run_read_byte_cons. cbv zeta.
      replace (char_length b0 =? 0) with false by lia.
      rewrite run_bind. replace (char_length b0 - 1) with (len u) by lia. rewrite run_read_n_app by reflexivity. rewrite Hu. reflexivity. }
    destruct (de_char_ok _ _ _ Hb D) as [Hs He].
    destruct (IH (length r)) with (b := r) as (cs & Hc & Hf).
    + subst n. inversion E; subst l. cbn [length]. rewrite app_length. lia.
    + rewrite E in Hb. apply wfb_cons in Hb. destruct Hb as [_ Hb]. apply wfb_app in Hb. apply Hb.
    + reflexivity.
    + exact Hr.
    + exists (utf8_first (b0 :: u) :: cs). split; [constructor; assumption|]. cbn [flat_map]. rewrite <- Hf. exact He.
  - intros (cs & Hc & ->). clear Hb. induction Hc as [|c cs Hc _ IH]; [reflexivity|]. cbn [flat_map].
    destruct (utf8_encode_props c Hc) as (b0 & r & -> & Hb & Hl & Hok & _ & Hw).
    rewrite char_length_spec in Hl by assumption. cbn [app]. apply utf8_ok_inv in Hok.
    destruct Hok as [[K R]|[(b1 & r' & -> & K & R)|[(b1 & b2 & r' & -> & K & R)|(b1 & b2 & b3 & r' & -> & K & R)]]].
    + replace (b0 <? 128) with true in Hl by lia. assert (r = []) by (apply len_0; lia). subst r. cbn [app]. rewrite utf8_ok_1; assumption.
    + assert (r' = []). { rewrite len_cons in Hl. apply len_0. unfold ok2, cont, inrng in K.
        destruct (b0 <? 128) eqn:?; destruct (b0 <? 192) eqn:?; destruct (b0 <? 224) eqn:?; lia. }
      subst r'. cbn [app]. rewrite utf8_ok_2; assumption.
    + assert (r' = []). { rewrite !len_cons in Hl. apply len_0. unfold ok3, cont, inrng in K.
        destruct (b0 <? 128) eqn:?; destruct (b0 <? 192) eqn:?; destruct (b0 <? 224) eqn:?; destruct (b0 <? 240) eqn:?; lia. }
      subst r'. cbn [app]. rewrite utf8_ok_3; assumption.
    + assert (r' = []). { rewrite !len_cons in Hl. apply len_0. unfold ok4, cont, inrng in K.
        destruct (b0 <? 128) eqn:?; destruct (b0 <? 192) eqn:?; destruct (b0 <? 224) eqn:?; destruct (b0 <? 240) eqn:?; destruct (b0 <? 248) eqn:?; lia. }
      subst r'. cbn [app]. rewrite utf8_ok_4; assumption.
Qed.

(** C11.  A decoded value can be encoded again, and the new bytes decode to the same value; the one
    exception is an optimised revision whose encoding exceeds its 32-bit size fields. *)
Theorem C11_decoded_reencodes : forall E D d t bs v rest,
  wf_env E -> users_typed E good D -> ext_typed E good -> opt_stable E -> sizes_true E ->
  wfb bs -> 16 * (len bs + 1) <= 2 ^ e_ub E ->
  run (deserialize E d t) bs = Ok (v, rest) ->
  (exists b, to_vec E (d + D) t v = Ok b
             /\ forall d', (d + D <= d')%nat -> or_oom E (from_slice E d' t b) (Ok v))
  \/ (to_vec E (d + D) t v = Err (ESerialize MTooLong) /\ ~ no_opt E).
Proof.
  intros E D d t bs v rest W HU HX HO HS Hb Hk H.
  assert (V : ok E good (d + D) t v).
  { refine (yld_deserialize (len bs + 1) E good D W Hk _ _ _ HU HX HO d t ltac:(lia) bs v rest Hb ltac:(lia) H).
    - intros t' v' Hp Hs. destruct t'; try exact I; congruence.
    - intros b Hu. exact Hu.
    - intros s n Hs. exact Hs. }
  destruct V as [Vw Vg]. destruct (to_vec E (d + D) t v) as [b|e|x] eqn:Et.
  - left. exists b. split; [reflexivity|]. intros d' Hd. eapply C01_round_trip; eauto. right. exact HS.
  - right. destruct (C45_only_size_can_fail E _ t v e W Vw Vg Et) as [-> Hn]. auto.
  - exfalso. destruct (C45_panics_listed E _ t v x W Vw Et) as (_ & _ & Hn). contradiction.
Qed.
(** Normalisation: encoding what was decoded is idempotent. *)
Theorem C11_normal_form_stable : forall E D d t bs v rest b v' rest',
  wf_env E -> users_typed E good D -> ext_typed E good -> opt_stable E -> sizes_true E ->
  wfb bs -> 16 * (len bs + 1) <= 2 ^ e_ub E ->
  run (deserialize E d t) bs = Ok (v, rest) -> to_vec E (d + D) t v = Ok b ->
  run (deserialize E (d + D) t) b = Ok (v', rest') -> v' = v /\ rest' = [] /\ to_vec E (d + D) t v' = Ok b.
Proof.
  intros E D d t bs v rest b v' rest' W HU HX HO HS Hb Hk H He Hd.
  assert (V : ok E good (d + D) t v).
  { refine (yld_deserialize (len bs + 1) E good D W Hk _ _ _ HU HX HO d t ltac:(lia) bs v rest Hb ltac:(lia) H).
    - intros t' w Hp Hs. destruct t'; try exact I; congruence.
    - intros b' Hu. exact Hu.
    - intros s n Hs. exact Hs. }
  destruct V as [Vw _].
  destruct (same E (d + D) (d + D) t v b [] W (or_intror HS) Vw (le_n _) He) as [Hr|[_ Hr]]; rewrite app_nil_r, Hd in Hr; [|discriminate].
  inversion Hr; subst. auto.
Qed.

(** ** C47: duplicate entries *)

(** The value bound to a key in a list of entries: the last binding counts. *)
Fixpoint last_binding (eq : val -> val -> bool) (x : val) (l : list val) : option val :=
  match l with
  | [] => None
  | p :: l' =>
      match last_binding eq x l' with
      | Some v => Some v
      | None => match p with VPair k v => if eq x k then Some v else None | _ => None end
      end
  end.
(** The bindings of a map without duplicates: any binding counts. *)
Definition bound (eq : val -> val -> bool) (x v : val) (l : list val) : Prop :=
  exists k, In (VPair k v) l /\ eq x k = true.
Definition ceqb (c : comparison) : bool := match c with Eq => true | _ => false end.

Section Dup.
Variable cmp : val -> val -> comparison.
Hypothesis O : order cmp.
Let eq := fun x y => ceqb (cmp x y).
Fixpoint assoc (x : val) (l : list val) : option val :=
  match l with [] => None | p :: l' => if eq x (pkey p) then Some (pval p) else assoc x l' end.
Let is_pair (p : val) : Prop := match p with VPair _ _ => True | _ => False end.

Lemma eq_trans_r : forall x a b, cmp a b = Eq -> cmp x a = cmp x b.
Proof. intros x a b H. apply o_eq_r; assumption. Qed.
Lemma assoc_cinsert : forall upd e l x, upd = upd_insert \/ upd = upd_last -> is_pair e ->
  assoc x (cinsert cmp pkey upd e l) = if eq x (pkey e) then Some (pval e) else assoc x l.
Proof.
  intros upd e l x Hu He. induction l as [|y l IH]; cbn [cinsert assoc]; [reflexivity|].
  assert (X : cmp (pkey e) (pkey y) = Eq -> eq x (pkey y) = eq x (pkey e)) by (intros Hc; unfold eq; rewrite (eq_trans_r x _ _ Hc); reflexivity).
  destruct (cmp (pkey e) (pkey y)) eqn:Ec.
  - cbn [assoc]. assert (K1 : pkey (upd y e) = pkey y \/ pkey (upd y e) = pkey e) by (destruct Hu as [-> | ->]; cbn; auto).
    assert (K2 : pval (upd y e) = pval e) by (destruct Hu as [-> | ->]; reflexivity).
    rewrite K2. replace (eq x (pkey (upd y e))) with (eq x (pkey e)) by (destruct K1 as [-> | ->]; auto using eq_sym).
    rewrite (X eq_refl). destruct (eq x (pkey e)); reflexivity.
  - cbn [assoc]. reflexivity.
  - cbn [assoc]. rewrite IH. destruct (eq x (pkey y)) eqn:E1; [|reflexivity].
    destruct (eq x (pkey e)) eqn:E2; [|reflexivity]. exfalso. unfold eq, ceqb in E1, E2.
    assert (C : cmp (pkey e) x = cmp (pkey e) (pkey y)) by (apply eq_trans_r; destruct (cmp x (pkey y)); congruence).
    rewrite Ec in C. apply (o_gt _ _ O) in C. rewrite C in E2. discriminate.
Qed.
Lemma assoc_fold : forall upd l acc x, upd = upd_insert \/ upd = upd_last -> Forall is_pair l ->
  assoc x (fold_left (fun acc e => cinsert cmp pkey upd e acc) l acc)
  = match last_binding eq x l with Some v => Some v | None => assoc x acc end.
Proof.
  intros upd l. induction l as [|p l IH]; intros acc x Hu H; cbn [fold_left last_binding]; [reflexivity|].
  inversion H; subst. rewrite IH by assumption. destruct (last_binding eq x l); [reflexivity|].
  rewrite assoc_cinsert by assumption. destruct p; try contradiction. cbn [pkey pval]. destruct (eq x p1); reflexivity.
Qed.
Lemma assoc_bound : forall l x v, StronglySorted (fun a b => cmp (pkey a) (pkey b) = Lt) l -> Forall is_pair l ->
  (bound eq x v l <-> assoc x l = Some v).
Proof.
  intros l x v S P. induction l as [|p l IH]; cbn [assoc]; [split; [intros (k & [] & _)|discriminate]|].
  inversion S; subst. inversion P; subst. destruct p; try contradiction. cbn [pkey pval]. split.
  - intros (k & [Hk|Hk] & He).
    + inversion Hk; subst. rewrite He. reflexivity.
    + destruct (eq x p1) eqn:E1; [|apply IH; auto; exists k; auto]. exfalso.
      rewrite Forall_forall in H2. specialize (H2 _ Hk). cbn in H2.
      unfold eq, ceqb in *. assert (C : cmp p1 k = cmp p1 x) by (symmetry; apply eq_trans_r; destruct (cmp x k); congruence).
      rewrite H2 in C. symmetry in C. apply (o_gt _ _ O) in C. rewrite C in E1. discriminate.
  - destruct (eq x p1) eqn:E1.
    + intros Hv. inversion Hv; subst. exists p1. split; [left; reflexivity|exact E1].
    + intros Hv. apply IH in Hv; auto. destruct Hv as (k & Hk & He). exists k. split; [right; exact Hk|exact He].
Qed.
End Dup.

Lemma entries_same : forall E d k a b bs l rest, e_mem E = None ->
  run (deserialize E d (TVec (TPair a b))) bs = Ok (VSeq l, rest) ->
  run (deserialize E d (TMap k a b)) bs = Ok (VSeq (build_map E k a l), rest).
Proof.
  intros E d k a b bs l rest Hm H. unfold deserialize in *. cbn [de_ty] in *.
  replace (if e_spec E then bulk_of (TPair a b) else None) with (@None bk) in H by (destruct (e_spec E); reflexivity).
  unfold de_seq in *. rewrite run_bind in *. rewrite run_bind in H. rewrite run_bind.
  destruct (run (de_len E) bs) as [[n y]|e|x]; try discriminate.
  destruct (n =? 0).
  - cbn [run] in *. inversion H; subst. reflexivity.
  - unfold alloc in *. rewrite Hm in *. cbn [bind] in *. unfold de_entry.
    destruct (run (rep (N.to_nat n) (x <- de_ty E (de_ref E d) a ;; y0 <- de_ty E (de_ref E d) b ;; Ret (VPair x y0))) y) as [[l' z]|e|x]; try discriminate.
    cbn [run] in *. inversion H; subst. reflexivity.
Qed.
Lemma elems_same : forall E d k a bs l rest, e_mem E = None -> (if e_spec E then bulk_of a else None) = None ->
  run (deserialize E d (TVec a)) bs = Ok (VSeq l, rest) ->
  run (deserialize E d (TSet k a)) bs = Ok (VSeq (build_set E k a l), rest).
Proof.
  intros E d k a bs l rest Hm Hb H. unfold deserialize in *. cbn [de_ty] in *. rewrite Hb in H.
  rewrite run_bind in *. destruct (run (de_seq E (e_esize E a) (de_ty E (de_ref E d) a)) bs) as [[l' z]|e|x]; try discriminate.
  cbn [run] in *. inversion H; subst. reflexivity.
Qed.
Lemma oom_lift : forall E d t bs r, run (deserialize (set_mem None E) d t) bs = r -> or_oom E (run (deserialize E d t) bs) r.
Proof.
  intros E d t bs r <-. unfold or_oom. destruct (e_mem E) as [m|] eqn:Em.
  - destruct (mem_agree E d t bs) as [H|(x & <- & Hx)]; [left; exact H|right; split; [discriminate|exact Hx]].
  - left. replace (set_mem None E) with E; [reflexivity|]. destruct E; cbn in *. subst. reflexivity.
Qed.

(** A list of entries with duplicate keys, in any order, read as a map: the last entry of each key
    counts, every key is there, and the result is a proper map.  (The bytes are those of a vector
    of pairs.) *)
Theorem C47_last_entry_wins : forall E d d' k a b l bs rest,
  wf_env E -> sizes_honest E -> wt E d (TVec (TPair a b)) (VSeq l) -> (d <= d')%nat ->
  to_vec E d (TVec (TPair a b)) (VSeq l) = Ok bs ->
  exists m, or_oom E (run (deserialize E d' (TMap k a b)) (bs ++ rest)) (Ok (VSeq m, rest))
            /\ wt E d (TMap k a b) (VSeq m)
            /\ forall x v, bound (fun x y => ceqb (e_cmp E a x y)) x v m
                           <-> last_binding (fun x y => ceqb (e_cmp E a x y)) x l = Some v.
Proof.
  intros E d d' k a b l bs rest W Hh Hw Hd Hs.
  pose proof (same0 E d d' _ _ _ rest W Hh Hw Hd Hs) as H.
  apply (entries_same (set_mem None E) d' k) in H; [|reflexivity].
  exists (build_map E k a l). split; [apply oom_lift; exact H|].
  assert (O : order (e_cmp E a)) by (apply lawful_order, (we_cmp _ W)).
  unfold wt in Hw. cbn [wt_ty] in Hw. destruct Hw as (Hf & _ & Hw).
  assert (Hp : Forall (fun p => match p with VPair _ _ => True | _ => False end) l).
  { eapply Forall_impl; [|exact Hw]. intros p. destruct p; cbn [wt_ty]; auto. }
  assert (Hu : forall k, (match k with KHash => upd_insert | KOrd => upd_last end) = upd_insert \/ (match k with KHash => upd_insert | KOrd => upd_last end) = upd_last) by (intros []; auto).
  assert (HW : Forall (fun p => match p with VPair x y => wt_ty E (wt_ref E d) a x /\ wt_ty E (wt_ref E d) b y | _ => False end) (build_map E k a l)).
  { assert (G : forall l acc, Forall (fun p => match p with VPair x y => wt_ty E (wt_ref E d) a x /\ wt_ty E (wt_ref E d) b y | _ => False end) acc ->
                Forall (wt_ty E (wt_ref E d) (TPair a b)) l ->
                Forall (fun p => match p with VPair x y => wt_ty E (wt_ref E d) a x /\ wt_ty E (wt_ref E d) b y | _ => False end)
                  (fold_left (fun acc e => cinsert (e_cmp E a) pkey (match k with KHash => upd_insert | KOrd => upd_last end) e acc) l acc)).
    { clear - Hu. induction l as [|e l IH]; intros acc Ha Hl; cbn [fold_left]; [exact Ha|]. inversion Hl; subst. apply IH; [|assumption].
      clear IH Hl H2. induction Ha as [|y acc Hy Ha IHa]; cbn [cinsert].
      - constructor; [|constructor]. destruct e; try contradiction. exact H1.
      - destruct (e_cmp E a (pkey e) (pkey y)).
        + constructor; [|assumption]. destruct e, y; try contradiction. cbn [wt_ty] in H1. destruct k; cbn; [split; [apply Hy|apply H1]|exact H1].
        + constructor; [|constructor; assumption]. destruct e; try contradiction. exact H1.
        + constructor; assumption. }
    apply G; [constructor|exact Hw]. }
  assert (HP : Forall (fun p => match p with VPair _ _ => True | _ => False end) (build_map E k a l)).
  { eapply Forall_impl; [|exact HW]. intros p. destruct p; auto. }
  assert (HS : StronglySorted (fun p q => e_cmp E a (pkey p) (pkey q) = Lt) (build_map E k a l)).
  { unfold build_map. apply cbuild_sorted; [exact O|]. intros o n Hk. destruct k; cbn; [|exact Hk]. apply o_refl; exact O. }
  split.
  - unfold wt. cbn [wt_ty]. split; [|split; assumption].
    unfold fits in *. eapply N.le_lt_trans; [|exact Hf]. unfold len, build_map. pose proof (cbuild_length (e_cmp E a) pkey (match k with KHash => upd_insert | KOrd => upd_last end) l). lia.
  - intros x v. rewrite (assoc_bound _ O _ _ _ HS HP). unfold build_map, cbuild. rewrite (assoc_fold _ O) by auto. cbn [assoc].
    destruct (last_binding _ x l); split; intros Hx; inversion Hx; reflexivity.
Qed.
(** Sets: an element is there exactly if an equal one was. *)
Theorem C47_set_keeps_elements : forall E d d' k a l bs rest,
  wf_env E -> sizes_honest E -> wt E d (TVec a) (VSeq l) -> (d <= d')%nat -> e_spec E = false \/ bulk_of a = None ->
  to_vec E d (TVec a) (VSeq l) = Ok bs ->
  exists m, or_oom E (run (deserialize E d' (TSet k a)) (bs ++ rest)) (Ok (VSeq m, rest))
            /\ StronglySorted (fun x y => e_cmp E a x y = Lt) m
            /\ (forall x, In x m -> In x l)
            /\ forall x, In x l -> exists y, In y m /\ e_cmp E a x y = Eq.
Proof.
  intros E d d' k a l bs rest W Hh Hw Hd Hb Hs.
  pose proof (same0 E d d' _ _ _ rest W Hh Hw Hd Hs) as H.
  apply (elems_same (set_mem None E) d' k) in H; [|reflexivity|cbn; destruct (e_spec E), Hb as [Hb|Hb]; congruence].
  exists (build_set E k a l). split; [apply oom_lift; exact H|].
  assert (O : order (e_cmp E a)) by (apply lawful_order, (we_cmp _ W)).
  split; [|split].
  - unfold build_set. change (fun x y => e_cmp E a x y = Lt) with (fun x y => e_cmp E a (vid x) (vid y) = Lt).
    apply cbuild_sorted; [exact O|]. intros o n Hk. destruct k; cbn; [apply o_refl; exact O|exact Hk].
  - intros x Hx. unfold build_set in Hx.
    assert (G : forall l acc, In x (fold_left (fun acc e => cinsert (e_cmp E a) vid (match k with KHash => upd_first | KOrd => upd_last end) e acc) l acc) -> In x l \/ In x acc).
    { clear. induction l as [|e l IH]; intros acc H; cbn [fold_left] in H; [auto|]. apply IH in H. destruct H as [H|H]; [left; right; exact H|].
      induction acc as [|y acc IHa]; cbn [cinsert] in H.
      - destruct H as [<-|[]]. left; left; reflexivity.
      - destruct (e_cmp E a (vid e) (vid y)).
        + destruct H as [H|H]; [|right; right; exact H]. destruct k; cbn in H; subst; [right; left; reflexivity|left; left; reflexivity].
        + destruct H as [<-|H]; [left; left; reflexivity|right; exact H].
        + destruct H as [<-|H]; [right; left; reflexivity|]. destruct (IHa H) as [?|?]; [left; assumption|right; right; assumption]. }
    destruct (G l [] Hx) as [?|[]]. assumption.
  - intros x Hx. unfold build_set, cbuild.
    assert (G : forall l acc, (In x l \/ exists y, In y acc /\ e_cmp E a x y = Eq) ->
       exists y, In y (fold_left (fun acc e => cinsert (e_cmp E a) vid (match k with KHash => upd_first | KOrd => upd_last end) e acc) l acc) /\ e_cmp E a x y = Eq).
    { clear - O. induction l as [|e l IH]; intros acc [Hi|(y & Hy & He)]; cbn [fold_left]; [destruct Hi|eauto| |]; apply IH.
      - destruct Hi as [<-|Hi]; [right|left; exact Hi].
        induction acc as [|z acc IHa]; cbn [cinsert].
        + exists e. split; [left; reflexivity|apply o_refl; exact O].
        + destruct (e_cmp E a (vid e) (vid z)) eqn:Ec.
          * exists (match k with KHash => z | KOrd => e end). split; [left; destruct k; reflexivity|]. destruct k; [exact Ec|apply o_refl; exact O].
          * exists e. split; [left; reflexivity|apply o_refl; exact O].
          * destruct IHa as (y & Hy & He). exists y. split; [right; exact Hy|exact He].
      - right. induction acc as [|z acc IHa]; [destruct Hy|]. cbn [cinsert].
        destruct (e_cmp E a (vid e) (vid z)) eqn:Ec; unfold vid in Ec.
        + destruct Hy as [->|Hy]; [|exists y; split; [right; exact Hy|exact He]].
          destruct k; [exists y; split; [left; reflexivity|exact He]|]. exists e. split; [left; reflexivity|].
          rewrite (o_eq_r _ _ O x e y Ec). exact He.
        + exists y. split; [right; exact Hy|exact He].
        + destruct Hy as [->|Hy]; [exists y; split; [left; reflexivity|exact He]|].
          destruct (IHa Hy) as (w & Hw & Hx). exists w. split; [right; exact Hw|exact Hx]. }
    apply G. left. exact Hx.
Qed.

(** ** The hypotheses are met *)
Example users_typed_new : forall T : ty -> val -> Prop, (forall t v, t <> TPath -> t <> TSystemTime -> T t v) -> users_typed new T 0.
Proof.
  intros T HT n s d r h Es Er _. cbn [new ex_env e_sch] in Es. unfold sch3 in Es.
  assert (Hr : r = 1 \/ r = 2 \/ r = 3).
  { unfold sent in Er. destruct (r =? 0) eqn:E0; [discriminate|].
    assert (L : (N.to_nat (r - 1) < length (s_hist s))%nat) by (apply nth_error_Some; congruence).
    destruct (n =? 1); [|destruct (n =? 2); [|discriminate]]; inversion Es; subst s; cbn in L; lia. }
  destruct (n =? 1) eqn:E1; [|destruct (n =? 2) eqn:E2; [|discriminate]]; inversion Es; subst s; clear Es; apply N.eqb_eq in E1 || apply N.eqb_eq in E2; subst n.
  - split; [|split].
    + intros fs f v -> Hf. cbn in Hf. repeat (destruct Hf as [<-|Hf]); try (destruct Hf); cbn [f_default with_default idxd fixedf fld with_convert f_ty];
        intros Ha Hc Hv; try (destruct Hr as [-> | [-> | ->]]; discriminate); inversion Hv; subst v;
        (split; [unfold wt; cbn [wt_ty]|unfold every; cbn [every_ty]]).
      all: repeat split; try constructor; try (apply HT; discriminate); try (vm_compute; reflexivity); try discriminate.
    + intros fs f l v l' -> Hf. cbn in Hf. repeat (destruct Hf as [<-|Hf]); try (destruct Hf); intros Ha Hc; try (destruct Hr as [-> | [-> | ->]]; discriminate).
      cbn [f_convert with_convert fixedf fld f_ty]. intros [Hl El] [Hv Ev] Hx.
      unfold wt_fields in Hl. unfold every_fields in El.
      change (filter (falive (scur user3)) (match s_body user3 with SStruct fs => fs | SEnum _ => [] end)) with
        [fld TStr 1 None; fld (TVec (TInt U16)) 1 None; with_default (VSeq []) (idxd IMap (fld (TMap KHash TStr (TInt U64)) 2 None));
            with_default (VInt 7) (fld (TInt I64) 3 None); with_default (VVar 0 []) (fld (TOption (TWrap (TRef 1))) 3 None)] in *.
      inversion Hl as [|? v1 ? l1 P1 Hl1]; subst; inversion Hl1 as [|? v2 ? l2 P2 Hl2]; subst; inversion Hl2 as [|? v3 ? l3 P3 Hl3]; subst;
      inversion Hl3 as [|? v4 ? l4 P4 Hl4]; subst; inversion Hl4 as [|? v5 ? l5 P5 Hl5]; subst; inversion Hl5; subst.
      inversion El as [|? ? ? ? Q1 El1]; subst; inversion El1 as [|? ? ? ? Q2 El2]; subst; inversion El2 as [|? ? ? ? Q3 El3]; subst;
      inversion El3 as [|? ? ? ? Q4 El4]; subst; inversion El4 as [|? ? ? ? Q5 El5]; subst.
      unfold age_to_birth in Hx. destruct v as [|z| | | | |]; try discriminate. inversion Hx; subst l'.
      assert (Z4 : wt_ty new (wt_ref new d) (TInt I64) (VInt (z + Z.of_N r))).
      { unfold wt in Hv. cbn [wt_ty] in *. unfold in_ity, inU, inS in *. cbn [new ex_env e_ub ity_signed ity_bits] in *.
        change (2 ^ Z.of_N 32)%Z with 4294967296%Z in Hv. change (2 ^ (Z.of_N 64 - 1))%Z with 9223372036854775808%Z.
        destruct Hr as [-> | [-> | ->]]; lia. }
      split; [apply Forall2_cons; [exact P1|]; apply Forall2_cons; [exact P2|]; apply Forall2_cons; [exact P3|]; apply Forall2_cons; [exact Z4|]; apply Forall2_cons; [exact P5|apply Forall2_nil]|].
      apply Forall2_cons; [exact Q1|]; apply Forall2_cons; [exact Q2|]; apply Forall2_cons; [exact Q3|]; apply Forall2_cons; [|apply Forall2_cons; [exact Q5|apply Forall2_nil]].
      split; [apply HT; discriminate|exact I].
    + intros vs vr l v Hb. discriminate.
  - split; [|split].
    + intros fs f v (vr & Hi & ->) Hf Ha Hc. exfalso. cbn in Hi.
      destruct Hi as [<-|[<-|[<-|[<-|[]]]]]; cbn in Hf; repeat (destruct Hf as [<-|Hf]); try (destruct Hf); destruct Hr as [-> | [-> | ->]]; discriminate.
    + intros fs f l v l' (vr & Hi & ->) Hf Ha Hc. exfalso. cbn in Hi.
      destruct Hi as [<-|[<-|[<-|[<-|[]]]]]; cbn in Hf; repeat (destruct Hf as [<-|Hf]); try (destruct Hf); destruct Hr as [-> | [-> | ->]]; discriminate.
    + intros vs vr l v Hb Hi Ha Hc Hv. cbn in Hb. inversion Hb; subst vs. clear Hb. cbn in Hi.
      destruct Hi as [<-|[<-|[<-|[<-|[]]]]]; try discriminate. inversion Hv; subst v. split.
      * unfold wt. cbn [wt_ty wt_ref new ex_env e_sch sch3]. change (2 =? 1) with false. change (2 =? 2) with true. cbv iota.
        unfold wt_derived. cbn [s_body shape2]. eexists. split; [left; reflexivity|]. split; [reflexivity|]. split; [reflexivity|].
        unfold wt_fields. constructor; [|constructor]. cbn [wt_ty fld f_ty]. split; vm_compute; [discriminate|reflexivity].
      * unfold every. cbn [every_ty every_ref new ex_env e_sch sch3]. change (2 =? 1) with false. change (2 =? 2) with true. cbv iota.
        split; [apply HT; discriminate|]. unfold every_derived. cbn [s_body shape2]. intros vr Hi Hk.
        cbn in Hi. destruct Hi as [<-|[<-|[<-|[<-|[]]]]]; try discriminate.
        unfold every_fields. constructor; [|constructor]. cbn [every_ty fld f_ty]. split; [apply HT; discriminate|exact I].
Qed.
Example ext_typed_new : forall T, ext_typed new T.
Proof.
  intros T c d t x y Hx. cbn [new ex_env e_ext]. destruct x as [|[]| | | | |]; try (destruct (c =? 0)); intros H; inversion H; subst; exact Hx.
Qed.
Example opt_stable_new : opt_stable new.
Proof.
  intros n s vs vr r h Es Eb Hi Er Ho Ha Hc. cbn [new ex_env e_sch] in Es. unfold sch3 in Es.
  destruct (n =? 1); [|destruct (n =? 2); [|discriminate]]; inversion Es; subst s; cbn in Eb; try discriminate. inversion Eb; subst vs.
  assert (Hr : r = 1 \/ r = 2).
  { unfold sent in Er. destruct (r =? 0) eqn:E0; [discriminate|].
    assert (L : (N.to_nat (r - 1) < length (s_hist shape2))%nat) by (apply nth_error_Some; congruence). cbn in L; lia. }
  cbn in Hi. destruct Hi as [<-|[<-|[<-|[<-|[]]]]]; destruct Hr as [-> | ->]; try discriminate; reflexivity.
Qed.
Example sizes_true_new : sizes_true new.
Proof.
  intros n s vs vr k d l bs Es Eb Hi Hk Hw Hb. cbn [new ex_env e_sch] in Es. unfold sch3 in Es.
  destruct (n =? 1); [|destruct (n =? 2); [|discriminate]]; inversion Es; subst s; cbn in Eb; try discriminate. inversion Eb; subst vs.
  cbn in Hi. destruct Hi as [<-|[<-|[<-|[<-|[]]]]]; try discriminate. inversion Hk; subst k.
  inversion Hb as [|? ? ? ? ? ? X1 X2]; subst. inversion X2; subst. cbn [concat]. rewrite app_nil_r.
  inversion Hw as [|? ? ? ? Hv]; subst. cbn in Hv. destruct v; try contradiction. cbn in X1. inversion X1; subst. reflexivity.
Qed.
(** Old bytes, among them a non-canonical varint and trailing garbage, decode to a well-typed value whose
    new encoding is different. *)
Definition odd_bytes : bytes := [1; 251; 1; 0; 97; 41; 0; 0; 0; 1; 3; 0; 99].
Example C10_case : exists v, run (deserialize new 1 (TRef 1)) odd_bytes = Ok (v, [99]) /\ wt new 1 (TRef 1) v /\ wfb odd_bytes /\ 16 * (len odd_bytes + 1) <= 2 ^ e_ub new.
Proof.
  eexists. split; [vm_compute; reflexivity|]. split; [apply wtb_ok; vm_compute; reflexivity|].
  split; [repeat constructor|vm_compute; discriminate].
Qed.
Example C11_case : exists v b, run (deserialize new 1 (TRef 1)) odd_bytes = Ok (v, [99]) /\ to_vec new 1 (TRef 1) v = Ok b /\ from_slice new 1 (TRef 1) b = Ok v /\ b <> odd_bytes.
Proof. do 2 eexists. split; [vm_compute; reflexivity|]. split; [vm_compute; reflexivity|]. split; [vm_compute; reflexivity|discriminate]. Qed.
Example C47_case : wt new 0 (TVec (TPair TStr TBool)) (VSeq [VPair (VBytes [98]) (VBool true); VPair (VBytes [97]) (VBool true); VPair (VBytes [98]) (VBool false)])
  /\ from_slice new 0 (TMap KHash TStr TBool) [3; 1; 98; 1; 1; 97; 1; 1; 98; 0] = Ok (VSeq [VPair (VBytes [97]) (VBool true); VPair (VBytes [98]) (VBool false)]).
Proof. split; [apply wtb_ok; vm_compute; reflexivity|vm_compute; reflexivity]. Qed.

Print Assumptions C10_decoded_is_well_typed.
Print Assumptions C10_utf8.
Print Assumptions C11_decoded_reencodes.
Print Assumptions C11_normal_form_stable.
Print Assumptions C47_last_entry_wins.
Print Assumptions C47_set_keeps_elements.
