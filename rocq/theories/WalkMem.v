(** Walking on machines with a memory limit.  Proofs. *)

From Verif Require Import Base BaseL Prog ProgL Prim PrimL Utf8 Tag Ty Ser De Typed Parts Agree Spec SliceReader Skip SkipIdx SkipL SkipFormL Walk Calls Hand PropLimit.
From Coq Require Import List NArith ZArith Bool Lia.
Import ListNotations.
Open Scope N_scope.

(** The same outcome, or a refused allocation. *)
Definition rm {A} (r r' : res A) : Prop := r = r' \/ r = Panic PMem.
Definition wm {A} (m m' : sm A) : Prop := forall s, rm (m s) (m' s).

Lemma wm_refl : forall A (m : sm A), wm m m.
Proof. intros A m s. left. reflexivity. Qed.
Lemma wm_bind : forall A B (m m' : sm A) (f f' : A -> sm B), wm m m' -> (forall a, wm (f a) (f' a)) -> wm (sm_bind m f) (sm_bind m' f').
Proof.
  intros A B m m' f f' Hm Hf s. unfold sm_bind. destruct (Hm s) as [->| ->]; [|right; reflexivity].
  destruct (m' s) as [[a s']|e|x]; [apply Hf|left; reflexivity..].
Qed.
Lemma wm_map : forall A B (g : A -> B) (m m' : sm A), wm m m' -> wm (sm_map g m) (sm_map g m').
Proof. intros A B g m m' H. apply wm_bind; [exact H|]. intros a. apply wm_refl. Qed.
Lemma rm_map : forall A B (g : A -> B) r r', rm r r' -> rm (rmap g r) (rmap g r').
Proof. intros A B g r r' [->| ->]; [left|right]; reflexivity. Qed.
Lemma wm_res : forall A (r r' : res A), rm r r' -> wm (sm_res r) (sm_res r').
Proof. intros A r r' H s. apply rm_map. exact H. Qed.
Lemma rm_run : forall A (p p' : prog A) bs, agree (eq PMem) p p' -> rm (run p bs) (run p' bs).
Proof. intros A p p' bs H. destruct (H bs) as [K|(x & <- & K)]; [left|right]; exact K. Qed.
Lemma wm_follows : forall A (m m' : sm A) p p', follows m p -> follows m' p' -> agree (eq PMem) p p' -> wm m m'.
Proof.
  intros A m m' p p' F F' H s. rewrite (F s), (F' s). destruct (rm_run _ p p' (sr_inner s) H) as [->| ->]; [left|right]; reflexivity.
Qed.
Lemma wm_run : forall A (p p' : prog A), agree (eq PMem) p p' -> wm (sr_run p) (sr_run p').
Proof. intros A p p' H. exact (wm_follows _ _ _ p p' (fol_run _ p) (fol_run _ p') H). Qed.
Lemma wm_rep : forall (m m' : sm unit), wm m m' -> forall n, wm (sm_rep n m) (sm_rep n m').
Proof. intros m m' H. induction n as [|n IH]; cbn [sm_rep]; [apply wm_refl|]. apply wm_bind; [exact H|]. intros _. exact IH. Qed.
Lemma wm_slice : forall A (p p' : prog A) b c, agree (eq PMem) p p' -> wm (on_slice p b c) (on_slice p' b c).
Proof. intros A p p' b c H. unfold on_slice. destruct (split_at c b) as [[x y]|]; [|apply wm_refl]. apply wm_res, rm_map, rm_run, H. Qed.
Lemma wm_consumed : forall (m m' : sm unit), wm m m' -> wm (sm_consumed m) (sm_consumed m').
Proof. intros m m' H s. unfold sm_consumed. destruct (H s) as [->| ->]; [left|right]; reflexivity. Qed.

Ltac same := match goal with |- wm ?m ?m => apply wm_refl end.

Section Limit.
Variable E : env.
Variable D : nat.
Local Notation E0 := (set_mem None E).

Lemma mem_mode : forall d mo t, agree (eq PMem) (de_mode E (de_ref E d) mo t) (de_mode E0 (de_ref E0 d) mo t).
Proof. intros d mo t. apply (agree_mode _ E None (e_dbg E)); [apply alloc_agree|intros; apply agree_refl|]. intros n. apply mem_de_ref. Qed.
Lemma mem_body : forall d s r, agree (eq PMem) (de_body E (de_ref E d) s r) (de_body E0 (de_ref E0 d) s r).
Proof.
  intros d s r.
  assert (HF : forall opt cur tgt fs, agree (eq PMem) (de_fields E (de_ref E d) opt cur tgt fs) (de_fields E0 (de_ref E0 d) opt cur tgt fs)).
  { intros. apply (agree_fields _ E None (e_dbg E)); [apply alloc_agree|intros; apply agree_refl|]. intros n. apply mem_de_ref. }
  assert (HV : forall cur fs, agree (eq PMem) (de_vfields E (de_ref E d) cur fs) (de_vfields E0 (de_ref E0 d) cur fs)).
  { intros. apply (agree_vfields _ E None (e_dbg E)); [apply alloc_agree|]. intros n. apply mem_de_ref. }
  pose proof (alloc_agree E) as Hal.
  assert (agr : True) by exact I.
  unfold de_body. destruct (sent s r) as [h|]; [|apply agree_refl].
  destruct (s_body s) as [fs|vs].
  - unfold de_struct_opt, struct_payload, de_struct_legacy. change (e_ub E0) with (e_ub E). destruct (h_opt h), (h_idx h);
    repeat first [match goal with |- agree _ ?p ?p => apply agree_refl end | apply Hal | apply HF | apply agree_bind; [|intros ?] | apply agree_map_err | apply agree_in_buf
      | match goal with |- agree _ (if ?c then _ else _) (if ?c then _ else _) => destruct c end].
  - unfold de_enum_opt, de_enum_legacy, de_variant_opt, de_variant_legacy. destruct (h_opt h); (destruct (calc_disc r vs) as [ds|]; [|apply agree_refl]).
    + apply agree_bind; [apply agree_refl|]. intros ts. destruct (find_tag _ _ _) as [[vr k]|]; [|apply agree_refl].
      change (e_ub E0) with (e_ub E).
      apply agree_bind; [destruct (v_size vr) as [[]|]; cbn [variant_buf]|intros buf];
      repeat first [match goal with |- agree _ ?p ?p => apply agree_refl end | apply Hal | apply HV | apply agree_bind; [|intros ?] | apply agree_map_err | apply agree_in_buf
      | match goal with |- agree _ (if ?c then _ else _) (if ?c then _ else _) => destruct c end].
    + apply agree_bind; [apply agree_refl|]. intros x. destruct (find_disc _ _) as [[vr k]|]; [|apply agree_refl].
      repeat first [match goal with |- agree _ ?p ?p => apply agree_refl end | apply HF | apply agree_bind; [|intros ?]
      | match goal with |- agree _ (if ?c then _ else _) (if ?c then _ else _) => destruct c end].
Qed.
Lemma wm_dec : forall d t, wm (sr_run (deserialize E d t)) (sr_run (deserialize E0 d t)).
Proof. intros d t. apply wm_run, mem_agree. Qed.
Lemma wm_skip : forall d t, wm (sr_run (skip E d t)) (sr_run (skip E0 d t)).
Proof. intros d t. apply wm_run, mem_skip. Qed.
Lemma wm_skip_idx : forall d t, wm (skip_idx E d t) (skip_idx E0 d t).
Proof.
  intros d t. destruct t; cbn [skip_idx]; try same;
    first [exact (wm_follows _ _ _ _ _ (fol_idx_map E d _ _) (fol_idx_map E0 d _ _) (mem_idx_map E d _ _))
          |exact (wm_follows _ _ _ _ _ (fol_idx_seq E d _) (fol_idx_seq E0 d _) (mem_idx_seq E d _))].
Qed.
Lemma wm_wire_skip : forall d f, wm (wire_skip E d f) (wire_skip E0 d f).
Proof. intros d f. unfold wire_skip. destruct (is_idx f); [apply wm_skip_idx|apply wm_skip]. Qed.
Lemma wm_materialise : forall d s rev, wm (materialise E D d s rev) (materialise E0 D d s rev).
Proof. intros d s rev. unfold materialise. apply wm_bind; [apply wm_run, mem_body|]. intros v. apply wm_refl. Qed.
Lemma wm_enter : forall t d, wm (enter E D d t) (enter E0 D d t).
Proof.
  induction t; intros d; cbn [enter];
    match goal with |- wm (enter _ _ _ _) _ => apply IHt | |- wm (match d with O => _ | S _ => _ end) _ => idtac | |- _ => apply wm_refl end.
  destruct d as [|d]; [apply wm_refl|]. match goal with |- wm (match e_sch E ?n with _ => _ end) _ => change (e_sch E0 n) with (e_sch E n); destruct (e_sch E n) as [s|]; [|apply wm_refl] end. apply wm_map. unfold enter_derived. apply wm_bind; [apply wm_refl|]. intros rev. destruct (_ || _); [apply wm_refl|].
  destruct (s_body s) as [fs|vs].
  - unfold enter_struct. destruct (_ && _); [|apply wm_refl]. apply wm_bind; [apply wm_materialise|]. intros p. apply wm_refl.
  - unfold enter_enum. destruct (_ && _); [|apply wm_refl]. apply wm_bind; [apply wm_materialise|]. intros p. apply wm_refl.
Qed.
Lemma wm_field_decode : forall d r i f, wm (field_decode E D d r i f) (field_decode E0 D d r i f).
Proof.
  intros d r i f. destruct r as [rev|b fc|b c]; cbn [field_decode].
  - destruct (_ <=? _); [apply wm_map, wm_run, mem_mode|apply wm_refl].
  - apply wm_bind; [apply wm_refl|]. intros x. apply wm_map, wm_slice, mem_agree.
  - apply wm_map, wm_slice, mem_agree.
Qed.
Lemma wm_field_skip : forall d r f, wm (field_skip E D d r f) (field_skip E0 D d r f).
Proof.
  intros d r f. destruct r as [rev|b fc|b c]; cbn [field_skip].
  - destruct (_ <=? _); [apply wm_map, wm_wire_skip|apply wm_refl].
  - apply wm_refl.
  - apply wm_map, wm_slice, mem_skip.
Qed.
Lemma wm_field_view : forall d r i f, wm (field_view E D d r i f) (field_view E0 D d r i f).
Proof.
  intros d r i f. destruct r as [rev|b fc|b c]; cbn [field_view].
  - apply wm_map, wm_consumed, wm_skip_idx.
  - apply wm_refl.
  - apply wm_bind; [apply wm_slice, mem_agree|]. intros p. apply wm_refl.
Qed.
Lemma wm_field_bytes : forall d r i f, wm (field_bytes E D d r i f) (field_bytes E0 D d r i f).
Proof.
  intros d r i f. destruct r as [rev|b fc|b c]; cbn [field_bytes].
  - destruct (_ <=? _); [apply wm_map, wm_consumed, wm_wire_skip|apply wm_refl].
  - apply wm_refl.
  - apply wm_bind; [apply wm_slice, mem_agree|]. intros p. apply wm_refl.
Qed.
Lemma wm_skip_fields : forall d fs r, wm (skip_fields E D d r fs) (skip_fields E0 D d r fs).
Proof.
  intros d. induction fs as [|f fs IH]; intros r; cbn [skip_fields]; [apply wm_refl|]. apply wm_bind; [apply wm_field_skip|]. intros p. apply IH.
Qed.
Lemma wm_variant_decode : forall d r s vs k, wm (variant_decode E D d r s vs k) (variant_decode E0 D d r s vs k).
Proof.
  intros d r s vs k. unfold variant_decode. destruct (cur_variant s vs k) as [[|f [|g l]]|]; try same.
  destruct (is_variant r s vs k); [|apply wm_refl]. destruct r; [apply wm_map, wm_dec|..]; (apply wm_bind; [apply wm_refl|]; intros b'; apply wm_map, wm_slice, mem_agree).
Qed.
Lemma wm_variant_view : forall d r s vs k, wm (variant_view E D d r s vs k) (variant_view E0 D d r s vs k).
Proof.
  intros d r s vs k. unfold variant_view. destruct (cur_variant s vs k) as [[|f [|g l]]|]; try same.
  destruct (is_variant r s vs k); [|apply wm_refl]. destruct r; try same. apply wm_bind; [apply wm_dec|]. intros v. apply wm_refl.
Qed.
Definition inside (a : act) : Prop := match a with Walk w => forall d c, wm (act_on E D d c w) (act_on E0 D d c w) | _ => True end.
Lemma wm_act_in : forall a, (forall d c, wm (act_on E D d c a) (act_on E0 D d c a)) /\ inside a.
Proof.
  assert (En : forall w t d, (forall d c, wm (act_on E D d c w) (act_on E0 D d c w)) ->
    wm (sm_bind (enter E D d t) (fun p => act_on E D (fst p) (snd p) w)) (sm_bind (enter E0 D d t) (fun p => act_on E0 D (fst p) (snd p) w))).
  { intros w t d H. apply wm_bind; [apply wm_enter|]. intros p. apply H. }
  induction a; repeat match goal with H : _ /\ inside _ |- _ => let i := fresh "In" in destruct H as [H i] end;
    (split; [|first [exact I|exact IHa]]); intros d c; destruct c; cbn [act_on]; try same.
  - apply wm_map, wm_dec.
  - destruct (_ =? _); [apply wm_refl|apply wm_map, wm_dec].
  - destruct (_ =? _); apply wm_map, wm_dec.
  - apply wm_map, wm_skip.
  - destruct (_ =? _); [apply wm_map, wm_skip|apply wm_refl].
  - apply wm_map, wm_skip.
  - apply wm_refl.
  - apply En, IHa.
  - destruct (_ =? _); [apply IHa1|apply IHa2].
  - destruct (_ =? _); [apply IHa1|apply IHa2].
  - destruct k as [|[p|p|]]; try same. destruct (_ =? _); [apply wm_refl|apply En, IHa].
  - destruct k as [|[p|p|]]; try same; (destruct (_ =? _); try same; apply En, IHa).
  - destruct (_ =? _); [apply wm_refl|]. apply wm_bind; [apply IHa1|]. intros o. apply wm_map, IHa2.
  - destruct (_ =? _); [apply wm_refl|]. assert (G : wm (sm_bind (act_on E D d (CPos a) a1) (fun o => sm_bind (act_on E D d (CPos b) a2) (fun o' => sm_map (OCons (OCons o o')) (act_on E D d (CMap a b (n - 1)) a3))))
      (sm_bind (act_on E0 D d (CPos a) a1) (fun o => sm_bind (act_on E0 D d (CPos b) a2) (fun o' => sm_map (OCons (OCons o o')) (act_on E0 D d (CMap a b (n - 1)) a3))))).
    { apply wm_bind; [apply IHa1|]. intros o. apply wm_bind; [apply IHa2|]. intros o'. apply wm_map, IHa3. }
    destruct a1; [exact G|exact G|exact G|apply wm_refl|exact G..].
  - apply wm_map, wm_rep, wm_skip.
  - apply wm_map, wm_rep. apply wm_bind; [apply wm_skip|]. intros _. apply wm_skip.
  - destruct fs; apply wm_map, wm_skip_fields.
  - destruct fs as [|f fs]; [apply wm_refl|].
    assert (G : forall m m' : sm (obs * srepr), wm m m' -> wm (sm_bind m (fun p => sm_map (OCons (fst p)) (act_on E D d (CStruct (snd p) (i + 1) fs) a2)))
      (sm_bind m' (fun p => sm_map (OCons (fst p)) (act_on E0 D d (CStruct (snd p) (i + 1) fs) a2)))).
    { intros m m' H. apply wm_bind; [exact H|]. intros p. apply wm_map, IHa2. }
    destruct a1; try same.
    + apply G, wm_field_decode.
    + apply G, wm_field_skip.
    + destruct (is_idx f); [apply wm_refl|]. destruct r; try same. destruct (_ <=? _); [|apply wm_refl].
      apply wm_bind; [apply wm_enter|]. intros p. apply wm_bind; [|intros o; apply wm_map, IHa2].
      match goal with H : inside (Walk _) |- _ => apply H end.
    + destruct (is_idx f); [|apply wm_refl]. apply G, wm_field_view.
  - destruct (cur_variant s vs k); [|apply wm_refl]. destruct (is_variant r s vs k); [apply IHa1|apply IHa2].
  - destruct (cur_variant s vs k) as [[|f [|g l]]|]; try same. destruct (is_variant r s vs k); [|apply wm_refl]. destruct r; try same. apply En, IHa.
  - apply wm_variant_decode.
  - apply wm_variant_view.
Qed.
Lemma wm_act : forall a d c, wm (act_on E D d c a) (act_on E0 D d c a).
Proof. intros a. apply wm_act_in. Qed.
Lemma wm_walk : forall d t a, wm (walk_with E D d t a) (walk_with E0 D d t a).
Proof. intros d t a. apply wm_bind; [apply wm_enter|]. intros p. apply wm_act. Qed.

(** Finding in maps, [into_<field>_bytes], the generic walkers. *)
Lemma wm_into_bytes : forall d cs fs r i, wm (into_bytes_after E D d r i fs cs) (into_bytes_after E0 D d r i fs cs).
Proof.
  intros d. induction cs as [|c cs IH]; intros [|f fs] r i; cbn [into_bytes_after]; try same; [apply wm_field_bytes|].
  apply wm_bind; [destruct c; [apply wm_field_decode|apply wm_field_skip]|]. intros p. apply IH.
Qed.
Lemma wm_walk_into_bytes : forall d t cs, wm (walk_into_bytes E D d t cs) (walk_into_bytes E0 D d t cs).
Proof. intros d t cs. apply wm_bind; [apply wm_enter|]. intros [d' []]; cbn [fst snd]; try same. apply wm_into_bytes. Qed.
Lemma wm_past : forall d a b n, wm (sm_bind (sr_run (skip E d b)) (fun _ => sm_bind (sm_rep n (sm_bind (sr_run (skip E d a)) (fun _ => sr_run (skip E d b)))) (fun _ => sm_ret false)))
  (sm_bind (sr_run (skip E0 d b)) (fun _ => sm_bind (sm_rep n (sm_bind (sr_run (skip E0 d a)) (fun _ => sr_run (skip E0 d b)))) (fun _ => sm_ret false))).
Proof.
  intros d a b n. apply wm_bind; [apply wm_skip|]. intros _. apply wm_bind; [|intros; apply wm_refl]. apply wm_rep. apply wm_bind; [apply wm_skip|]. intros _. apply wm_skip.
Qed.
Lemma wm_find : forall d a b p n, wm (find_loop E d a b p n) (find_loop E0 d a b p n).
Proof.
  intros d a b p. induction n as [|n IH]; cbn [find_loop]; [apply wm_refl|]. apply wm_bind; [apply wm_dec|]. intros k.
  destruct (p k); [apply wm_refl| |apply wm_past]. apply wm_bind; [apply wm_skip|]. intros _. exact IH.
Qed.
Lemma wm_find_bytes : forall d a b p n, wm (find_bytes_loop E d a b p n) (find_bytes_loop E0 d a b p n).
Proof.
  intros d a b p. induction n as [|n IH]; cbn [find_bytes_loop]; [apply wm_refl|]. apply wm_bind; [apply wm_refl|]. intros m.
  apply wm_bind; [apply wm_refl|]. intros x. apply wm_bind; [apply wm_refl|]. intros _.
  destruct (p x); [apply wm_refl| |apply wm_past]. apply wm_bind; [apply wm_skip|]. intros _. exact IH.
Qed.
Lemma wm_map_find : forall d a b p w, wm (map_find E D d a b p w) (map_find E0 D d a b p w).
Proof.
  intros d a b p w. unfold map_find. apply wm_bind; [apply wm_refl|]. intros n. apply wm_bind; [apply wm_find|]. intros []; [apply wm_map, wm_act|apply wm_refl].
Qed.
Lemma wm_map_find_bytes : forall d a b p w, wm (map_find_bytes E D d a b p w) (map_find_bytes E0 D d a b p w).
Proof.
  intros d a b p w. unfold map_find_bytes. apply wm_bind; [apply wm_refl|]. intros n. apply wm_bind; [apply wm_find_bytes|]. intros []; [apply wm_map, wm_act|apply wm_refl].
Qed.
Lemma wm_hand : forall d ops h, wm (hand_run E D d ops h) (hand_run E0 D d ops h).
Proof.
  intros d. induction ops as [|o ops IH]; intros h; cbn [hand_run]; [apply wm_refl|]. apply wm_bind.
  - unfold hand_step. apply wm_bind; [|intros; apply wm_refl]. destruct o; cbn [hop_on]; [apply wm_map, wm_dec|apply wm_map, wm_skip|apply wm_walk].
  - intros p. apply wm_bind; [apply IH|]. intros q. apply wm_refl.
Qed.
Lemma wm_struct_by_hand : forall d choose, wm (struct_by_hand E D d choose) (struct_by_hand E0 D d choose).
Proof. intros d choose. apply wm_bind; [apply wm_refl|]. intros rev. apply wm_hand. Qed.
Lemma wm_enum_by_hand : forall d choose, wm (enum_by_hand E D d choose) (enum_by_hand E0 D d choose).
Proof.
  intros d choose. apply wm_bind; [apply wm_refl|]. intros rev. apply wm_bind; [apply wm_refl|]. intros w. apply wm_bind; [apply wm_hand|]. intros q. apply wm_refl.
Qed.
Lemma wm_call : forall d fs c r, wm (call E D d fs c r) (call E0 D d fs c r).
Proof.
  intros d fs c r. destruct c as [i|i|i|i w]; cbn [call]; (destruct (nth_error fs i) as [f|]; [|apply wm_refl]);
    [apply wm_field_decode|apply wm_field_skip| |]; (destruct (is_idx f); try same); [apply wm_field_view|].
  destruct r; try same. destruct (_ <=? _); [|apply wm_refl]. apply wm_bind; [apply wm_enter|]. intros p. apply wm_map, wm_act.
Qed.
Lemma wm_last : forall d fs c r, wm (last_call E D d fs c r) (last_call E0 D d fs c r).
Proof.
  intros d fs c r. destruct c as [i|i|i w]; cbn [last_call]; (destruct (nth_error fs i) as [f|]; [|apply wm_refl]);
    [apply wm_field_bytes| |]; (destruct (is_idx f); try same); [apply wm_map, wm_field_view|].
  destruct r; try same. destruct (_ <=? _); [|apply wm_refl]. apply wm_bind; [apply wm_enter|]. intros p. apply wm_act.
Qed.
End Limit.
