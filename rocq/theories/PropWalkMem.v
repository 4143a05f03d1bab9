(** C78: walking without decoding needs no memory. *)

From Verif Require Import Base BaseL Prog ProgL Prim Tag Ty Ser De Agree Ex SliceReader Skip SkipL SkipIdx Walk PropSkip PropWire.
From Coq Require Import List NArith ZArith Bool Lia.
Import ListNotations.
Open Scope N_scope.

(** ** Specification *)

(** Scripts that decode nothing.  [<variant>_view] is among them if [views] says so. *)
Fixpoint quiet (views : bool) (a : act) : bool :=
  match a with
  | Decode | DecodeVar _ => false
  | ViewVar _ => views
  | Skip | Bytes | Rest | View => true
  | Walk w | Into _ w | IntoVar _ w => quiet views w
  | Case w0 w1 | Is _ w0 w1 => quiet views w0 && quiet views w1
  | Item a w | Field a w => quiet views a && quiet views w
  | Entry a b w => quiet views a && quiet views b && quiet views w
  end.
(** No type is converted (then an older revision is decoded and encoded again, see C37), no field is a PathBuf or of
    another type whose skip decodes, and every enum revision is an optimised one if [views]: the view of a
    variant of a legacy revision decodes it. *)
Record walks_lean (views : bool) (E : env) : Prop := mkWL {
  wl_conv : forall n s, e_sch E n = Some s -> has_convert s = false;
  wl_lean : forall n s f, e_sch E n = Some s -> In f (body_fields (s_body s)) -> lean (f_ty f) = true;
  wl_views : views = true -> forall n s vs r h, e_sch E n = Some s -> s_body s = SEnum vs -> sent s r = Some h -> h_opt h = true
}.

(** ** Proofs *)

Definition sm_eq {A} (m m' : sm A) : Prop := forall s, m s = m' s.
Lemma sme_refl : forall A (m : sm A), sm_eq m m.
Proof. intros A m s. reflexivity. Qed.
Lemma sme_bind : forall A B (m m' : sm A) (f f' : A -> sm B), sm_eq m m' -> (forall a, sm_eq (f a) (f' a)) -> sm_eq (sm_bind m f) (sm_bind m' f').
Proof. intros A B m m' f f' H Hf s. unfold sm_bind. rewrite H. destruct (m' s) as [[a s']|e|x]; cbn [rbind]; try reflexivity. apply Hf. Qed.
(** ... where the second part may rely on what the first gave. *)
Lemma sme_bind_in : forall A B (m : sm A) (f f' : A -> sm B), (forall s a s', m s = Ok (a, s') -> sm_eq (f a) (f' a)) -> sm_eq (sm_bind m f) (sm_bind m f').
Proof. intros A B m f f' Hf s. unfold sm_bind. destruct (m s) as [[a s']|e|x] eqn:Em; cbn [rbind]; try reflexivity. apply (Hf _ _ _ Em). Qed.
Lemma sme_map : forall A B (g : A -> B) (m m' : sm A), sm_eq m m' -> sm_eq (sm_map g m) (sm_map g m').
Proof. intros A B g m m' H. apply sme_bind; [exact H|]. intros a. apply sme_refl. Qed.
Lemma sme_rep : forall n (m m' : sm unit), sm_eq m m' -> sm_eq (sm_rep n m) (sm_rep n m').
Proof. induction n as [|n IH]; intros m m' H; cbn [sm_rep]; [apply sme_refl|]. apply sme_bind; [exact H|]. intros _. apply IH, H. Qed.
Lemma sme_run : forall A (p q : prog A), same_run p q -> sm_eq (sr_run p) (sr_run q).
Proof. intros A p q H s. rewrite !sr_run_run, H. reflexivity. Qed.

Ltac sref := match goal with
  | |- sm_eq (sm_panic _) (sm_panic _) => apply sme_refl
  | |- sm_eq (sm_err _) (sm_err _) => apply sme_refl
  | |- sm_eq (sm_ret _) (sm_ret _) => apply sme_refl
  end.
Section NoMem.
Variables (views : bool) (E : env) (m : option N) (D : nat).
Hypothesis HE : walks_lean views E.
Let E' := set_mem m E.

Lemma lean_of : lean_env E.
Proof. intros n s r h f Hs _ _ Hf _. right. exact (wl_lean _ _ HE n s f Hs Hf). Qed.
Lemma mem_skip : forall d t, lean t = true -> sm_eq (sr_run (skip E' d t)) (sr_run (skip E d t)).
Proof. intros d t L. apply sme_run. intros bs. apply C16_skip_needs_no_memory; [exact lean_of|exact L]. Qed.
Lemma mem_skip_idx : forall d t, lean t = true -> sm_eq (skip_idx E' d t) (skip_idx E d t).
Proof.
  intros d t L.
  assert (HS : forall a, lean a = true -> sm_eq (skip_indexed_seq E' d a) (skip_indexed_seq E d a)).
  { intros a La. unfold skip_indexed_seq. apply sme_bind; [apply sme_refl|]. intros fl. apply sme_bind; [apply sme_refl|]. intros n.
    destruct (N.land fl 1 =? 0); [apply sme_rep, mem_skip, La|]. destruct (n =? 0); [apply sme_refl|]. change (e_ub E') with (e_ub E). destruct (n * 4 <? 2 ^ e_ub E); [|apply sme_refl].
    apply sme_bind; [apply sme_refl|]. intros table. cbv zeta. apply sme_bind; [apply sme_refl|]. intros _. apply sme_bind; [apply sme_refl|]. intros _. apply mem_skip, La. }
  destruct t; cbn [skip_idx lean] in *; try sref; try (apply HS, L).
  apply andb_prop in L. destruct L as [La Lb]. unfold skip_indexed_map. apply sme_bind; [apply sme_refl|]. intros fl. apply sme_bind; [apply sme_refl|]. intros n.
  destruct (N.land fl 1 =? 0); [|apply sme_refl]. apply sme_rep. apply sme_bind; [apply mem_skip, La|]. intros _. apply mem_skip, Lb.
Qed.
Lemma mem_wire_skip : forall d f, lean (f_ty f) = true -> sm_eq (wire_skip E' d f) (wire_skip E d f).
Proof. intros d f L. unfold wire_skip. destruct (is_idx f); [apply mem_skip_idx, L|apply mem_skip, L]. Qed.
Lemma mem_consumed : forall x y, sm_eq x y -> sm_eq (sm_consumed x) (sm_consumed y).
Proof. intros x y H s. unfold sm_consumed. rewrite H. reflexivity. Qed.

(** Walkers a script without decoding can come to. *)
Definition srepr_ok (r : srepr) : Prop := match r with SOwned _ _ => False | _ => True end.
Definition ctx_ok (c : ctx) : Prop :=
  match c with
  | CPos t | COpt t _ | CSeq t _ => lean t = true
  | CRes a b _ | CMap a b _ => lean a = true /\ lean b = true
  | CStruct r _ fs => srepr_ok r /\ Forall (fun f => lean (f_ty f) = true) fs
  | CEnum r s vs => (match r with EWire _ _ => views = false | EBorrowed _ _ => True | EOwned _ _ _ => False end)
                    /\ Forall (fun v => Forall (fun f => lean (f_ty f) = true) (v_fields v)) vs
  end.
Lemma body_lean : forall n s, e_sch E n = Some s -> Forall (fun f => lean (f_ty f) = true) (body_fields (s_body s)).
Proof. intros n s Hs. apply Forall_forall. intros f Hf. exact (wl_lean _ _ HE n s f Hs Hf). Qed.
Lemma enter_derived_mem : forall n d s, e_sch E n = Some s -> sm_eq (enter_derived E' D d s) (enter_derived E D d s)
  /\ forall x c y, enter_derived E D d s x = Ok (c, y) -> ctx_ok c.
Proof.
  intros n d s Hs. pose proof (wl_conv _ _ HE n s Hs) as Hc. pose proof (body_lean n s Hs) as Hl. pose proof (wl_views _ _ HE) as Hv.
  assert (Hst : forall fs rev, s_body s = SStruct fs -> sm_eq (enter_struct E' D d s fs rev) (enter_struct E D d s fs rev) /\ forall x c y, enter_struct E D d s fs rev x = Ok (c, y) -> ctx_ok c).
  { intros fs rev Hb. rewrite Hb in Hl. cbn [body_fields] in Hl. unfold enter_struct. rewrite Hc. cbn [andb].
    assert (Ha : Forall (fun f => lean (f_ty f) = true) (filter (falive (scur s)) fs)).
    { apply Forall_forall. intros f Hf. apply filter_In in Hf. exact (proj1 (Forall_forall _ _) Hl f (proj1 Hf)). }
    split; [apply sme_refl|]. intros x c y H. destruct (sent s rev) as [h|]; [|discriminate]. destruct (h_opt h).
    - destruct (h_idx h).
      + unfold sm_bind in H. destruct (sr_run read_varlen_len x) as [[k x1]|e|q]; cbn [rbind] in H; try discriminate.
        destruct (sm_op (sr_borrow k) x1) as [[p x2]|e|q]; cbn [rbind] in H; try discriminate. unfold sm_ret in H. inversion H; subst. split; [exact I|exact Ha].
      + unfold sm_bind in H. destruct (sr_run read_varlen_len x) as [[k x1]|e|q]; cbn [rbind] in H; try discriminate. unfold sm_ret in H. inversion H; subst. split; [exact I|exact Ha].
    - unfold sm_ret in H. inversion H; subst. split; [exact I|exact Ha]. }
  assert (Hen : forall vs rev, s_body s = SEnum vs -> sm_eq (enter_enum E' D d s vs rev) (enter_enum E D d s vs rev) /\ forall x c y, enter_enum E D d s vs rev x = Ok (c, y) -> ctx_ok c).
  { intros vs rev Hb. rewrite Hb in Hl. cbn [body_fields] in Hl. unfold enter_enum. rewrite Hc. cbn [andb].
    assert (Ha : Forall (fun v => Forall (fun f => lean (f_ty f) = true) (v_fields v)) vs).
    { apply Forall_forall. intros v Hvv. apply Forall_forall. intros f Hf. apply (proj1 (Forall_forall _ _) Hl f). apply in_flat_map. exists v. split; assumption. }
    split; [apply sme_refl|]. intros x c y H. destruct (sent s rev) as [h|] eqn:Eh; [|discriminate]. destruct (h_opt h) eqn:Eo.
    - destruct (calc_disc rev vs) as [ds|]; [|discriminate]. unfold sm_bind at 1 in H. destruct (sr_run read_tag x) as [[tag x1]|e|q]; cbn [rbind] in H; try discriminate.
      unfold sm_bind at 1 in H. destruct (sm_res (size_class tag) x1) as [[cl x2]|e|q]; cbn [rbind] in H; try discriminate.
      destruct (class_at ds (variant_id tag)) as [c'|]; [|discriminate]. destruct (sclass_eqb cl c'); [|discriminate]. unfold sm_bind at 1 in H.
      destruct ((match cl with CInline => sm_ret [] | CFixed => _ | CVarlen => _ end) x2) as [[p x3]|e|q]; cbn [rbind] in H; try discriminate.
      unfold sm_ret in H. inversion H; subst. split; [exact I|exact Ha].
    - unfold sm_bind in H. destruct (sr_run (de_u32 (e_fw E)) x) as [[k x1]|e|q]; cbn [rbind] in H; try discriminate. unfold sm_ret in H. inversion H; subst.
      split; [|exact Ha]. destruct views; [|reflexivity]. exfalso. rewrite (Hv eq_refl n s vs rev h Hs Hb Eh) in Eo. discriminate. }
  split.
  - unfold enter_derived. apply sme_bind; [apply sme_refl|]. intros rev. destruct ((rev =? 0) || (scur s <? rev)); [apply sme_refl|].
    destruct (s_body s) as [fs|vs] eqn:Hb; [apply (Hst fs rev eq_refl)|apply (Hen vs rev eq_refl)].
  - intros x c y H. unfold enter_derived, sm_bind in H. destruct (sr_run (de_u16 (e_fw E)) x) as [[rev x1]|e|q]; cbn [rbind] in H; try discriminate.
    destruct ((rev =? 0) || (scur s <? rev)); [discriminate|].
    destruct (s_body s) as [fs|vs] eqn:Hb; [exact (proj2 (Hst fs rev eq_refl) x1 c y H)|exact (proj2 (Hen vs rev eq_refl) x1 c y H)].
Qed.
Lemma enter_mem : forall t d, lean t = true -> sm_eq (enter E' D d t) (enter E D d t) /\ forall x d' c y, enter E D d t x = Ok ((d', c), y) -> ctx_ok c.
Proof.
  assert (HP : forall d t, lean t = true -> forall x d' c y, @sm_ret (nat * ctx) (d, CPos t) x = Ok ((d', c), y) -> ctx_ok c).
  { intros d t L x d' c y H. unfold sm_ret in H. inversion H; subst. exact L. }
  assert (HQ : forall d t, lean t = true -> forall x d' c y, sm_bind (sr_run (de_len E)) (fun n => @sm_ret (nat * ctx) (d, CSeq t n)) x = Ok ((d', c), y) -> ctx_ok c).
  { intros d t L x d' c y H. unfold sm_bind in H. destruct (sr_run (de_len E) x) as [[n x1]|e|q]; cbn [rbind] in H; try discriminate. unfold sm_ret in H. inversion H; subst. exact L. }
  induction t; intros d L; cbn [enter]; try (split; [sref|apply HP, L]); cbn [lean] in L;
    try (match goal with |- sm_eq (sm_bind _ (fun n => sm_ret (_, CSeq _ n))) _ /\ _ => split; [apply sme_refl|apply HQ, L] end).
  - change (vec_uses_bulk E' t) with (vec_uses_bulk E t). destruct (vec_uses_bulk E t); [split; [apply sme_refl|discriminate]|]. split; [apply sme_refl|apply HQ, L].
  - split; [apply sme_refl|]. intros x d' c y H. unfold sm_bind in H. destruct (sr_run read_byte x) as [[tag x1]|e|q]; cbn [rbind] in H; try discriminate.
    destruct ((tag =? 0) || (tag =? 1)); [|discriminate]. unfold sm_ret in H. inversion H; subst. exact L.
  - split; [apply sme_refl|]. intros x d' c y H. unfold sm_bind in H. destruct (sr_run (de_u32 (e_fw E)) x) as [[tag x1]|e|q]; cbn [rbind] in H; try discriminate.
    destruct ((tag =? 0) || (tag =? 1)); [|discriminate]. unfold sm_ret in H. inversion H; subst. apply andb_prop in L. exact L.
  - split; [apply sme_refl|]. intros x d' c y H. unfold sm_bind in H. destruct (sr_run (de_len E) x) as [[n x1]|e|q]; cbn [rbind] in H; try discriminate.
    unfold sm_ret in H. inversion H; subst. apply andb_prop in L. exact L.
  - apply IHt, L.
  - apply andb_prop in L. destruct L as [Lm Lt]. apply negb_true_iff in Lm. subst.
    assert (HX : forall c, lean (TExt c false t) = true) by (intros; cbn [lean negb andb]; exact Lt).
    destruct t; (split; [sref|]); first [exact (HP d _ (HX _)) | exact (HP d TF32 eq_refl) | exact (HP d TF64 eq_refl)].
  - destruct d as [|d]; [split; [apply sme_refl|discriminate]|]. change (e_sch E' n) with (e_sch E n). destruct (e_sch E n) as [s|] eqn:Hs; [|split; [apply sme_refl|discriminate]].
    destruct (enter_derived_mem n d s Hs) as [H1 H2]. split; [apply sme_map, H1|]. intros x d' c y H. unfold sm_map, sm_bind in H.
    destruct (enter_derived E D d s x) as [[c1 x1]|e|q] eqn:He; cbn [rbind] in H; try discriminate. unfold sm_ret in H. inversion H; subst. exact (H2 _ _ _ He).
Qed.
Lemma field_skip_mem : forall d r f, srepr_ok r -> lean (f_ty f) = true -> sm_eq (field_skip E' D d r f) (field_skip E D d r f)
  /\ forall x o r' y, field_skip E D d r f x = Ok ((o, r'), y) -> r' = r.
Proof.
  intros d r f Hr Hf. destruct r as [rev|b fc|b c]; [| |destruct Hr]; cbn [field_skip].
  - destruct (f_start f <=? rev).
    + split; [apply sme_map, mem_wire_skip, Hf|]. intros x o r' y H. unfold sm_map, sm_bind in H. destruct (wire_skip E d f x) as [[u x1]|e|q]; cbn [rbind] in H; try discriminate. unfold sm_ret in H. inversion H; reflexivity.
    + split; [apply sme_refl|]. intros x o r' y H. unfold sm_ret in H. inversion H; reflexivity.
  - split; [apply sme_refl|]. intros x o r' y H. unfold sm_ret in H. inversion H; reflexivity.
Qed.
Lemma skip_fields_mem : forall d r fs, srepr_ok r -> Forall (fun f => lean (f_ty f) = true) fs -> sm_eq (skip_fields E' D d r fs) (skip_fields E D d r fs).
Proof.
  intros d r fs Hr. induction fs as [|f fs IH]; intros Hf; cbn [skip_fields]; [apply sme_refl|]. inversion Hf as [|f' fs' H1 H2]; subst.
  destruct (field_skip_mem d r f Hr H1) as [G1 G2]. intros s. unfold sm_bind. rewrite G1. destruct (field_skip E D d r f s) as [[[o r'] s1]|e|q] eqn:Hs; cbn [rbind snd]; [|reflexivity|reflexivity].
  rewrite (G2 _ _ _ _ Hs). apply IH, H2.
Qed.
Lemma field_view_mem : forall d r i f, srepr_ok r -> lean (f_ty f) = true -> sm_eq (field_view E' D d r i f) (field_view E D d r i f)
  /\ forall x o r' y, field_view E D d r i f x = Ok ((o, r'), y) -> r' = r.
Proof.
  intros d r i f Hr Hf. destruct r as [rev|b fc|b c]; [| |destruct Hr]; cbn [field_view].
  - split; [apply sme_map, mem_consumed, mem_skip_idx, Hf|]. intros x o r' y H. unfold sm_map, sm_bind in H. destruct (sm_consumed _ x) as [[u x1]|e|q]; cbn [rbind] in H; try discriminate. unfold sm_ret in H. inversion H; reflexivity.
  - split; [apply sme_refl|]. intros x o r' y H. unfold sm_map, sm_bind in H. destruct (sm_res _ x) as [[u x1]|e|q]; cbn [rbind] in H; try discriminate. unfold sm_ret in H. inversion H; reflexivity.
Qed.
Lemma cur_lean : forall s vs k fs, Forall (fun v => Forall (fun f => lean (f_ty f) = true) (v_fields v)) vs -> cur_variant s vs k = Some fs -> Forall (fun f => lean (f_ty f) = true) fs.
Proof.
  intros s vs k fs Hl H. unfold cur_variant in H. destruct (find _ vs) as [v|] eqn:Hf; [|discriminate]. inversion H; subst. apply find_some in Hf.
  apply Forall_forall. intros f Hi. apply filter_In in Hi. exact (proj1 (Forall_forall _ _) (proj1 (Forall_forall _ _) Hl v (proj1 Hf)) f (proj1 Hi)).
Qed.
Lemma act_mem : forall a d c, quiet views a = true -> ctx_ok c -> sm_eq (act_on E' D d c a) (act_on E D d c a).
Proof.
  assert (HW : forall w, (forall d c, quiet views w = true -> ctx_ok c -> sm_eq (act_on E' D d c w) (act_on E D d c w)) ->
     forall d t, quiet views w = true -> lean t = true -> sm_eq (sm_bind (enter E' D d t) (fun p => act_on E' D (fst p) (snd p) w)) (sm_bind (enter E D d t) (fun p => act_on E D (fst p) (snd p) w))).
  { intros w IH d t Hq L s. destruct (enter_mem t d L) as [H1 H2]. unfold sm_bind. rewrite H1. destruct (enter E D d t s) as [[[d' c'] s1]|e|q] eqn:He; cbn [rbind]; [|reflexivity|reflexivity].
    cbn [fst snd]. apply IH; [exact Hq|]. exact (H2 _ _ _ _ He). }
  induction a; intros d c Hq Hc; cbn [quiet] in Hq; try discriminate Hq; destruct c as [t|t tag|t t' tag|t n|t t' n|r i fs|r s vs]; cbn [ctx_ok] in Hc; cbn [act_on]; try sref; try (match goal with fs : list field |- _ => destruct fs; sref end); try (match goal with |- sm_eq (if length_prefixed ?t then _ else _) _ => destruct (length_prefixed t); [apply sme_map; apply sme_refl|sref] end).
  - (* Skip *) apply sme_map, mem_skip, Hc.
  - destruct (tag =? 1); [|sref]. apply sme_map, mem_skip, Hc.
  - destruct Hc as [L1 L2]. apply sme_map, mem_skip. destruct (tag =? 0); assumption.
  - (* Walk *) apply HW; assumption.
  - (* Case *) apply andb_prop in Hq. destruct Hq as [Q1 Q2]. destruct (tag =? 0); [apply IHa1|apply IHa2]; assumption.
  - apply andb_prop in Hq. destruct Hq as [Q1 Q2]. destruct (tag =? 0); [apply IHa1|apply IHa2]; assumption.
  - (* Into *) destruct k as [|[p|p|]]; try sref. destruct (tag =? 0); [sref|]. apply HW; assumption.
  - destruct Hc as [L1 L2]. destruct k as [|[p|p|]]; try sref; (destruct (tag =? 0); [|]); try sref; apply HW; assumption.
  - (* Item *) apply andb_prop in Hq. destruct Hq as [Q1 Q2]. destruct (n =? 0); [sref|]. apply sme_bind; [apply IHa1; assumption|]. intros o. apply sme_map. apply IHa2; assumption.
  - (* Entry *) apply andb_prop in Hq. destruct Hq as [Q Q3]. apply andb_prop in Q. destruct Q as [Q1 Q2]. destruct (n =? 0); [sref|].
    assert (HX : sm_eq (sm_bind (act_on E' D d (CPos t) a1) (fun o => sm_bind (act_on E' D d (CPos t') a2) (fun o' => sm_map (OCons (OCons o o')) (act_on E' D d (CMap t t' (n - 1)) a3))))
                       (sm_bind (act_on E D d (CPos t) a1) (fun o => sm_bind (act_on E D d (CPos t') a2) (fun o' => sm_map (OCons (OCons o o')) (act_on E D d (CMap t t' (n - 1)) a3))))).
    { destruct Hc as [L1 L2]. apply sme_bind; [apply IHa1; assumption|]. intros o. apply sme_bind; [apply IHa2; assumption|]. intros o'. apply sme_map. apply IHa3; [assumption|split; assumption]. }
    destruct a1; try exact HX. apply sme_refl.
  - (* Rest *) apply sme_map, sme_rep, mem_skip, Hc.
  - destruct Hc as [L1 L2]. apply sme_map, sme_rep. apply sme_bind; [apply mem_skip, L1|]. intros _. apply mem_skip, L2.
  - destruct Hc as [Hr Hf]. destruct fs as [|f fs]; apply sme_map, skip_fields_mem; assumption.
  - (* Field *) destruct fs as [|f fs]; [sref|]. destruct Hc as [Hr Hf]. inversion Hf as [|f' fs' F1 F2]; subst. apply andb_prop in Hq. destruct Hq as [Q1 Q2].
    assert (HN : forall r', r' = r -> sm_eq (act_on E' D d (CStruct r' (i + 1) fs) a2) (act_on E D d (CStruct r' (i + 1) fs) a2)).
    { intros r' ->. apply IHa2; [exact Q2|]. split; assumption. }
    destruct a1; try sref; try discriminate Q1.
    + destruct (field_skip_mem d r f Hr F1) as [G1 G2]. intros s. unfold sm_bind. rewrite G1. destruct (field_skip E D d r f s) as [[[o r'] s1]|e|q] eqn:He; cbn [rbind fst snd]; [|reflexivity|reflexivity].
      apply sme_map, HN. exact (G2 _ _ _ _ He).
    + destruct (is_idx f); [sref|]. destruct r as [rev|b fc|b c0]; try sref. destruct (f_start f <=? rev); [|sref].
      cbn [quiet] in Q1.
      intros s. pose proof (IHa1 d (CPos (f_ty f)) Q1 F1 s) as HI. cbn [act_on] in HI. unfold sm_bind in HI |- *. destruct (enter_mem (f_ty f) d F1) as [H1 H2]. rewrite H1 in HI |- *.
      destruct (enter E D d (f_ty f) s) as [[[d' c'] s1]|e|q] eqn:He; cbn [rbind fst snd] in HI |- *; [|reflexivity|reflexivity]. rewrite HI.
      destruct (act_on E D d' c' a1 s1) as [[o s2]|e|q]; cbn [rbind]; [|reflexivity|reflexivity]. apply sme_map, HN. reflexivity.
    + destruct (is_idx f); [|sref]. destruct (field_view_mem d r i f Hr F1) as [G1 G2]. intros s. unfold sm_bind. rewrite G1. destruct (field_view E D d r i f s) as [[[o r'] s1]|e|q] eqn:He; cbn [rbind fst snd]; [|reflexivity|reflexivity].
      apply sme_map, HN. exact (G2 _ _ _ _ He).
  - (* Is *) apply andb_prop in Hq. destruct Hq as [Q1 Q2]. destruct (cur_variant s vs k) as [fs|]; [|sref]. destruct (is_variant r s vs k); [apply IHa1|apply IHa2]; assumption.
  - (* IntoVar *) destruct Hc as [Hr Hl]. destruct (cur_variant s vs k) as [fs|] eqn:Hk; [|sref]. pose proof (cur_lean s vs k fs Hl Hk) as Hfs. destruct fs as [|f [|g fs]]; try sref.
    destruct (is_variant r s vs k); [|sref]. destruct r as [rev disc|b disc|b cur disc]; try sref. inversion Hfs; subst. apply HW; assumption.
  - (* ViewVar *) destruct Hc as [Hr Hl]. rewrite Hq in Hr. unfold variant_view. destruct (cur_variant s vs k) as [fs|]; [|sref]. destruct r as [rev disc|b disc|b cur disc]; [discriminate Hr| |destruct Hr].
    apply sme_refl.
Qed.
End NoMem.

(** ** The property *)

(** Under any limit on single allocations, even 0, a walk that decodes nothing observes and consumes what it does
    without limit: entering, stepping through sequences, maps, fields and variants, [with_bytes], skipping and
    the views of indexed fields and of optimised variants. *)
Theorem C78_walk_without_memory : forall views E m D d t a s, walks_lean views E -> lean t = true -> quiet views a = true ->
  walk_with (set_mem m E) D d t a s = walk_with E D d t a s.
Proof.
  intros views E m D d t a s HE L Hq. apply (act_mem views E m D HE (Walk a) d (CPos t)); [exact Hq|exact L].
Qed.
(** [find_bytes] with a script on the value that decodes nothing. *)
Theorem C78_find_bytes_without_memory : forall views E m D d a b p w s, walks_lean views E -> lean a = true -> lean b = true -> quiet views w = true ->
  map_find_bytes (set_mem m E) D d a b p w s = map_find_bytes E D d a b p w s.
Proof.
  intros views E m D d a b p w s HE La Lb Hq. revert s. change (sm_eq (map_find_bytes (set_mem m E) D d a b p w) (map_find_bytes E D d a b p w)). unfold map_find_bytes.
  apply sme_bind; [apply sme_refl|]. intros n. apply sme_bind.
  - induction (N.to_nat n) as [|k IH]; cbn [find_bytes_loop]; [apply sme_refl|]. apply sme_bind; [apply sme_refl|]. intros l. apply sme_bind; [apply sme_refl|]. intros x. apply sme_bind; [apply sme_refl|]. intros _.
    destruct (p x); [apply sme_refl| |]; (apply sme_bind; [apply (mem_skip views E m HE d b Lb)|]); intros _; [exact IH|].
    apply sme_bind; [|intros _; apply sme_refl]. apply sme_rep. apply sme_bind; [apply (mem_skip views E m HE d a La)|]. intros _. apply (mem_skip views E m HE d b Lb).
  - intros hit. destruct hit; [|apply sme_refl]. apply sme_map. apply (act_mem views E m D HE w d (CPos b)); [exact Hq|exact Lb].
Qed.
(** [into_<field>_bytes] of a field after skipping those before it. *)
Theorem C78_field_bytes_without_memory : forall views E m D d t k s, walks_lean views E -> lean t = true ->
  walk_into_bytes (set_mem m E) D d t (repeat false k) s = walk_into_bytes E D d t (repeat false k) s.
Proof.
  intros views E m D d t k s HE L. unfold walk_into_bytes, sm_bind. destruct (enter_mem views E m D HE t d L) as [H1 H2]. rewrite H1.
  destruct (enter E D d t s) as [[[d' c] s1]|e|q] eqn:He; cbn [rbind fst snd]; [|reflexivity|reflexivity]. specialize (H2 _ _ _ _ He). destruct c as [| | | | |r i fs|]; [reflexivity|reflexivity|reflexivity|reflexivity|reflexivity| |reflexivity].
  destruct H2 as [Hr Hf]. clear He. revert r i fs s1 Hr Hf. induction k as [|k IH]; intros r i fs s1 Hr Hf; cbn [repeat]; (destruct fs as [|f fs]; [reflexivity|]); cbn [into_bytes_after]; inversion Hf as [|f' fs' F1 F2]; subst.
  - destruct r as [rev|b fc|b c]; [|reflexivity|destruct Hr]. unfold field_bytes. destruct (f_start f <=? rev); [|apply sme_refl]. exact (sme_map _ _ OBytes _ _ (mem_consumed _ _ (mem_wire_skip views E m HE d' f F1)) s1).
  - destruct (field_skip_mem views E m D HE d' r f Hr F1) as [G1 G2]. unfold sm_bind. rewrite G1. destruct (field_skip E D d' r f s1) as [[[o r'] s2]|e|q] eqn:Hs; cbn [rbind snd]; [|reflexivity|reflexivity].
    rewrite (G2 _ _ _ _ Hs). apply IH; assumption.
Qed.

(** ** Cases *)

(** Type 1: a struct with a string, an indexed map (since revision 2) and an optional enum; revision 2 is
    optimised.  Type 2: an enum with two variants. *)
Definition note : schema := mkSchema [mkHent false false; mkHent true true]
  (SStruct [fld TStr 1 None; with_default (VSeq []) (idxd IMap (fld (TMap KHash TStr (TInt U64)) 2 None)); fld (TOption (TRef 2)) 1 None]).
Definition mark (opt : bool) : schema := mkSchema [mkHent opt false]
  (SEnum [var 0 1 None (Some (SFixed 8)) [fld TF64 1 None]; var 1 1 None (Some SVarlen) [fld TStr 1 None]]).
Definition notes (opt : bool) : env := ex_env (fun n => if n =? 1 then Some note else if n =? 2 then Some (mark opt) else None).
Definition a_note : val := VSeq [VBytes [97; 98; 99]; VSeq [VPair (VBytes [107]) (VInt 5)]; VVar 1 [VVar 1 [VBytes [104; 105]]]].
Lemma notes_lean : forall opt, walks_lean opt (notes opt).
Proof.
  intros opt. split.
  - intros n s H. cbn [notes ex_env e_sch] in H. destruct (n =? 1); [|destruct (n =? 2)]; inversion H; subst; [reflexivity|destruct opt; reflexivity].
  - intros n s f H Hf. cbn [notes ex_env e_sch] in H. destruct (n =? 1); [|destruct (n =? 2)]; inversion H; subst; cbn in Hf; repeat (destruct Hf as [<-|Hf]; [reflexivity|]); destruct Hf.
  - intros -> n s vs r h H Hb Hh. cbn [notes ex_env e_sch] in H. destruct (n =? 1); [|destruct (n =? 2)]; inversion H; subst; [discriminate Hb|].
    unfold sent in Hh. cbn [s_hist mark] in Hh. destruct (r =? 0); [discriminate|]. destruct (N.to_nat (r - 1)) as [|[|k]]; cbn in Hh; inversion Hh; subst; reflexivity.
Qed.
(** With no memory at all: the bytes of the map in the struct; those of the third field, and those of the variant in the
    enum. *)
Example C78_case : exists b e, to_vec (notes true) 3 (TRef 1) a_note = Ok b /\ wtb (notes true) 3 (TRef 1) a_note = true
  /\ walk_with (set_mem (Some 0) (notes true)) 3 3 (TRef 1) (Field Skip (Field View Rest)) (sr_new b) = Ok (OCons ODone (OCons (OBytes [0; 1; 1; 107; 5]) ODone), mkSR [] (len b))
  /\ walk_into_bytes (set_mem (Some 0) (notes true)) 3 3 (TRef 1) (repeat false 2) (sr_new b) = Ok (OBytes (1 :: e), mkSR [] (len b))
  /\ walk_with (set_mem (Some 0) (notes true)) 3 3 (TRef 2) (ViewVar 1) (sr_new e) = Ok (OBytes [2; 104; 105], mkSR [] (len e))
  /\ quiet true (Field Skip (Field View Rest)) = true
  /\ map_find_bytes (set_mem (Some 0) (notes true)) 3 3 TStr TStr (fun k => bcmp k [104]) Bytes (sr_new [2; 1; 97; 1; 98; 1; 104; 2; 104; 105]) = Ok (Some (OBytes [104; 105]), mkSR [] 10).
Proof.
  do 2 eexists. split; [vm_compute; reflexivity|]. split; [vm_compute; reflexivity|]. split; [vm_compute; reflexivity|]. split; [vm_compute; reflexivity|].
  split; [vm_compute; reflexivity|]. split; vm_compute; reflexivity.
Qed.

(** Two walks that decode behind the caller's back.  The view of a variant written by a revision that is not optimised,
    though the bytes are there to be borrowed: *)
Theorem C78_legacy_view_refuted : exists b, to_vec (notes false) 3 (TRef 2) (VVar 1 [VBytes [104; 105]]) = Ok b
  /\ walk_with (notes false) 3 3 (TRef 2) (ViewVar 1) (sr_new b) = Ok (OBytes [2; 104; 105], mkSR [] (len b))
  /\ walk_with (set_mem (Some 0) (notes false)) 3 3 (TRef 2) (ViewVar 1) (sr_new b) = Panic PMem.
Proof. eexists. split; [vm_compute; reflexivity|]. split; vm_compute; reflexivity. Qed.
(** ... and opening an older revision of a type with a convert function, even if everything in it is skipped then. *)
Definition renamed : schema := mkSchema [mkHent false false; mkHent false false]
  (SStruct [with_convert (fun this _ v => Ok [v]) (fld TStr 1 (Some 2)); with_default (VBytes []) (fld TStr 2 None)]).
Theorem C78_convert_refuted :
  let E := ex_env (fun n => if n =? 1 then Some renamed else None) in
  walk_with E 3 3 (TRef 1) Rest (sr_new [1; 3; 97; 98; 99]) = Ok (ODone, mkSR [] 5)
  /\ walk_with (set_mem (Some 0) E) 3 3 (TRef 1) Rest (sr_new [1; 3; 97; 98; 99]) = Panic PMem
  /\ run (skip (set_mem (Some 0) E) 3 (TRef 1)) [1; 3; 97; 98; 99] = Ok (tt, []).
Proof. repeat split; vm_compute; reflexivity. Qed.

Print Assumptions C78_walk_without_memory.
Print Assumptions C78_find_bytes_without_memory.
Print Assumptions C78_field_bytes_without_memory.
Print Assumptions C78_legacy_view_refuted.
Print Assumptions C78_convert_refuted.
