(** C19, C37, C38, C39, C40, C41: walkers. *)

From Verif Require Import Base BaseL Prog ProgL Prim PrimL Utf8 Tag Ty Ser De Typed Mig SortL DiscL RtL RtTy RtDer RtSch RtId Agree SerL PartsL Spec Cross Evol Ex Parts Users Yield PropMig PropTotal PropVal SliceReader Skip SkipIdx SkipL PropWire PropIdx PropSkip IdxWalk IdxWalkL IdxEncL PropEnc Walk WalkSpec PropSlice WalkL WalkEncL WalkConvL WalkSess.
From Coq Require Import List NArith ZArith Bool Lia Permutation Sorted.
Import ListNotations.
Open Scope N_scope.

Notation is_idx := Walk.is_idx.

(** Where the bytes come from, which derived types may be walked, and what their walkers show.
    - [from_data]: any bytes that decode; types with nothing removed.
    - [from_old_data]: any bytes that decode; also types whose older data is converted, given that the user's
      functions return what their types say, and stack for the copy.
    - [from_encoded]: bytes this program wrote; also optimised types. *)
Inductive walked_from (E : env) (D d : nat) (t : ty) (v : val) : (schema -> Prop) -> (ty -> val -> view -> Prop) -> bytes -> bytes -> Prop :=
| from_data : forall bs rest, wf_env E -> spec_built E -> wfb bs -> len bs < 2 ^ e_ub E ->
    run (deserialize E d t) bs = Ok (v, rest) -> walked_from E D d t v simple_schema (opened E D) bs rest
| from_old_data : forall U bs rest, wf_env E -> spec_built E -> sizes_honest E -> e_mem E = None ->
    users_typed E (fun _ _ => True) U -> ext_typed E (fun _ _ => True) -> opt_stable E -> (d + U <= S D)%nat ->
    wfb bs -> 16 * (len bs + 1) <= 2 ^ e_ub E ->
    run (deserialize E d t) bs = Ok (v, rest) -> walked_from E D d t v walkable (opened E D) bs rest
| from_encoded : forall b rest, wf_env E -> spec_built E -> sizes_honest E -> e_mem E = None ->
    wfb rest -> len (b ++ rest) < 2 ^ e_ub E -> wt E d t v -> to_vec E d t v = Ok b ->
    walked_from E D d t v plain_now (opened_enc E) (b ++ rest) rest.

(** The three as instances of the general lemmas. *)
Definition general (E : env) (D : nat) (may : schema -> Prop) (op : ty -> val -> view -> Prop) (P : nat -> ty -> val -> bytes -> bytes -> Prop) (M : N) : Prop :=
  M <= 2 ^ e_ub E /\ spec_built E
  /\ (forall d t v bs rest, P d t v bs rest -> wfb bs -> len bs < M -> run (deserialize E d t) bs = Ok (v, rest))
  /\ (forall t d bs v rest o, P d t v bs rest -> wfb bs -> len bs < M -> opens E may t ->
      if refused E t then enter E D d t (mkSR bs o) = Err (EDeserialize MBulkVec) else open_at E D op P M d t v bs rest o)
  /\ (forall k a b v p, op (TMap k a b) v p -> exists l, p = PMap a b l).
Lemma opened_map_is : forall E D k a b v p, opened E D (TMap k a b) v p -> exists l, p = PMap a b l.
Proof. intros E D k a b v p (l & _ & ->). eauto. Qed.
Lemma opened_enc_map_is : forall E k a b v p, opened_enc E (TMap k a b) v p -> exists l, p = PMap a b l.
Proof. intros E k a b v p H. destruct k; destruct H as (l & _ & ->); eauto. Qed.
Lemma from_general : forall E D d t v may op bs rest, walked_from E D d t v may op bs rest ->
  exists P M, general E D may op P M /\ P d t v bs rest /\ wfb bs /\ len bs < M.
Proof.
  intros E D d t v may op bs rest H. destruct H as [bs rest W SB Hb Hl H|U bs rest W SB Hh Hm HU HX HO Hd Hb Hl H|b rest W SB Hh Hm Hb Hl Hw Hs].
  - exists (decoded E (fun _ => True)), (2 ^ e_ub E). split; [|split; [split; [exact I|exact H]|auto]]. split; [apply N.le_refl|]. split; [exact SB|].
    split; [intros d0 t0 v0 bs0 r0 [_ H0] _ _; exact H0|]. split; [|apply opened_map_is].
    apply (enter_ok E D W SB (2 ^ e_ub E) (fun _ => True) (fun _ H => H) simple_schema); [intros s [Hx _]; exact Hx|].
    intros n s d' rev r bs' v' rest' o' _ [_ Hc] _ _ Hx. unfold copied in Hx. rewrite Hc in Hx. discriminate.
  - exists (decoded E (dok D U)), (len bs + 1). split; [|split; [split; [exact Hd|exact H]|split; [exact Hb|lia]]]. split; [lia|]. split; [exact SB|].
    split; [intros d0 t0 v0 bs0 r0 [_ H0] _ _; exact H0|]. split; [|apply opened_map_is].
    apply (enter_ok E D W SB (len bs + 1) (dok D U) (fun d H => Nat.le_trans _ _ _ (Nat.le_succ_diag_r _) H) walkable (fun s H => H)).
    apply (copy_ok E D W Hh Hm SB U HU HX HO (len bs + 1) Hl).
  - exists (encoded E), (2 ^ e_ub E). split; [|split; [exists b; auto|split; [|exact Hl]]].
    + split; [apply N.le_refl|]. split; [exact SB|]. split; [exact (enc_dec E W Hh Hm)|]. split; [|apply opened_enc_map_is].
      intros t0 d0 bs0 v0 rest0 o0 H0 _ _. exact (enter_enc E D W Hh Hm SB t0 d0 bs0 v0 rest0 o0 H0).
    + apply wfb_app. split; [exact (to_vec_wfb E W d t v b Hw Hs)|exact Hb].
Qed.

(** ** C39, C37, C38.  Every script of calls on a walker, and on the walkers it gives, shows what the decoded
    value contains, and leaves the reader at the end of the value. *)
Theorem C39_scripts_agree : forall E D d t v may op bs rest a o,
  walked_from E D d t v may op bs rest -> opens E may t -> covered E may (kind_of E t) a ->
  exists r, shows E D op t v a r /\ walk_with E D d t a (mkSR bs o) = fin r rest o.
Proof.
  intros E D d t v may op bs rest a o H Ho Hc. destruct (from_general _ _ _ _ _ _ _ _ _ H) as (P & M & (HM & SB & HP & HE & _) & Hv & Hb & Hl).
  apply (walked_ok E D op may P M HM HP HE a d t bs v rest o (agree_all E D op may P M HM SB HP HE a) Hv Hb Hl Ho Hc).
Qed.

(** The containers, in plain words: the items in order. *)
Theorem C39_visit_seq : forall E D d t t' v may op bs rest cs o, t = TVec t' /\ refused E t = false \/ t = TImVec t' \/ (exists k, t = TSet k t') \/ t = THeap t' ->
  walked_from E D d t v may op bs rest ->
  exists l, op t v (PSeq t' l) /\ walk_with E D d t (visit_items cs) (mkSR bs o) = Ok (visited cs l, mkSR rest o).
Proof.
  intros E D d t t' v may op bs rest cs o Ht H.
  assert (Hk : kind_of E t = HSeq t' /\ refused E t = false /\ opens E may t) by (destruct Ht as [[-> Hr]|[->|[[k ->]| ->]]]; repeat split; try reflexivity; exact Hr).
  destruct Hk as (Hk & Hrf & Ho). destruct (C39_scripts_agree E D d t v may op bs rest (visit_items cs) o H Ho) as (r & Hs & Hw); [rewrite Hk; apply visit_items_covered|].
  unfold shows in Hs. rewrite Hrf in Hs. destruct Hs as (c & Hop & Hx).
  assert (Hc : exists l, c = PSeq t' l).
  { inversion H; subst; destruct Ht as [[-> Hr]|[->|[[k ->]| ->]]]; cbn [opened opened_enc] in Hop; try (destruct Hop as (l & _ & ->); eauto); destruct k; destruct Hop as (l & _ & ->); eauto. }
  destruct Hc as (l & ->). exists l. split; [exact Hop|]. rewrite Hw, (visit_items_shows _ _ _ _ _ _ _ Hx). reflexivity.
Qed.
Theorem C39_visit_map : forall E D d k a b v may op bs rest cs o, walked_from E D d (TMap k a b) v may op bs rest ->
  exists l, op (TMap k a b) v (PMap a b l) /\ walk_with E D d (TMap k a b) (visit_entries cs) (mkSR bs o) = Ok (visited_entries cs l, mkSR rest o).
Proof.
  intros E D d k a b v may op bs rest cs o H. destruct (C39_scripts_agree E D d _ v may op bs rest (visit_entries cs) o H I) as (r & (c & Hop & Hx) & Hw); [apply visit_entries_covered|].
  destruct (from_general _ _ _ _ _ _ _ _ _ H) as (P & M & (_ & _ & _ & _ & Hmap) & _). destruct (Hmap _ _ _ _ _ Hop) as (l & ->). exists l. split; [exact Hop|].
  rewrite Hw, (visit_entries_shows _ _ _ _ _ _ _ _ Hx). reflexivity.
Qed.
(** The calls on a map walker and its entries one by one, in any order, right or wrong. *)
Theorem C39_map_sessions : forall E D d k a b v may op bs rest ops o, walked_from E D d (TMap k a b) v may op bs rest -> ops_covered E may b ops ->
  exists l rs m last, op (TMap k a b) v (PMap a b l) /\ map_session E D d a b ops (mkSR bs o) = Ok (rs, m)
    /\ session E D op a b l None ops rs last /\ (last = Some ([], None) -> m = Some (mkMS (mkSR rest o) 0 None)).
Proof.
  intros E D d k a b v may op bs rest ops o H Hc. destruct (from_general _ _ _ _ _ _ _ _ _ H) as (P & M & (HM & SB & HP & HE & Hmap) & Hv & Hb & Hl).
  exact (map_session_ok E D op may P M HM SB HP HE Hmap k d a b v bs rest o ops Hv Hb Hl Hc).
Qed.

(** ** C37.  Field by field, decoding some and skipping the others.  [op (TRef n) v (PFail x)]: older data that
    could not be copied; see below. *)
Definition alive_fields (s : schema) (fs : list field) : list field := filter (falive (scur s)) fs.
Lemma struct_view : forall E D d n s fs v may op bs rest c, walked_from E D d (TRef n) v may op bs rest -> e_sch E n = Some s -> s_body s = SStruct fs -> op (TRef n) v c ->
  (exists x, c = PFail x) \/ exists l det pres, v = VSeq l /\ length (alive_fields s fs) = length l /\ c = PFields det (combine (map (fun f => (f, pres f)) (alive_fields s fs)) l).
Proof.
  intros E D d n s fs v may op bs rest c H Es Eb Hop. unfold alive_fields.
  assert (Hd : opened E D (TRef n) v c -> (exists x, c = PFail x) \/ exists l det pres, v = VSeq l /\ length (filter (falive (scur s)) fs) = length l /\ c = PFields det (combine (map (fun f => (f, pres f)) (filter (falive (scur s)) fs)) l)).
  { intros (s' & rev & Es' & _ & Hc). rewrite Es in Es'. inversion Es'; subst s'. rewrite Eb in Hc. destruct (copied s rev).
    - destruct Hc as [(x & _ & ->)|(l & -> & Hl & ->)]; [left; eauto|]. right. exists l, true, (fun _ => true). auto.
    - destruct Hc as (l & -> & Hl & ->). right. exists l, false, (fun f => f_start f <=? rev). split; [reflexivity|]. split; [exact (Forall2_length Hl)|reflexivity]. }
  destruct H as [bs rest W SB Hb Hl H|U bs rest W SB Hh Hm HU HX HO Hdd Hb Hl H|b rest W SB Hh Hm Hb Hl Hw Hs]; [apply Hd, Hop|apply Hd, Hop|].
  destruct Hop as (s' & h & Es' & Eh & Hc). rewrite Es in Es'. inversion Es'; subst s'. rewrite Eb in Hc. destruct Hc as (l & -> & ->). right. exists l, (h_opt h && h_idx h), (fun _ => true). split; [reflexivity|].
  split; [|reflexivity]. cbn in Hw. destruct d; [contradiction|]. cbn in Hw. rewrite Es in Hw. unfold wt_derived in Hw. rewrite Eb in Hw. exact (Forall2_length Hw).
Qed.
Lemma may_opens : forall E (may : schema -> Prop) n s, e_sch E n = Some s -> may s -> opens E may (TRef n).
Proof. intros E may n s Es Hm s' Es'. rewrite Es in Es'. inversion Es'; subst s'. exact Hm. Qed.
Theorem C37_visit_struct : forall E D d n s fs v may op bs rest cs o, walked_from E D d (TRef n) v may op bs rest ->
  e_sch E n = Some s -> s_body s = SStruct fs -> may s -> way_covered (HFields (indexed_now s) (alive_fields s fs)) cs ->
  (exists l, v = VSeq l /\ length (alive_fields s fs) = length l /\ walk_with E D d (TRef n) (visit_fields cs) (mkSR bs o) = Ok (visited cs l, mkSR rest o))
  \/ exists x, op (TRef n) v (PFail x) /\ walk_with E D d (TRef n) (visit_fields cs) (mkSR bs o) = fin x rest o.
Proof.
  intros E D d n s fs v may op bs rest cs o H Es Eb Hmay Hc.
  destruct (C39_scripts_agree E D d (TRef n) v may op bs rest (visit_fields cs) o H (may_opens _ _ _ _ Es Hmay)) as (r & (c & Hop & Hx) & Hw).
  - cbn [kind_of]. rewrite Es, Eb. apply visit_fields_covered. exact Hc.
  - destruct (struct_view _ _ _ _ _ _ _ _ _ _ _ _ H Es Eb Hop) as [(x & ->)|(l & det & pres & -> & Hl & ->)].
    + right. exists x. split; [exact Hop|]. assert (Hrx : r = x) by (destruct cs; exact Hx). subst r. exact Hw.
    + left. exists l. split; [reflexivity|]. split; [exact Hl|]. rewrite Hw, (visit_fields_shows _ _ _ _ _ _ _ _ _ Hl Hx). reflexivity.
Qed.
(** When the walker cannot be opened: only on data of an older revision of a type with [convert_fn]s whose
    decoded value cannot be encoded.  Never on what this program wrote. *)
Theorem C37_opening_fails : forall E D d n s v may op bs rest x, walked_from E D d (TRef n) v may op bs rest -> e_sch E n = Some s -> may s ->
  op (TRef n) v (PFail x) -> has_convert s = true /\ copy_fails E D n v x.
Proof.
  intros E D d n s v may op bs rest x H Es Hmay Hop.
  assert (Hd : opened E D (TRef n) v (PFail x) -> has_convert s = true /\ copy_fails E D n v x).
  { intros (s' & rev & Es' & _ & Hc). rewrite Es in Es'. inversion Es'; subst s'. destruct (copied s rev) eqn:Ec.
    - apply andb_prop in Ec. split; [apply Ec|]. destruct Hc as [(y & Hy & He)|Hc]; [inversion He; subst; exact Hy|].
      destruct (s_body s); [destruct Hc as (l & _ & _ & He)|destruct Hc as (k & l & _ & He)]; discriminate He.
    - destruct (s_body s); [destruct Hc as (l & _ & _ & He)|destruct Hc as (k & l & _ & He)]; discriminate He. }
  destruct H; [apply Hd, Hop|apply Hd, Hop|]. destruct Hop as (s' & h & _ & _ & Hc).
  destruct (s_body s'); [destruct Hc as (l & _ & He)|destruct Hc as (k & l & _ & He)]; discriminate He.
Qed.
Theorem C37_encoded_opens : forall E t v x, ~ opened_enc E t v (PFail x).
Proof.
  intros E t v x. revert v. induction t; intros v H; cbn [opened_enc] in H;
    try discriminate H;
    try (match goal with k : ckind |- _ => destruct k end);
    try (destruct H as (l & _ & He); discriminate He).
  - destruct H as [[_ He]|(y & _ & He)]; discriminate He.
  - destruct H as (y & [[_ He]|[_ He]]); discriminate He.
  - exact (IHt _ H).
  - destruct mirror; [discriminate|]. destruct t; discriminate H.
  - destruct H as (s & h & _ & _ & Hc). destruct (s_body s); [destruct Hc as (l & _ & He)|destruct Hc as (k & l & _ & He)]; discriminate He.
Qed.
(** The bytes of one field. *)
Theorem C37_field_bytes : forall E D d n s fs v may op bs rest cs o, walked_from E D d (TRef n) v may op bs rest ->
  e_sch E n = Some s -> s_body s = SStruct fs -> may s -> way_covered (HFields (indexed_now s) (alive_fields s fs)) cs ->
  exists c x s', op (TRef n) v c /\ into_shown E D c cs x
    /\ walk_into_bytes E D d (TRef n) cs (mkSR bs o) = match x with Ok y => Ok (y, s') | Err e => Err e | Panic p => Panic p end.
Proof.
  intros E D d n s fs v may op bs rest cs o H Es Eb Hmay Hc. destruct (from_general _ _ _ _ _ _ _ _ _ H) as (P & M & (HM & SB & HP & HE & Hmap) & Hv & Hb & Hl).
  apply (into_ok E D op may P M HM SB HP HE Hmap d (TRef n) v bs rest o cs Hv Hb Hl (may_opens _ _ _ _ Es Hmay)). cbn [kind_of]. rewrite Es, Eb. exact Hc.
Qed.

(** ** C38.  Enums.  [variant_here]: the variants of this program, and their fields. *)
Lemma enum_view : forall E D d n s vs v may op bs rest c, walked_from E D d (TRef n) v may op bs rest -> e_sch E n = Some s -> s_body s = SEnum vs -> op (TRef n) v c ->
  (exists x, c = PFail x) \/ exists k l det, v = VVar k l /\ c = PEnum det s vs k l.
Proof.
  intros E D d n s vs v may op bs rest c H Es Eb Hop.
  assert (Hd : opened E D (TRef n) v c -> (exists x, c = PFail x) \/ exists k l det, v = VVar k l /\ c = PEnum det s vs k l).
  { intros (s' & rev & Es' & _ & Hc). rewrite Es in Es'. inversion Es'; subst s'. rewrite Eb in Hc. destruct (copied s rev).
    - destruct Hc as [(x & _ & ->)|(k & l & -> & ->)]; [left; eauto|]. right. eauto.
    - destruct Hc as (k & l & -> & ->). right. eauto. }
  destruct H as [bs rest W SB Hb Hl H|U bs rest W SB Hh Hm HU HX HO Hdd Hb Hl H|b rest W SB Hh Hm Hb Hl Hw Hs]; [apply Hd, Hop|apply Hd, Hop|].
  destruct Hop as (s' & h & Es' & Eh & Hc). rewrite Es in Es'. inversion Es'; subst s'. rewrite Eb in Hc. destruct Hc as (k & l & -> & ->). right. eauto.
Qed.
(** [is_<variant>] holds of the variant of the decoded value, and of no other. *)
Theorem C38_variant_test : forall E D d n s vs k l may op bs rest k' w0 w1 o, walked_from E D d (TRef n) (VVar k l) may op bs rest ->
  e_sch E n = Some s -> s_body s = SEnum vs -> may s -> variant_here s vs k' <> None ->
  walk_with E D d (TRef n) (Is k' w0 w1) (mkSR bs o) = walk_with E D d (TRef n) (if k =? k' then w0 else w1) (mkSR bs o).
Proof.
  intros E D d n s vs k l may op bs rest k' w0 w1 o H Es Eb Hmay Hk. destruct (from_general _ _ _ _ _ _ _ _ _ H) as (P & M & (HM & SB & HP & HE & Hmap) & Hv & Hb & Hl).
  apply (is_ok E D op may P M HE d n (VVar k l) bs rest o s vs k l k' w0 w1 Hv Hb Hl (may_opens _ _ _ _ Es Hmay) Es Eb eq_refl Hk).
  intros p Hp. destruct (enum_view _ _ _ _ _ _ _ _ _ _ _ _ H Es Eb Hp) as [Hx|(k0 & l0 & det & He & ->)]; [left; exact Hx|]. inversion He; subst. right. eauto.
Qed.
(** [decode_<variant>] gives the field of the variant, and an error for the other variants. *)
Theorem C38_decode_variant : forall E D d n s vs v may op bs rest k' f o, walked_from E D d (TRef n) v may op bs rest ->
  e_sch E n = Some s -> s_body s = SEnum vs -> may s -> variant_here s vs k' = Some [f] ->
  (exists k l, v = VVar k l /\ walk_with E D d (TRef n) (DecodeVar k') (mkSR bs o)
     = match l with [x] => if k =? k' then Ok (OVal x, mkSR rest o) else Err (EDeserialize (MOther 2)) | _ => Err (EDeserialize (MOther 2)) end
     /\ (k = k' -> exists x, l = [x]))
  \/ exists x, op (TRef n) v (PFail x) /\ walk_with E D d (TRef n) (DecodeVar k') (mkSR bs o) = fin x rest o.
Proof.
  intros E D d n s vs v may op bs rest k' f o H Es Eb Hmay Hk.
  destruct (C39_scripts_agree E D d (TRef n) v may op bs rest (DecodeVar k') o H (may_opens _ _ _ _ Es Hmay)) as (r & (c & Hop & Hx) & Hw).
  - cbn [kind_of]. rewrite Es, Eb. exact I.
  - destruct (enum_view _ _ _ _ _ _ _ _ _ _ _ _ H Es Eb Hop) as [(x & ->)|(k & l & det & -> & ->)]; [right; exists x; cbn in Hx; subst r; auto|]. left. exists k, l. split; [reflexivity|].
    cbn [expect] in Hx. rewrite Hk in Hx. rewrite Hw. destruct (N.eqb_spec k k') as [->|Hn].
    + destruct Hx as (x & -> & ->). split; [reflexivity|]. eauto.
    + subst r. split; [destruct l as [|? [|]]; reflexivity|]. intros. contradiction.
Qed.
Theorem C38_unit_variant : forall E D d n s vs v may op bs rest k' o, walked_from E D d (TRef n) v may op bs rest ->
  e_sch E n = Some s -> s_body s = SEnum vs -> may s -> variant_here s vs k' = Some [] ->
  (exists k l, v = VVar k l /\ walk_with E D d (TRef n) (DecodeVar k') (mkSR bs o) = if k =? k' then Ok (ODone, mkSR rest o) else Err (EDeserialize (MOther 2)))
  \/ exists x, op (TRef n) v (PFail x) /\ walk_with E D d (TRef n) (DecodeVar k') (mkSR bs o) = fin x rest o.
Proof.
  intros E D d n s vs v may op bs rest k' o H Es Eb Hmay Hk.
  destruct (C39_scripts_agree E D d (TRef n) v may op bs rest (DecodeVar k') o H (may_opens _ _ _ _ Es Hmay)) as (r & (c & Hop & Hx) & Hw).
  - cbn [kind_of]. rewrite Es, Eb. exact I.
  - destruct (enum_view _ _ _ _ _ _ _ _ _ _ _ _ H Es Eb Hop) as [(x & ->)|(k & l & det & -> & ->)]; [right; exists x; cbn in Hx; subst r; auto|]. left. exists k, l. split; [reflexivity|].
    cbn [expect] in Hx. rewrite Hk in Hx. rewrite Hw. subst r. destruct (k =? k'); reflexivity.
Qed.

(** ** C40.  Vectors in bulk encoding are refused whatever the bytes, without reading any; every other vector is
    the length followed by the encodings of its elements. *)
Theorem C40_bulk_refused : forall E D d t a s, refused E (TVec t) = true -> walk_with E D d (TVec t) a s = Err (EDeserialize MBulkVec).
Proof. intros E D d t a s H. unfold walk_with, sm_bind. cbn [enter]. cbn [refused] in H. rewrite vec_uses_bulk_iff, H. reflexivity. Qed.
Theorem C40_walked_layout : forall E D d t l b s c s', enter E D d (TVec t) s = Ok (c, s') -> to_vec E d (TVec t) (VSeq l) = Ok b ->
  exists es, Forall2 (fun x e => to_vec E d t x = Ok e) l es /\ b = ser_len E (len l) ++ concat es.
Proof.
  intros E D d t l b s c s' He Hs.
  assert (Hn : vec_uses_bulk E t = false) by (cbn [enter] in He; destruct (vec_uses_bulk E t); [discriminate|reflexivity]).
  rewrite vec_uses_bulk_iff in Hn. apply to_vec_ok in Hs. destruct Hs as (ops & Hs & ->). unfold to_writer in Hs. cbn [ser_ty] in Hs.
  replace (if e_spec E then bulk_of t else None) with (@None bk) in Hs by (destruct (e_spec E); [destruct (bulk_of t); [discriminate|reflexivity]|reflexivity]).
  apply sbind_ok in Hs. destruct Hs as (l1 & l2 & H1 & H2 & ->). apply Ok_inj in H1. subst l1. rewrite out_app, out_one.
  assert (Hes : exists es, Forall2 (fun x e => to_vec E d t x = Ok e) l es /\ out l2 = concat es).
  { clear - H2. revert l2 H2. induction l as [|x l IH]; intros l2 H2; cbn [map] in H2; [inversion H2; subst; exists []; split; [constructor|reflexivity]|].
    rewrite sconcat_cons in H2. apply sbind_ok in H2. destruct H2 as (la & lb & Ha & Hb & ->). destruct (IH _ Hb) as (es & Hes & Ho). exists (out la :: es).
    split; [constructor; [unfold to_vec, to_writer; rewrite Ha; reflexivity|exact Hes]|]. rewrite out_app, Ho. reflexivity. }
  destruct Hes as (es & Hes & ->). eauto.
Qed.

(** ** C41.  Search in an encoded ordered map.  [ascending p l]: the comparisons of the keys with what is sought
    go from Less to Greater, with at most one Equal.  A hit leaves the entries after it unread. *)
Definition entries_bytes (E : env) (d : nat) (a b : ty) (l : list val) (x : bytes) : Prop :=
  exists es, Forall2 (fun e y => exists k w, to_vec E d a (pkey e) = Ok k /\ to_vec E d b (pval e) = Ok w /\ y = k ++ w) l es /\ x = concat es.
Lemma entries_are : forall E d a b bs l rest, entries (encoded E) d a b bs l rest -> exists x, bs = x ++ rest /\ entries_bytes E d a b l x.
Proof.
  intros E d a b bs l rest H. induction H as [bs|bs k v r1 r2 l rest (kb & -> & _ & Hk) (vb & -> & _ & Hv) H IH].
  - exists []. split; [reflexivity|]. exists []. split; [constructor|reflexivity].
  - destruct IH as (x & -> & es & Hes & ->). exists ((kb ++ vb) ++ concat es). split; [rewrite <- !app_assoc; reflexivity|]. exists ((kb ++ vb) :: es). split; [|reflexivity].
    constructor; [exists kb, vb; auto|exact Hes].
Qed.
Section Find.
Variable E : env.
Variable D : nat.
Hypothesis W : wf_env E.
Hypothesis Hh : sizes_honest E.
Hypothesis Hm : e_mem E = None.
Hypothesis SB : spec_built E.
Definition encoded_map (d : nat) (a b : ty) (l : list val) (bs rest : bytes) : Prop :=
  wt E d (TMap KOrd a b) (VSeq l) /\ to_vec E d (TMap KOrd a b) (VSeq l) = Ok bs /\ wfb rest /\ len (bs ++ rest) < 2 ^ e_ub E.
Lemma find_setup : forall d a b l bs rest, encoded_map d a b l bs rest ->
  exists body, run (de_len E) (bs ++ rest) = Ok (len l, body) /\ entries (encoded E) d a b body l rest /\ wfb (bs ++ rest).
Proof.
  intros d a b l bs rest (Hw & Hs & Hb & Hl). assert (Hbb : wfb (bs ++ rest)) by (apply wfb_app; split; [exact (to_vec_wfb E W d _ _ bs Hw Hs)|exact Hb]).
  destruct (map_at E D (opened_enc E) plain_now (encoded E) (2 ^ e_ub E) (N.le_refl _) (enc_dec E W Hh Hm) (fun t d bs v rest o H _ _ => enter_enc E D W Hh Hm SB t d bs v rest o H) (opened_enc_map_is E)
             KOrd d a b (VSeq l) (bs ++ rest) rest 0) as (l' & body & Hop & Hn & Hen & _); [exists bs; auto|exact Hbb|exact Hl|].
  destruct Hop as (l0 & He & He'). inversion He; subst l0. inversion He'; subst l'. exists body. split; [|auto]. rewrite sr_run_run in Hn. cbn [sr_inner sr_orig] in Hn.
  destruct (run (de_len E) (bs ++ rest)) as [[n r]| |]; [|discriminate|discriminate]. cbn in Hn. inversion Hn; subst. reflexivity.
Qed.
(** A key that is there: its value, whatever the caller does with it. *)
Theorem C41_find_hit : forall d a b l bs rest p e w o, encoded_map d a b l bs rest -> ascending p l -> In e l -> p (pkey e) = Eq -> covered E plain_now (HPos b) w ->
  exists r later x, l = (firstn (length l - S (length later)) l) ++ e :: later /\ entries_bytes E d a b later x
    /\ expect E D (opened_enc E) (PPos b (pval e)) w r
    /\ map_find E D d a b p w (mkSR (bs ++ rest) o) = rmap (fun q => (Some (fst q), snd q)) (fin r (x ++ rest) o).
Proof.
  intros d a b l bs rest p e w o He Ha Hin Hp Hc. destruct (find_setup d a b l bs rest He) as (body & Hn & Hen & Hb). destruct He as (_ & _ & _ & Hl).
  pose proof (map_find_ok E D (opened_enc E) plain_now (encoded E) (2 ^ e_ub E) (N.le_refl _) SB (enc_dec E W Hh Hm) (fun t d bs v rest o H _ _ => enter_enc E D W Hh Hm SB t d bs v rest o H) (opened_enc_map_is E)
             p d a b (bs ++ rest) body l rest o w Hn Hen Hb Hl Hc) as Hf.
  destruct (hit_some p l e Ha Hin Hp) as (l1 & l2 & Hll & Hfh). rewrite Hfh in Hf. destruct Hf as (r & tail & Hr & Hen2 & Hx). destruct (entries_are _ _ _ _ _ _ _ Hen2) as (x & -> & Hxe).
  exists r, l2, x. split; [|auto]. rewrite Hll at 1 2. rewrite Hll, app_length. cbn [length]. replace (length l1 + S (length l2) - S (length l2))%nat with (length l1) by lia.
  rewrite firstn_app, Nat.sub_diag, firstn_all. cbn [firstn]. rewrite app_nil_r. reflexivity.
Qed.
(** A key that is not there: none, and the reader is past the map. *)
Theorem C41_find_miss : forall d a b l bs rest p w o, encoded_map d a b l bs rest -> (forall e, In e l -> p (pkey e) <> Eq) -> covered E plain_now (HPos b) w ->
  map_find E D d a b p w (mkSR (bs ++ rest) o) = Ok (None, mkSR rest o).
Proof.
  intros d a b l bs rest p w o He Hno Hc. destruct (find_setup d a b l bs rest He) as (body & Hn & Hen & Hb). destruct He as (_ & _ & _ & Hl).
  pose proof (map_find_ok E D (opened_enc E) plain_now (encoded E) (2 ^ e_ub E) (N.le_refl _) SB (enc_dec E W Hh Hm) (fun t d bs v rest o H _ _ => enter_enc E D W Hh Hm SB t d bs v rest o H) (opened_enc_map_is E)
             p d a b (bs ++ rest) body l rest o w Hn Hen Hb Hl Hc) as Hf.
  rewrite (hit_none p l Hno) in Hf. exact Hf.
Qed.
(** The same on the bytes of the keys. *)
Theorem C41_find_bytes_hit : forall d a b l bs rest p e w o, encoded_map d a b l bs rest -> length_prefixed a = true -> ascending (fun k => p (contents k)) l -> In e l -> p (contents (pkey e)) = Eq ->
  covered E plain_now (HPos b) w ->
  exists r later x, l = (firstn (length l - S (length later)) l) ++ e :: later /\ entries_bytes E d a b later x
    /\ expect E D (opened_enc E) (PPos b (pval e)) w r
    /\ map_find_bytes E D d a b p w (mkSR (bs ++ rest) o) = rmap (fun q => (Some (fst q), snd q)) (fin r (x ++ rest) o).
Proof.
  intros d a b l bs rest p e w o He Hlp Ha Hin Hp Hc. destruct (find_setup d a b l bs rest He) as (body & Hn & Hen & Hb). destruct He as (_ & _ & _ & Hl).
  pose proof (map_find_bytes_ok E D (opened_enc E) plain_now (encoded E) (2 ^ e_ub E) (N.le_refl _) SB (enc_dec E W Hh Hm) (fun t d bs v rest o H _ _ => enter_enc E D W Hh Hm SB t d bs v rest o H) (opened_enc_map_is E)
             p d a b (bs ++ rest) body l rest o w Hlp Hn Hen Hb Hl Hc) as Hf.
  destruct (hit_some (fun k => p (contents k)) l e Ha Hin Hp) as (l1 & l2 & Hll & Hfh). rewrite Hfh in Hf. destruct Hf as (r & tail & Hr & Hen2 & Hx). destruct (entries_are _ _ _ _ _ _ _ Hen2) as (x & -> & Hxe).
  exists r, l2, x. split; [|auto]. rewrite Hll at 1 2. rewrite Hll, app_length. cbn [length]. replace (length l1 + S (length l2) - S (length l2))%nat with (length l1) by lia.
  rewrite firstn_app, Nat.sub_diag, firstn_all. cbn [firstn]. rewrite app_nil_r. reflexivity.
Qed.
Theorem C41_find_bytes_miss : forall d a b l bs rest p w o, encoded_map d a b l bs rest -> length_prefixed a = true -> (forall e, In e l -> p (contents (pkey e)) <> Eq) -> covered E plain_now (HPos b) w ->
  map_find_bytes E D d a b p w (mkSR (bs ++ rest) o) = Ok (None, mkSR rest o).
Proof.
  intros d a b l bs rest p w o He Hlp Hno Hc. destruct (find_setup d a b l bs rest He) as (body & Hn & Hen & Hb). destruct He as (_ & _ & _ & Hl).
  pose proof (map_find_bytes_ok E D (opened_enc E) plain_now (encoded E) (2 ^ e_ub E) (N.le_refl _) SB (enc_dec E W Hh Hm) (fun t d bs v rest o H _ _ => enter_enc E D W Hh Hm SB t d bs v rest o H) (opened_enc_map_is E)
             p d a b (bs ++ rest) body l rest o w Hlp Hn Hen Hb Hl Hc) as Hf.
  rewrite (hit_none (fun k => p (contents k)) l Hno) in Hf. exact Hf.
Qed.
(** Comparing with a key in the order of the map: the keys ascend. *)
Theorem C41_map_order_ascends : forall d a b l probe, wt E d (TMap KOrd a b) (VSeq l) -> ascending (fun k => e_cmp E a k probe) l.
Proof. intros d a b l probe (_ & _ & Hs). exact (ascending_sorted (e_cmp E a) probe l (we_cmp E W a) Hs). Qed.
End Find.

(** ** C19: walking *)
Theorem C19_walk_rejects : forall E D d n s r bs rest a o,
  e_sch E n = Some s -> r = 0 \/ scur s < r ->
  run (deserialize E d (TInt U16)) bs = Ok (VInt (Z.of_N r), rest) ->
  walk_with E D (S d) (TRef n) a (mkSR bs o) = Err (EDeserialize MInvalidRevision).
Proof.
  intros E D d n s r bs rest a o Hs Hr H.
  assert (Hu : run (de_u16 (e_fw E)) bs = Ok (r, rest)).
  { unfold deserialize in H. cbn [de_ty] in H. rewrite run_bind in H. unfold de_int in H. rewrite run_bind in H.
    destruct (run (de_u16 (e_fw E)) bs) as [[x y]| |]; cbn in H; try discriminate. inversion H; subst. f_equal. f_equal. lia. }
  unfold walk_with, sm_bind at 1. cbn [enter]. rewrite Hs. unfold sm_map, sm_bind at 1, enter_derived. rewrite (sm_bind_run _ _ _ _ _ _ _ _ Hu).
  replace ((r =? 0) || (scur s <? r)) with true by (symmetry; apply orb_true_iff; destruct Hr as [->|Hr]; [left; reflexivity|right; apply N.ltb_lt; exact Hr]). reflexivity.
Qed.

(** ** Cases.  Three derived types, in their second revision.
    1: { name: String, tags: Vec<String>, boss: Option<Box<_>> (from 2) };
    2: { degrees: i32 (removed in 2, into tenths), place: String, tenths: i64 (from 2) };
    3: Ping | Say(String) | Move(u32, u32) | Log(BTreeMap<String, u64>) (from 2). *)
Definition two : list hent := [mkHent false false; mkHent false false].
Definition acct : schema := mkSchema two
  (SStruct [fld TStr 1 None; fld (TVec TStr) 1 None; with_default (VVar 0 []) (fld (TOption (TWrap (TRef 1))) 2 None)]).
Definition to_tenths (this : list val) (r : N) (v : val) : res (list val) :=
  match this, v with [p; _], VInt z => Ok [p; VInt (z * 10)] | _, _ => Err (EConversion (MUser 0)) end.
Definition temp : schema := mkSchema two
  (SStruct [with_convert to_tenths (fld (TInt I32) 1 (Some 2)); fld TStr 1 None; with_default (VInt 0) (fld (TInt I64) 2 None)]).
Definition evt : schema := mkSchema two
  (SEnum [var 0 1 None None []; var 1 1 None None [fld TStr 1 None]; var 2 1 None None [fld (TInt U32) 1 None; fld (TInt U32) 1 None];
          var 3 2 None None [fld (TMap KOrd TStr (TInt U64)) 1 None]]).
Definition wsch (n : N) : option schema := if n =? 1 then Some acct else if n =? 2 then Some temp else if n =? 3 then Some evt else None.
Definition wex := ex_env wsch.
Lemma wsch_is : forall (P : N -> schema -> Prop), P 1 acct -> P 2 temp -> P 3 evt -> forall n s, wsch n = Some s -> P n s.
Proof.
  intros P H1 H2 H3 n s H. unfold wsch in H. destruct (N.eqb_spec n 1) as [->|_]; [|destruct (N.eqb_spec n 2) as [->|_]; [|destruct (N.eqb_spec n 3) as [->|_]; [|discriminate]]];
    inversion H; subst; assumption.
Qed.
Example wf_wex : wf_env wex.
Proof. apply wf_ex, wsch_is; apply wf_schemab_ok; vm_compute; reflexivity. Qed.
Example simple_acct : simple_schema acct.
Proof. split; [split; repeat constructor|reflexivity]. Qed.
Example walkable_temp : walkable temp.
Proof. split; repeat constructor. Qed.
Example simple_evt : simple_schema evt.
Proof. split; [split; repeat (constructor; try (right; vm_compute; discriminate))|reflexivity]. Qed.

(** Data of the first revision: the field added later comes from its [default_fn]. *)
Definition acct_bytes : bytes := [1; 2; 104; 105; 2; 1; 97; 1; 98; 77].
Definition acct_val : val := VSeq [a_str [104; 105]; VSeq [a_str [97]; a_str [98]]; VVar 0 []].
Example from_acct : walked_from wex 5 1 (TRef 1) acct_val simple_schema (opened wex 5) acct_bytes [77].
Proof.
  apply from_data; [exact wf_wex|intros n s f _ _ _; reflexivity|repeat constructor|vm_compute; reflexivity|vm_compute; reflexivity].
Qed.
Example C37_case : way_covered (HFields (indexed_now acct) (alive_fields acct (match s_body acct with SStruct fs => fs | _ => [] end))) [true; false; true]
  /\ walk_with wex 5 1 (TRef 1) (visit_fields [true; false; true]) (mkSR acct_bytes 10) = Ok (visited [true; false; true] [a_str [104; 105]; VSeq []; VVar 0 []], mkSR [77] 10)
  /\ walk_with wex 5 1 (TRef 1) (Field Skip (Field (Walk (Item Skip (Item Bytes Rest))) Rest)) (mkSR acct_bytes 10)
     = Ok (OCons ODone (OCons (OCons ODone (OCons (OBytes [98]) ODone)) ODone), mkSR [77] 10)
  /\ walk_into_bytes wex 5 1 (TRef 1) [true] (mkSR acct_bytes 10) = Ok (OBytes [2; 1; 97; 1; 98], mkSR [77] 10).
Proof. split; [apply way_plain|]. repeat split; vm_compute; reflexivity. Qed.

(** Data of the first revision of a type with a [convert_fn]. *)
Example users_wex : users_typed wex (fun _ _ => True) 0.
Proof.
  intros n s d r h Es Er _. assert (Hr : r = 1 \/ r = 2).
  { unfold sent in Er. destruct (r =? 0) eqn:E0; [discriminate|]. apply N.eqb_neq in E0. assert (L : (N.to_nat (r - 1) < length (s_hist s))%nat) by (apply nth_error_Some; congruence).
    revert L. apply (wsch_is (fun _ s => (N.to_nat (r - 1) < length (s_hist s))%nat -> r = 1 \/ r = 2)) with (n := n); [cbn; lia|cbn; lia|cbn; lia|exact Es]. }
  revert Es. apply (wsch_is (fun n s => (forall fs f v, field_list s fs -> In f fs -> falive r f = false -> falive (scur s) f = true -> f_default f r = Ok v -> ok wex (fun _ _ => True) d (f_ty f) v)
    /\ (forall fs f l v l', field_list s fs -> In f fs -> falive r f = true -> falive (scur s) f = false -> ok_fields wex (fun _ _ => True) d (scur s) fs l -> ok wex (fun _ _ => True) d (f_ty f) v ->
         f_convert f l r v = Ok l' -> ok_fields wex (fun _ _ => True) d (scur s) fs l')
    /\ (forall vs vr l v, s_body s = SEnum vs -> In vr vs -> valive r vr = true -> valive (scur s) vr = false -> v_convert vr l r = Ok v -> ok wex (fun _ _ => True) (S d) (TRef n) v))).
  - split; [|split].
    + intros fs f v -> Hf. cbn in Hf. repeat (destruct Hf as [<-|Hf]); try (destruct Hf); intros Ha Hc Hv; try (destruct Hr as [-> | ->]; discriminate).
      cbn in Hv. inversion Hv; subst v. split; cbn; auto.
    + intros fs f l v l' -> Hf. cbn in Hf. repeat (destruct Hf as [<-|Hf]); try (destruct Hf); intros Ha Hc; destruct Hr as [-> | ->]; discriminate.
    + intros vs vr l v Hb. discriminate.
  - split; [|split].
    + intros fs f v -> Hf. cbn in Hf. repeat (destruct Hf as [<-|Hf]); try (destruct Hf); intros Ha Hc Hv; try (destruct Hr as [-> | ->]; discriminate).
      cbn in Hv. inversion Hv; subst v. split; [vm_compute; split; [discriminate|reflexivity]|split; exact I].
    + intros fs f l v l' -> Hf. cbn in Hf. repeat (destruct Hf as [<-|Hf]); try (destruct Hf); intros Ha Hc; try (destruct Hr as [-> | ->]; discriminate).
      cbn [f_convert with_convert fld f_ty]. intros [Hl El] [Hv Ev] Hx. unfold wt_fields in Hl. unfold every_fields in El.
      change (filter (falive (scur temp)) (match s_body temp with SStruct fs => fs | SEnum _ => [] end)) with [fld TStr 1 None; with_default (VInt 0) (fld (TInt I64) 2 None)] in *.
      inversion Hl as [|? v1 ? l1 P1 Hl1]; subst; inversion Hl1 as [|? v2 ? l2 P2 Hl2]; subst; inversion Hl2; subst.
      inversion El as [|? ? ? ? Q1 El1]; subst. unfold to_tenths in Hx. destruct v as [|z| | | | |]; try discriminate. inversion Hx; subst l'.
      split; [apply Forall2_cons; [exact P1|]; apply Forall2_cons; [|apply Forall2_nil]|apply Forall2_cons; [exact Q1|]; apply Forall2_cons; [split; exact I|apply Forall2_nil]].
      unfold wt in Hv. cbn [wt_ty f_ty with_default fld] in *. unfold in_ity, inS in *. cbn [wex ex_env e_ub ity_signed ity_bits] in *.
      change (2 ^ (Z.of_N 32 - 1))%Z with 2147483648%Z in Hv. change (2 ^ (Z.of_N 64 - 1))%Z with 9223372036854775808%Z. lia.
    + intros vs vr l v Hb. discriminate.
  - split; [|split].
    + intros fs f v (vr & Hi & ->) Hf Ha Hc. exfalso. cbn in Hi.
      destruct Hi as [<-|[<-|[<-|[<-|[]]]]]; cbn in Hf; repeat (destruct Hf as [<-|Hf]); try (destruct Hf); destruct Hr as [-> | ->]; discriminate.
    + intros fs f l v l' (vr & Hi & ->) Hf Ha Hc. exfalso. cbn in Hi.
      destruct Hi as [<-|[<-|[<-|[<-|[]]]]]; cbn in Hf; repeat (destruct Hf as [<-|Hf]); try (destruct Hf); destruct Hr as [-> | ->]; discriminate.
    + intros vs vr l v Hb Hi Ha Hc. exfalso. cbn in Hb. inversion Hb; subst vs. destruct Hi as [<-|[<-|[<-|[<-|[]]]]]; discriminate.
Qed.
Example opt_stable_wex : opt_stable wex.
Proof.
  intros n s vs vr r h Es _ _ Er Ho. exfalso. assert (Hin : In h (s_hist s)) by (unfold sent in Er; destruct (r =? 0); [discriminate|exact (nth_error_In _ _ Er)]).
  revert Hin. apply (wsch_is (fun _ s => In h (s_hist s) -> False)) with (n := n); [| | |exact Es]; intros [<-|[<-|[]]]; discriminate.
Qed.
Definition temp_bytes : bytes := [1; 42; 2; 104; 105; 77].
Example from_temp : walked_from wex 5 1 (TRef 2) (VSeq [a_str [104; 105]; VInt 210]) walkable (opened wex 5) temp_bytes [77].
Proof.
  apply (from_old_data wex 5 1 (TRef 2) _ 0); [exact wf_wex|intros n s f _ _ _; reflexivity|left; reflexivity|reflexivity|exact users_wex| |exact opt_stable_wex|lia|repeat constructor|vm_compute; discriminate|vm_compute; reflexivity].
  intros c d t x y Hx. cbn [wex ex_env e_ext]. destruct x as [|[]| | | | |]; try (destruct (c =? 0)); intros H; inversion H; subst; exact Hx.
Qed.
Example C37_old_case : walk_with wex 5 1 (TRef 2) (visit_fields [true; true]) (mkSR temp_bytes 6) = Ok (visited [true; true] [a_str [104; 105]; VInt 210], mkSR [77] 6).
Proof. vm_compute. reflexivity. Qed.

(** Data this program wrote, of an optimised and indexed type. *)
Lemma plain_now_new : forall n s, e_sch new n = Some s -> plain_now s.
Proof.
  intros n s H h Hh Ho. cbn [new ex_env e_sch] in H. unfold sch3 in H. destruct (n =? 1); [|destruct (n =? 2); [|discriminate]]; inversion H; subst s; vm_compute in Hh; inversion Hh; subst h; discriminate Ho.
Qed.
Definition u_bytes : bytes := match to_vec new 2 (TRef 1) u_new with Ok b => b | _ => [] end.
Example from_u : walked_from new 9 2 (TRef 1) u_new plain_now (opened_enc new) (u_bytes ++ [7; 7]) [7; 7].
Proof. apply from_encoded; [exact wf_new|intros n s f _ _ _; reflexivity|exact honest_new|reflexivity|repeat constructor|vm_compute; reflexivity|exact wt_new|vm_compute; reflexivity]. Qed.
Example C37_indexed_case : exists x y, walk_with new 9 2 (TRef 1) (Field Decode (Field Skip (Field View (Field Decode Rest)))) (mkSR (u_bytes ++ [7; 7]) 182) = Ok (OCons (OVal (a_str [98])) (OCons ODone (OCons (OBytes x) (OCons (OVal (VInt (-5))) ODone))), mkSR [7; 7] 182)
  /\ len x = 109 /\ walk_into_bytes new 9 2 (TRef 1) [false; false] (mkSR (u_bytes ++ [7; 7]) 182) = Ok (OBytes x, y).
Proof. do 2 eexists. vm_compute. repeat split; reflexivity. Qed.

(** Enums. *)
Definition evt_bytes : bytes := [2; 3; 2; 1; 97; 5; 1; 99; 6; 8].
Definition evt_val : val := VVar 3 [VSeq [VPair (a_str [97]) (VInt 5); VPair (a_str [99]) (VInt 6)]].
Example from_evt : walked_from wex 5 1 (TRef 3) evt_val simple_schema (opened wex 5) evt_bytes [8].
Proof. apply from_data; [exact wf_wex|intros n s f _ _ _; reflexivity|repeat constructor|vm_compute; reflexivity|vm_compute; reflexivity]. Qed.
Example C38_case : variant_here evt (match s_body evt with SEnum vs => vs | _ => [] end) 3 = Some [fld (TMap KOrd TStr (TInt U64)) 1 None]
  /\ walk_with wex 5 1 (TRef 3) (Is 1 (DecodeVar 1) (Is 3 (IntoVar 3 (Entry Bytes Skip (Entry Skip Decode Rest))) (DecodeVar 0))) (mkSR evt_bytes 10)
     = Ok (OCons (OCons (OBytes [97]) ODone) (OCons (OCons ODone (OVal (VInt 6))) ODone), mkSR [8] 10)
  /\ walk_with wex 5 1 (TRef 3) (DecodeVar 1) (mkSR evt_bytes 10) = Err (EDeserialize (MOther 2)).
Proof. repeat split; vm_compute; reflexivity. Qed.
Example C39_session_case : map_session wex 5 1 TStr (TInt U64) [Remaining; NextEntry; SkipValue; NextEntry; KeyBytes; DecodeKey; DecodeValue; Remaining; NextEntry; SkipKey; SkipValue; NextEntry] (mkSR (skipn 2 evt_bytes) 10)
  = Ok ([Ok (OVal (VInt 2)); Ok ODone; Err (EDeserialize (MOther 9)); Ok ODone; Ok (OBytes [97]); Err (EDeserialize (MOther 9)); Ok (OVal (VInt 5)); Ok (OVal (VInt 1)); Ok ODone; Ok ODone; Ok ODone; Ok OEnd],
        Some (mkMS (mkSR [8] 10) 0 None)).
Proof. vm_compute. reflexivity. Qed.
Example C40_case : refused wex (TVec (TInt U16)) = true /\ refused wex (TVec (TInt Usize)) = false /\ refused wex (TWrap (TVec TUuid)) = true
  /\ exists c s', enter wex 5 1 (TVec TStr) (mkSR [1; 1; 97] 3) = Ok (c, s').
Proof. repeat split. do 2 eexists. vm_compute. reflexivity. Qed.

(** Search. *)
Definition fmap : list val := [VPair (a_str [97]) (VInt 5); VPair (a_str [99]) (VInt 6); VPair (a_str [101]) (VInt 300)].
Definition fbytes : bytes := match to_vec wex 1 (TMap KOrd TStr (TInt U64)) (VSeq fmap) with Ok b => b | _ => [] end.
Example C41_case : wt wex 1 (TMap KOrd TStr (TInt U64)) (VSeq fmap) /\ to_vec wex 1 (TMap KOrd TStr (TInt U64)) (VSeq fmap) = Ok fbytes
  /\ map_find wex 5 1 TStr (TInt U64) (fun k => vcmp k (a_str [99])) Decode (mkSR (fbytes ++ [8]) 13) = Ok (Some (OVal (VInt 6)), mkSR [1; 101; 251; 44; 1; 8] 13)
  /\ map_find_bytes wex 5 1 TStr (TInt U64) (fun k => bcmp k [100]) Decode (mkSR (fbytes ++ [8]) 13) = Ok (None, mkSR [8] 13).
Proof. split; [apply wtb_ok; vm_compute; reflexivity|]. repeat split; vm_compute; reflexivity. Qed.

(** The data of a [HashMap] is not in the order of its keys: [find] can miss a key that is there. *)
Theorem C41_hash_refuted : exists l b, wt wex 1 (TMap KHash TStr (TInt U64)) (VSeq l) /\ to_vec wex 1 (TMap KHash TStr (TInt U64)) (VSeq l) = Ok b
  /\ In (VPair (a_str [97]) (VInt 5)) l
  /\ map_find wex 5 1 TStr (TInt U64) (fun k => e_cmp wex TStr k (a_str [97])) Decode (mkSR b 0) = Ok (None, mkSR [] 0).
Proof. exists fmap. eexists. split; [apply wtb_ok; vm_compute; reflexivity|]. split; [vm_compute; reflexivity|]. split; [left; reflexivity|]. vm_compute. reflexivity. Qed.
Example C19_walk_case : walk_with wex 5 1 (TRef 1) (visit_fields [true]) (mkSR [3; 1; 97; 0] 4) = Err (EDeserialize MInvalidRevision).
Proof. vm_compute. reflexivity. Qed.
Print Assumptions C39_scripts_agree.
Print Assumptions C39_visit_seq.
Print Assumptions C39_visit_map.
Print Assumptions C39_map_sessions.
Print Assumptions C37_visit_struct.
Print Assumptions C37_opening_fails.
Print Assumptions C37_encoded_opens.
Print Assumptions C37_field_bytes.
Print Assumptions C38_variant_test.
Print Assumptions C38_decode_variant.
Print Assumptions C38_unit_variant.
Print Assumptions C40_bulk_refused.
Print Assumptions C40_walked_layout.
Print Assumptions C41_find_hit.
Print Assumptions C41_find_miss.
Print Assumptions C41_find_bytes_hit.
Print Assumptions C41_find_bytes_miss.
Print Assumptions C41_map_order_ascends.
Print Assumptions C19_walk_rejects.
Print Assumptions C41_hash_refuted.
