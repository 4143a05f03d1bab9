(** Proofs: where the features that change the wire format make no difference. *)

From Verif Require Import Base BaseL Prog ProgL Prim PrimL Utf8 Tag Ty Ser De SliceReader Skip Typed Parts SortL RtL RtId DiscL Spec TranspL Format Local LocalL Feature.
From Coq Require Import List NArith ZArith Bool Lia Permutation.
Import ListNotations.
Open Scope N_scope.

(** The same bytes, the same error, the same panic. *)
Definition sameb (a b : ser) : Prop := ser_bytes a = ser_bytes b.
Lemma sameb_refl : forall a, sameb a a.
Proof. reflexivity. Qed.
Lemma bytes_sbind : forall a b, ser_bytes (a +++ b) = rbind (ser_bytes a) (fun x => rmap (app x) (ser_bytes b)).
Proof.
  intros [la|e|p] b; [|reflexivity|reflexivity]. destruct b as [lb|e|p]; try reflexivity. cbn. unfold out. rewrite flat_map_app. reflexivity.
Qed.
Lemma sameb_sbind : forall a a' b b', sameb a a' -> sameb b b' -> sameb (a +++ b) (a' +++ b').
Proof. unfold sameb. intros a a' b b' Ha Hb. rewrite !bytes_sbind, Ha, Hb. reflexivity. Qed.
Lemma sameb_sconcat : forall A (f f' : A -> ser) l, (forall x, In x l -> sameb (f x) (f' x)) -> sameb (sconcat (map f l)) (sconcat (map f' l)).
Proof.
  intros A f f' l. induction l as [|x l IH]; intros H; [apply sameb_refl|]. cbn [map sconcat fold_right].
  apply sameb_sbind; [apply H; left; reflexivity|apply IH; intros; apply H; right; assumption].
Qed.
Lemma sameb_rbind : forall A (a : res A) f f', (forall x, sameb (f x) (f' x)) -> sameb (rbind a f) (rbind a f').
Proof. intros A [x|e|p] f f' H; [apply H|reflexivity|reflexivity]. Qed.
Lemma mapM_ext_in : forall A B (f g : A -> res B) l, (forall x, In x l -> f x = g x) -> rmapM f l = rmapM g l.
Proof.
  intros A B f g l. induction l as [|x l IH]; intros H; [reflexivity|]. cbn [rmapM]. rewrite (H x) by (left; reflexivity). rewrite IH by (intros; apply H; right; assumption). reflexivity.
Qed.

(** Elements in one go and one by one. *)
Lemma rbind_sall : forall A (r : res (list A)) (f : list A -> bytes), ser_bytes (rbind r (fun l => sall (f l))) = rmap f r.
Proof. intros A [x|e|p] f; cbn; [unfold out; cbn; rewrite app_nil_r|reflexivity|reflexivity]; reflexivity. Qed.
Lemma one_by_one_bytes : forall A (P : val -> Prop) (as_ : val -> res A) (enc : A -> bytes) (f : val -> ser) l,
  Forall P l -> (forall v, P v -> exists x, as_ v = Ok x /\ ser_bytes (f v) = Ok (enc x)) ->
  sameb (rbind (rmapM as_ l) (fun xs => sall (flat_map enc xs))) (sconcat (map f l)).
Proof.
  intros A P as_ enc f l Hl H. unfold sameb. rewrite rbind_sall. induction Hl as [|v l Hv Hl IH]; [reflexivity|].
  destruct (H v Hv) as (x & Hx & Hb). cbn [rmapM map sconcat fold_right]. rewrite bytes_sbind, Hx, Hb. cbn [rbind]. fold (sconcat (map f l)). rewrite <- IH.
  destruct (rmapM as_ l); reflexivity.
Qed.
Lemma le_bytes_wrap : forall k w z, (w = k)%nat -> (0 <= z < 2 ^ Z.of_N (8 * N.of_nat k))%Z -> le_bytes w (wrapZ (8 * N.of_nat w) z) = le_bytes k (Z.to_N z).
Proof. intros k w z -> Hz. unfold wrapZ. rewrite Z.mod_small by exact Hz. reflexivity. Qed.

Section Ser.
Variable E : env.
Hypothesis W : wf_env E.
Variable wrec : N -> val -> Prop.
Variable rec : N -> val -> ser.
Lemma bulk_one_by_one : forall t k l, same_either_way (e_fw E) t = true -> bulk_of t = Some k ->
  wt_ty E wrec (TVec t) (VSeq l) -> sameb (ser_bulk E k l) (Ok [WAll (ser_len E (len l))] +++ sconcat (map (ser_ty E rec t) l)).
Proof.
  intros t k l Hs Hk (Hf & Hv & Hl). unfold ser_bulk. apply sameb_sbind; [apply sameb_refl|].
  destruct (N.eqb_spec (len l) 0) as [H0|H0]; [destruct l; [apply sameb_refl|cbn in H0; lia]|].
  destruct t; try discriminate Hk; try discriminate Hs.
  - destruct i; try discriminate Hk; try discriminate Hs; cbn [same_either_way] in Hs; inversion Hk; subst k; cbn [bulk_of] in *.
    + eapply (one_by_one_bytes Z _ as_int); [exact Hl|]. intros [| z | | | | |]; try contradiction. intros Hz. exists z. split; [reflexivity|]. cbn. f_equal. cbn in Hz. unfold ser_fixed, wrapZ. change (8 * N.of_nat 1) with 8.
      unfold in_ity, inU in Hz. cbn in Hz. rewrite Z.mod_small by exact Hz. cbn [le_bytes]. unfold ser_u8. rewrite N.mod_small; [reflexivity|]. lia.
    + eapply (one_by_one_bytes Z _ as_int); [exact Hl|]. intros [| z | | | | |]; try contradiction. intros Hz. exists z. split; [reflexivity|]. cbn. f_equal. unfold ser_fixed, ser_i8. change (8 * N.of_nat 1) with 8.
      cbn [le_bytes]. rewrite N.mod_small; [reflexivity|]. unfold wrapZ. pose proof (Z.mod_pos_bound z (2 ^ Z.of_N 8) ltac:(reflexivity)). change (2 ^ Z.of_N 8)%Z with 256%Z in *. lia.
    + eapply (one_by_one_bytes Z _ as_int); [exact Hl|]. intros [| z | | | | |]; try contradiction. intros Hz. exists z. split; [reflexivity|]. cbn [ser_ty ser_bytes rmap sall]. unfold out. cbn [flat_map wop_bytes ser_int]. rewrite app_nil_r. f_equal. unfold ser_u16. rewrite Hs. symmetry. apply le_bytes_wrap; [reflexivity|exact Hz].
    + eapply (one_by_one_bytes Z _ as_int); [exact Hl|]. intros [| z | | | | |]; try contradiction. intros Hz. exists z. split; [reflexivity|]. cbn [ser_ty ser_bytes rmap sall]. unfold out. cbn [flat_map wop_bytes ser_int]. rewrite app_nil_r. f_equal. unfold ser_u32. rewrite Hs. symmetry. apply le_bytes_wrap; [reflexivity|exact Hz].
    + eapply (one_by_one_bytes Z _ as_int); [exact Hl|]. intros [| z | | | | |]; try contradiction. intros Hz. exists z. split; [reflexivity|]. cbn [ser_ty ser_bytes rmap sall]. unfold out. cbn [flat_map wop_bytes ser_int]. rewrite app_nil_r. f_equal. unfold ser_u64. rewrite Hs. symmetry. apply le_bytes_wrap; [reflexivity|exact Hz].
    + eapply (one_by_one_bytes Z _ as_int); [exact Hl|]. intros [| z | | | | |]; try contradiction. intros Hz. exists z. split; [reflexivity|]. cbn [ser_ty ser_bytes rmap sall]. unfold out. cbn [flat_map wop_bytes ser_int]. rewrite app_nil_r. f_equal. unfold ser_u128. rewrite Hs. symmetry. apply le_bytes_wrap; [reflexivity|exact Hz].
  - inversion Hk; subst k. eapply (one_by_one_bytes Z _ as_int); [exact Hl|]. intros [| z | | | | |]; try contradiction. intros Hz. exists z. split; [reflexivity|]. cbn [ser_ty ser_bytes rmap sall]. unfold out. cbn [flat_map wop_bytes]. rewrite app_nil_r. f_equal. symmetry. apply le_bytes_wrap; [reflexivity|exact Hz].
  - inversion Hk; subst k. eapply (one_by_one_bytes Z _ as_int); [exact Hl|]. intros [| z | | | | |]; try contradiction. intros Hz. exists z. split; [reflexivity|]. cbn [ser_ty ser_bytes rmap sall]. unfold out. cbn [flat_map wop_bytes]. rewrite app_nil_r. f_equal. symmetry. apply le_bytes_wrap; [reflexivity|exact Hz].
  - inversion Hk; subst k. unfold vec_fits in Hv. cbn [bulk_of] in Hv. unfold fits in Hv. apply N.ltb_lt in Hv. rewrite Hv.
    assert (K : forall r : res (list bytes), rbind r (fun bs => sall (concat bs)) = rbind r (fun bs => sall (flat_map (fun x => x) bs))) by (intros []; cbn; rewrite ?flat_map_concat_map, ?map_id; reflexivity).
    rewrite K. eapply (one_by_one_bytes bytes _ as_bytes); [exact Hl|]. intros [| | b | | | |]; try contradiction. intros _. exists b. split; [reflexivity|]. cbn. unfold out. cbn. rewrite app_nil_r. reflexivity.
  - inversion Hk; subst k. unfold vec_fits in Hv. cbn [bulk_of] in Hv. unfold fits in Hv. apply N.ltb_lt in Hv. rewrite Hv.
    assert (K : forall r : res (list bytes), rbind r (fun bs => sall (concat bs)) = rbind r (fun bs => sall (flat_map (fun x => x) bs))) by (intros []; cbn; rewrite ?flat_map_concat_map, ?map_id; reflexivity).
    rewrite K. eapply (one_by_one_bytes bytes _ as_bytes); [exact Hl|]. intros [| | b | | | |]; try contradiction. intros _. exists b. split; [reflexivity|]. cbn. unfold out. cbn. rewrite app_nil_r. reflexivity.
Qed.

Variable b : bool.
Notation E' := (with_specialised b E).
Variable rec' : N -> val -> ser.
Hypothesis Hrec : forall n v, wrec n v -> sameb (rec n v) (rec' n v).
Notation vs := (vectors_same (e_fw E)).
Lemma citer_in : forall k t l x, In x (citer E k t l) -> In x l.
Proof. intros [] t l x H; [|exact H]. eapply Permutation_in; [apply (we_iter E W)|exact H]. Qed.
Lemma f_seq : forall (P : val -> Prop) f f' l n, Forall P l -> (forall x, P x -> sameb (f x) (f' x)) ->
  sameb (Ok [WAll (ser_len E n)] +++ sconcat (map f l)) (Ok [WAll (ser_len E' n)] +++ sconcat (map f' l)).
Proof.
  intros P f f' l n Hl H. apply sameb_sbind; [apply sameb_refl|]. apply sameb_sconcat. intros x Hx. apply H. rewrite Forall_forall in Hl. apply Hl, Hx.
Qed.
Lemma f_ser_ty : forall t, vs t = true -> forall v, wt_ty E wrec t v -> sameb (ser_ty E rec t v) (ser_ty E' rec' t v).
Proof.
  induction t; intros S v H; unfold vectors_same in *; cbn [ty_all] in S; apply andb_prop in S; destruct S as [S0 S];
    try (apply andb_prop in S; destruct S as [S1 S2]; specialize (IHt1 S1); specialize (IHt2 S2)); try specialize (IHt S);
    destruct v; cbn [wt_ty] in H; cbn [ser_ty]; try contradiction; try apply sameb_refl; try (apply Hrec; assumption);
    try (apply IHt; assumption); try (apply IHt; apply H).
  - destruct H. apply sameb_sbind; auto.
  - change (e_spec E') with b. destruct H as (H1 & H2 & H3). assert (HV : wt_ty E wrec (TVec t) (VSeq l)) by (cbn [wt_ty]; auto).
    destruct (bulk_of t) as [k|] eqn:Ek.
    + assert (A : forall e, sameb (match (if e_spec E then Some k else None) with Some k => ser_bulk E k l | None => Ok [WAll (ser_len E (len l))] +++ sconcat (map (ser_ty E rec t) l) end) e <-> sameb (ser_bulk E k l) e).
      { intros e. destruct (e_spec E); [tauto|]. unfold sameb. rewrite (bulk_one_by_one t k l S0 Ek HV). tauto. }
      apply A. destruct b; [apply sameb_refl|]. eapply eq_trans; [apply (bulk_one_by_one t k l S0 Ek HV)|]. eapply f_seq; [exact H3|]. intros x Hx. apply IHt. exact Hx.
    + replace (if e_spec E then None else None) with (@None bk) by (destruct (e_spec E); reflexivity). replace (if b then None else None) with (@None bk) by (destruct b; reflexivity).
      eapply f_seq; eauto.
  - destruct H as (_ & H). eapply f_seq; eauto.
  - destruct (Nat.eqb _ _); [|apply sameb_refl]. destruct H as (_ & H). apply sameb_sconcat. intros x Hx. rewrite Forall_forall in H. auto.
  - destruct k as [|[]]; try contradiction; destruct l as [|x [|]]; try contradiction; [apply sameb_refl|]. apply sameb_sbind; [apply sameb_refl|auto].
  - destruct k as [|[]]; try contradiction; destruct l as [|x [|]]; try contradiction; (apply sameb_sbind; [apply sameb_refl|auto]).
  - destruct k as [|[[]|[]|]]; try contradiction; destruct l as [|x [|]]; try contradiction; try apply sameb_refl; (apply sameb_sbind; [apply sameb_refl|auto]).
  - destruct H as (_ & H & _). change (citer E' k (TMap k t1 t2) l) with (citer E k (TMap k t1 t2) l). apply sameb_sbind; [apply sameb_refl|]. apply sameb_sconcat.
    intros x Hx. apply citer_in in Hx. rewrite Forall_forall in H. specialize (H x Hx). destruct x; try contradiction. destruct H. cbn [ser_entry]. apply sameb_sbind; auto.
  - destruct H as (_ & H & _). change (citer E' k (TSet k t) l) with (citer E k (TSet k t) l). apply sameb_sbind; [apply sameb_refl|]. apply sameb_sconcat.
    intros x Hx. apply citer_in in Hx. rewrite Forall_forall in H. auto.
  - destruct H as (_ & H & _). change (e_iter E' (THeap t) l) with (e_iter E (THeap t) l). apply sameb_sbind; [apply sameb_refl|]. apply sameb_sconcat.
    intros x Hx. assert (K : In x l) by (eapply Permutation_in; [apply (we_iter E W)|exact Hx]). rewrite Forall_forall in H. auto.
Qed.
Lemma vs_elem : forall t, (match t with TVec u | TImVec u | TSet _ u => vs t = true -> vs u = true | TMap _ u w => vs t = true -> vs u = true /\ vs w = true | _ => True end).
Proof.
  intros t. destruct t; try exact I; unfold vectors_same; cbn [ty_all]; intros H; apply andb_prop in H; try apply H. destruct H as [_ H]. apply andb_prop in H. exact H.
Qed.
Lemma f_ser_mode : forall m t v, vs t = true -> wt_ty E wrec t v -> sameb (ser_mode E rec m t v) (ser_mode E' rec' m t v).
Proof.
  intros m t v S H. pose proof (vs_elem t) as SV. destruct m; cbn [ser_mode]; try apply sameb_refl.
  - apply f_ser_ty; assumption.
  - destruct t; try apply sameb_refl. destruct v; try apply sameb_refl. cbn [wt_ty] in H. destruct H as (_ & H & _). destruct (SV S) as [S1 S2].
    change (citer E' k (TMap k t1 t2) l) with (citer E k (TMap k t1 t2) l). unfold sameb. f_equal. f_equal. apply mapM_ext_in. intros x Hx. apply citer_in in Hx. rewrite Forall_forall in H. specialize (H x Hx).
    destruct x; try contradiction. destruct H as [Ha Hb]. cbn [pre_entry]. pose proof (f_ser_ty t1 S1 _ Ha) as A. pose proof (f_ser_ty t2 S2 _ Hb) as B. unfold sameb in A, B. rewrite A, B. reflexivity.
  - destruct t; try apply sameb_refl; destruct v; try apply sameb_refl; cbn [wt_ty] in H; unfold sameb; do 2 f_equal; apply mapM_ext_in; intros x Hx.
    + destruct H as (_ & _ & H). rewrite Forall_forall in H. apply f_ser_ty; auto.
    + destruct H as (_ & H). rewrite Forall_forall in H. apply f_ser_ty; auto.
  - destruct t; try apply sameb_refl; destruct v; try apply sameb_refl; cbn [wt_ty] in H. destruct H as (_ & H & _).
    change (citer E' k (TSet k t) l) with (citer E k (TSet k t) l). unfold sameb. do 2 f_equal. apply mapM_ext_in. intros x Hx. apply citer_in in Hx. rewrite Forall_forall in H. apply f_ser_ty; auto.
Qed.
Lemma f_ser_fields : forall opt r fs l, forallb (fun f => vs (f_ty f)) fs = true -> wt_fields E wrec r fs l ->
  Forall2 sameb (ser_fields E rec opt r fs l) (ser_fields E' rec' opt r fs l).
Proof.
  intros opt r. induction fs as [|f fs IH]; intros l S H; cbn [ser_fields].
  - destruct l; repeat constructor.
  - cbn [forallb] in S. apply andb_prop in S. destruct S as [S1 S2]. unfold wt_fields in H. cbn [filter] in H. destruct (falive r f) eqn:Ef; [|apply IH; assumption].
    inversion H; subst. constructor; [apply f_ser_mode; assumption|apply IH; assumption].
Qed.
Lemma f_ser_vfields : forall r fs l, forallb (fun f => vs (f_ty f)) fs = true -> wt_fields E wrec r fs l ->
  Forall2 sameb (ser_vfields E rec r fs l) (ser_vfields E' rec' r fs l).
Proof.
  intros r. induction fs as [|f fs IH]; intros l S H; cbn [ser_vfields].
  - destruct l; repeat constructor.
  - cbn [forallb] in S. apply andb_prop in S. destruct S as [S1 S2]. unfold wt_fields in H. cbn [filter] in H. destruct (falive r f) eqn:Ef; [|apply IH; assumption].
    inversion H; subst. constructor; [apply f_ser_ty; assumption|apply IH; assumption].
Qed.
Lemma sameb_mapM : forall l l', Forall2 sameb l l' -> rmapM ser_bytes l = rmapM ser_bytes l'.
Proof. intros l l' H. induction H as [|x y l l' H1 H2 IH]; [reflexivity|]. cbn [rmapM]. rewrite H1, IH. reflexivity. Qed.
Lemma sameb_sconcat2 : forall l l', Forall2 sameb l l' -> sameb (sconcat l) (sconcat l').
Proof. intros l l' H. induction H; [apply sameb_refl|]. cbn [sconcat fold_right]. apply sameb_sbind; assumption. Qed.
Lemma f_ser_derived : forall s v, NoDup (match s_body s with SStruct _ => [] | SEnum l => map v_name l end) -> fields_all (fun f => vs (f_ty f)) s = true -> wt_derived E wrec s v -> sameb (ser_derived E rec s v) (ser_derived E' rec' s v).
Proof.
  intros s v N0 S H. unfold ser_derived, fields_all, wt_derived in *. destruct (sent s (scur s)) as [h|]; [|apply sameb_refl]. apply sameb_sbind; [apply sameb_refl|].
  destruct (s_body s) as [fs|vl]; destruct v; try contradiction.
  - unfold ser_struct, ser_struct_opt. destruct (h_opt h).
    + unfold sameb. rewrite (sameb_mapM _ _ (f_ser_fields true _ _ _ S H)). reflexivity.
    + apply sameb_sconcat2, f_ser_fields; assumption.
  - unfold ser_enum. destruct (calc_disc (scur s) vl) as [ds|] eqn:Ed; [|apply sameb_refl].
    destruct (find_name k ds) as [[vr d]|] eqn:Ef; [|apply sameb_refl].
    unfold find_name in Ef. apply find_some in Ef. destruct Ef as [Hin Hnm]. cbn [fst] in Hnm. apply N.eqb_eq in Hnm.
    apply (in_map fst) in Hin. rewrite (calc_disc_fst _ _ _ Ed) in Hin. apply filter_In in Hin. destruct Hin as [Hin _]. cbn [fst] in Hin.
    destruct H as (vr' & A & B & C & D). assert (vr' = vr).
    { clear - N0 Hin A B Hnm. subst k. induction vl as [|w vl IH]; [contradiction|]. cbn [map] in N0. inversion N0; subst.
      destruct A as [->|A], Hin as [->|Hin]; auto; exfalso; apply H1; [rewrite <- Hnm|rewrite Hnm]; apply in_map; assumption. }
    subst vr'. rewrite forallb_forall in S. specialize (S vr Hin). destruct (h_opt h).
    + unfold ser_variant_opt. destruct (v_size vr) as [[| |]|]; try apply sameb_refl; (apply sameb_sbind; [apply sameb_refl|]); unfold sameb; rewrite (sameb_mapM _ _ (f_ser_vfields _ _ _ S D)); reflexivity.
    + apply sameb_sbind; [apply sameb_refl|]. apply sameb_sconcat2, f_ser_fields; assumption.
Qed.
End Ser.
Lemma f_ser_ref : forall E b, wf_env E -> env_all (fun f => vectors_same (e_fw E) (f_ty f)) E ->
  forall d n v, wt_ref E d n v -> sameb (ser_ref E d n v) (ser_ref (with_specialised b E) d n v).
Proof.
  intros E b W S. induction d as [|d IH]; intros n v H; cbn [ser_ref wt_ref] in *; [contradiction|]. change (e_sch (with_specialised b E) n) with (e_sch E n).
  destruct (e_sch E n) as [s|] eqn:Es; [|contradiction]. eapply f_ser_derived; [exact W|exact IH| |exact (S n s Es)|exact H].
  pose proof (we_sch E W n s Es) as (_ & _ & K). destruct (s_body s); [constructor|apply K].
Qed.
Lemma f_to_vec : forall E b d t v, wf_env E -> env_all (fun f => vectors_same (e_fw E) (f_ty f)) E -> vectors_same (e_fw E) t = true -> wt E d t v ->
  to_vec (with_specialised b E) d t v = to_vec E d t v.
Proof. intros E b d t v W S St H. symmetry. eapply (f_ser_ty E W); [apply (f_ser_ref E b W S)|exact St|exact H]. Qed.

(** The same for the grammar. *)
Definition okb (ub : N) (x : bytes) : Prop := wfb x /\ len x < 2 ^ ub.
Lemma okb_app : forall ub x y, okb ub (x ++ y) -> okb ub x /\ okb ub y.
Proof. intros ub x y [H1 H2]. apply wfb_app in H1. rewrite len_app in H2. destruct H1. split; split; try assumption; lia. Qed.
Lemma both_mono : forall ub (F G F' G' : bytes -> Prop) x, okb ub x -> (forall y, okb ub y -> F y -> F' y) -> (forall y, okb ub y -> G y -> G' y) -> both F G x -> both F' G' x.
Proof. intros ub F G F' G' x Hx HF HG (y & z & -> & A & B). apply okb_app in Hx. destruct Hx. exists y, z. auto. Qed.
Lemma items_mono : forall ub A (F F' : A -> bytes -> Prop) l x, okb ub x -> (forall a y, In a l -> okb ub y -> F a y -> F' a y) -> items F l x -> items F' l x.
Proof.
  intros ub A F F' l x Hx H (xs & Hl & ->). exists xs. split; [|reflexivity]. revert Hx H. induction Hl as [|a y l xs Ha Hl IH]; intros Hx H; constructor.
  - cbn [concat] in Hx. apply okb_app in Hx. apply H; [left; reflexivity|apply Hx|exact Ha].
  - cbn [concat] in Hx. apply okb_app in Hx. apply IH; [apply Hx|]. intros; apply H; auto. right; assumption.
Qed.
Lemma items_len : forall w A (F : A -> bytes -> Prop) l x, (forall a y, F a y -> len y = w) -> items F l x -> len x = len l * w.
Proof.
  intros w A F l x H (xs & Hl & ->). induction Hl as [|a y l xs Ha Hl IH]; [reflexivity|]. cbn [concat]. rewrite len_app, IH, (H a y Ha), len_cons. lia.
Qed.
Lemma le_val_16 : forall k x, wfb x -> len x = k -> le_val x < 2 ^ (8 * k).
Proof. intros k x Hx <-. rewrite N.pow_mul_r. apply le_val_bound. exact Hx. Qed.

Section Form.
Variable E : env.
Variable rec : N -> val -> bytes -> Prop.
Notation ok := (okb (e_ub E)).
Lemma elem_fix : forall t s w v y, same_either_way (e_fw E) t = true -> bulk_of t = Some (BFix s w) -> wfb y ->
  (form_ty E rec t v y <-> exists z, v = VInt z /\ le_form s (N.of_nat w) z y).
Proof.
  intros t s w v y Hs Hk Hy. destruct t; try discriminate Hk.
  - assert (K : forall i k, e_fw E = true -> i = U16 /\ k = 2 \/ i = U32 /\ k = 4 \/ i = U64 /\ k = 8 \/ i = U128 /\ k = 16 ->
      (form_ty E rec (TInt i) v y <-> exists z, v = VInt z /\ le_form false k z y)).
    { intros j k Hw Hj. cbn [form_ty].
      assert (J : forall z, int_form E j z y <-> le_form false k z y).
      { intros z. unfold int_form, code_form, le_form. rewrite Hw. destruct Hj as [[-> ->]|[[-> ->]|[[-> ->]|[-> ->]]]]; cbn [number ity_signed ity_bits];
          (split; [intros (n & (A & ->) & -> & _); auto|intros (A & ->); exists (le_val y); split; [auto|]; split; [reflexivity|]; pose proof (le_val_16 _ _ Hy A) as L; unfold in_ity, inU; cbn in L |- *; lia]). }
      split; intros (z & -> & A); exists z; (split; [reflexivity|]); apply J; exact A. }
    destruct i; try discriminate Hk; try discriminate Hs; cbn [bulk_of] in Hk; inversion Hk; subst s w; cbn [same_either_way] in Hs;
      try (apply K; [exact Hs|tauto]); cbn [form_ty int_form]; tauto.
  - inversion Hk; subst. cbn [form_ty]. tauto.
  - inversion Hk; subst. cbn [form_ty]. tauto.
Qed.
Lemma bulk_iff : forall t k l x, same_either_way (e_fw E) t = true -> bulk_of t = Some k -> ok x ->
  (bulk_form E k l x <-> counted E (form_ty E rec t) l x).
Proof.
  intros t k l x Hs Hk Hx. unfold bulk_form, counted. split.
  - eapply both_mono; [exact Hx|auto|]. intros y Hy. destruct k as [|s w|[]].
    + destruct t; try discriminate Hk; [discriminate Hs|destruct i; discriminate Hk].
    + intros [_ H]. revert H. apply (items_mono (e_ub E)); [exact Hy|]. intros a z _ Hz. apply (elem_fix t s w a z Hs Hk). apply Hz.
    + destruct t; try discriminate Hk; [destruct i; discriminate Hk|]. auto.
    + destruct t; try discriminate Hk; [destruct i; discriminate Hk|]. intros [_ H]. exact H.
  - eapply both_mono; [exact Hx|auto|]. intros y Hy H. destruct k as [|s w|[]].
    + destruct t; try discriminate Hk; [discriminate Hs|destruct i; discriminate Hk].
    + assert (A : items (fun v y => exists z, v = VInt z /\ le_form s (N.of_nat w) z y) l y).
      { revert H. apply (items_mono (e_ub E)); [exact Hy|]. intros a z _ Hz. apply (elem_fix t s w a z Hs Hk). apply Hz. }
      split; [|exact A]. rewrite <- (items_len (N.of_nat w) _ _ _ _ (fun a y H => match H with ex_intro _ z (conj _ (conj L _)) => L end) A). apply Hy.
    + destruct t; try discriminate Hk; [destruct i; discriminate Hk|]. auto.
    + destruct t; try discriminate Hk; [destruct i; discriminate Hk|]. split; [|exact H].
      rewrite <- (items_len 16 _ _ _ _ (fun a y H => proj1 H) H). apply Hy.
Qed.
End Form.
Section Form2.
Variable E : env.
Variable b : bool.
Notation E' := (with_specialised b E).
Variables rec rec' : N -> val -> bytes -> Prop.
Hypothesis Hrec : forall n v x, okb (e_ub E) x -> rec n v x -> rec' n v x.
Notation vs := (vectors_same (e_fw E)).
Notation ok := (okb (e_ub E)).
Lemma counted_mono : forall A (F F' : A -> bytes -> Prop) l x, ok x -> (forall a y, ok y -> F a y -> F' a y) -> counted E F l x -> counted E' F' l x.
Proof. intros A F F' l x Hx H. unfold counted. apply (both_mono (e_ub E)); [exact Hx|auto|]. intros y Hy. apply (items_mono (e_ub E)); auto. Qed.
Lemma entry_mono : forall (F G F' G' : val -> bytes -> Prop) v x, ok x -> (forall a y, ok y -> F a y -> F' a y) -> (forall a y, ok y -> G a y -> G' a y) -> entry_form F G v x -> entry_form F' G' v x.
Proof. intros F G F' G' v x Hx H1 H2 (p & q & -> & H). exists p, q. split; [reflexivity|]. revert H. apply (both_mono (e_ub E)); auto. Qed.
Lemma form_mono : forall t, vs t = true -> forall v x, ok x -> form_ty E rec t v x -> form_ty E' rec' t v x.
Proof.
  induction t; intros S v x Hx H; unfold vectors_same in *; cbn [ty_all] in S; apply andb_prop in S; destruct S as [S0 S];
    try (apply andb_prop in S; destruct S as [S1 S2]; specialize (IHt1 S1); specialize (IHt2 S2)); try specialize (IHt S); cbn [form_ty] in H |- *; try exact H; auto.
  - revert H. apply entry_mono; auto.
  - destruct H as (l & -> & H). exists l. split; [reflexivity|]. change (e_spec E') with b. destruct (bulk_of t) as [k|] eqn:Ek.
    + assert (B : bulk_form E k l x). { destruct (e_spec E); [exact H|]. apply (bulk_iff E rec t k l x S0 Ek Hx). exact H. }
      destruct b; [exact B|]. apply (bulk_iff E rec t k l x S0 Ek Hx) in B. revert B. apply counted_mono; auto.
    + replace (if e_spec E then None else None) with (@None bk) in H by (destruct (e_spec E); reflexivity). replace (if b then None else None) with (@None bk) by (destruct b; reflexivity).
      revert H. apply counted_mono; auto.
  - destruct H as (l & -> & H). exists l. split; [reflexivity|]. revert H. apply counted_mono; auto.
  - destruct H as (l & -> & L & H). exists l. split; [reflexivity|]. split; [exact L|]. revert H. apply (items_mono (e_ub E)); auto.
  - destruct H as [H|(y & -> & H)]; [left; exact H|right]. exists y. split; [reflexivity|]. revert H. apply (both_mono (e_ub E)); auto.
  - destruct H as (y & [(-> & H)|(-> & H)]); exists y; [left|right]; (split; [reflexivity|]); revert H; apply (both_mono (e_ub E)); auto.
  - destruct H as [H|(y & [(-> & H)|(-> & H)])]; [left; exact H|right; exists y; left|right; exists y; right]; (split; [reflexivity|]); revert H; apply (both_mono (e_ub E)); auto.
  - destruct H as (l & -> & H). exists l. split; [reflexivity|]. revert H. apply counted_mono; auto. intros a y Hy. apply entry_mono; auto.
  - destruct H as (l & -> & H). exists l. split; [reflexivity|]. revert H. apply counted_mono; auto.
  - destruct H as (l & -> & H). exists l. split; [reflexivity|]. revert H. apply counted_mono; auto.
  - destruct H as (y & H1 & H2). exists y. split; [|exact H2]. auto.
Qed.
Lemma mode_mono : forall m t v x, vs t = true -> ok x -> mode_form E rec m t v x -> mode_form E' rec' m t v x.
Proof.
  intros m t v x S Hx. pose proof (vs_elem E t) as SV. unfold mode_form. destruct m; auto.
  - apply form_mono; assumption.
  - destruct t; auto. intros (l & -> & H). exists l. split; [reflexivity|]. destruct (SV S) as [S1 S2].
    destruct H as [H|(ks & vs & m & H1 & H2 & H3 & H4 & H)]; [left|right; exists ks, vs, m; repeat (split; [assumption|])]; revert H;
      (apply (both_mono (e_ub E)); [exact Hx|auto|]; intros y Hy; apply (both_mono (e_ub E)); [exact Hy|auto|]; intros z Hz).
    + apply (items_mono (e_ub E)); [exact Hz|]. intros a u _ Hu. apply entry_mono; [exact Hu| |]; intros; apply form_mono; assumption.
    + apply (both_mono (e_ub E)); [exact Hz|auto|]. intros u Hu. apply (both_mono (e_ub E)); [exact Hu| |]; intros w Hw; apply (items_mono (e_ub E)); auto; intros; apply form_mono; assumption.
  - assert (K : forall u l, vs u = true -> idx_seq_form E rec u l x -> idx_seq_form E' rec' u l x).
    { intros u l Su [H|[L H]]; [left|right; split; [exact L|]]; revert H; (apply (both_mono (e_ub E)); [exact Hx|auto|]; intros y Hy; apply (both_mono (e_ub E)); [exact Hy|auto|]; intros z Hz).
      - apply (items_mono (e_ub E)); auto; intros; apply form_mono; assumption.
      - apply (both_mono (e_ub E)); [exact Hz|auto|]. intros w Hw. apply (items_mono (e_ub E)); auto; intros; apply form_mono; assumption. }
    destruct t; auto; intros (l & -> & H); exists l; (split; [reflexivity|]); apply K; auto.
  - assert (K : forall u l, vs u = true -> idx_seq_form E rec u l x -> idx_seq_form E' rec' u l x).
    { intros u l Su [H|[L H]]; [left|right; split; [exact L|]]; revert H; (apply (both_mono (e_ub E)); [exact Hx|auto|]; intros y Hy; apply (both_mono (e_ub E)); [exact Hy|auto|]; intros z Hz).
      - apply (items_mono (e_ub E)); auto; intros; apply form_mono; assumption.
      - apply (both_mono (e_ub E)); [exact Hz|auto|]. intros w Hw. apply (items_mono (e_ub E)); auto; intros; apply form_mono; assumption. }
    destruct t; auto; intros (l & -> & H); exists l; (split; [reflexivity|]); apply K; auto.
Qed.
Lemma fields_mono : forall opt cur tgt fs l old x, forallb (fun f => vs (f_ty f)) fs = true -> ok x ->
  fields_form (mode_form E rec) opt cur tgt fs l old x -> fields_form (mode_form E' rec') opt cur tgt fs l old x.
Proof.
  intros opt cur tgt fs l old x S Hx H. induction H; cbn [forallb] in S; try (apply andb_prop in S; destruct S as [S1 S]);
    [constructor| | | |]; try (apply okb_app in Hx; destruct Hx).
  - apply ff_kept; auto. apply mode_mono; assumption.
  - apply ff_old; auto. apply mode_mono; assumption.
  - apply ff_added; auto.
  - apply ff_neither; auto.
Qed.
Lemma content_mono : forall opt cur tgt fs l x, forallb (fun f => vs (f_ty f)) fs = true -> ok x -> content_form E rec opt cur tgt fs l x -> content_form E' rec' opt cur tgt fs l x.
Proof. intros opt cur tgt fs l x S Hx (l0 & old & H & C). exists l0, old. split; [apply fields_mono; assumption|exact C]. Qed.
Lemma padded_mono : forall (F F' : bytes -> Prop) x, ok x -> (forall y, ok y -> F y -> F' y) -> padded F x -> padded F' x.
Proof. intros F F' x Hx H (y & z & -> & A). apply okb_app in Hx. exists y, z. split; [reflexivity|]. apply H; [apply Hx|exact A]. Qed.
Lemma sized_mono : forall (F F' : bytes -> Prop) x, ok x -> (forall y, ok y -> F y -> F' y) -> sized F x -> sized F' x.
Proof. intros F F' x Hx H (y & z & -> & A & B & C). apply okb_app in Hx. exists y, z. repeat (split; [assumption||reflexivity|]). revert C. apply padded_mono; [apply Hx|exact H]. Qed.
Lemma derived_mono : forall s v x, fields_all (fun f => vs (f_ty f)) s = true -> ok x -> derived_form E rec s v x -> derived_form E' rec' s v x.
Proof.
  intros s v x S Hx (r & h & Hs & H). exists r, h. split; [exact Hs|]. revert H. apply (both_mono (e_ub E)); [exact Hx|auto|]. intros y Hy. unfold fields_all in S.
  destruct (s_body s) as [fs|vl].
  - intros (l & -> & H). exists l. split; [reflexivity|]. destruct (h_opt h); [|apply content_mono; assumption].
    revert H. apply sized_mono; [exact Hy|]. intros z Hz. apply (both_mono (e_ub E)); [exact Hz|auto|]. intros w Hw. apply content_mono; assumption.
  - intros (ds & vr & l & Hd & Hv & H). exists ds, vr, l. split; [exact Hd|]. split; [exact Hv|].
    assert (SV : forall d, In (vr, d) ds -> forallb (fun f => vs (f_ty f)) (v_fields vr) = true).
    { intros d Hin. rewrite forallb_forall in S. apply S. apply (in_map fst) in Hin. rewrite (calc_disc_fst _ _ _ Hd) in Hin. apply filter_In in Hin. apply Hin. }
    destruct (h_opt h).
    + destruct H as (tag & sz & H1 & H2 & H3 & H). exists tag, sz. repeat (split; [assumption|]). specialize (SV _ H2). revert H. apply (both_mono (e_ub E)); [exact Hy|auto|]. intros z Hz.
      assert (K : forall u, ok u -> opt_fields_form E rec r (v_fields vr) l u -> opt_fields_form E' rec' r (v_fields vr) l u).
      { intros u Hu [A B]. split; [|exact B]. revert A. apply (items_mono (e_ub E)); [exact Hu|]. intros [f a] q Hin Hq. cbn [fst snd]. apply form_mono; [|exact Hq].
        apply in_combine_l in Hin. apply filter_In in Hin. rewrite forallb_forall in SV. apply (SV f), Hin. }
      unfold payload_form. destruct sz.
      * intros [-> A]. split; [reflexivity|]. apply K; assumption.
      * intros [A B]. split; [exact A|]. revert B. apply padded_mono; assumption.
      * apply sized_mono; assumption.
    + destruct H as (k & H2 & H). exists k. split; [exact H2|]. specialize (SV _ H2). revert H. apply (both_mono (e_ub E)); [exact Hy|auto|]. intros z Hz. apply content_mono; assumption.
Qed.
End Form2.
Lemma ref_mono : forall E b, env_all (fun f => vectors_same (e_fw E) (f_ty f)) E -> forall d n v x, okb (e_ub E) x -> form_ref E d n v x -> form_ref (with_specialised b E) d n v x.
Proof.
  intros E b S. induction d as [|d IH]; intros n v x Hx H; cbn [form_ref] in *; [contradiction|]. destruct H as (s & Hs & H). exists s. split; [exact Hs|].
  revert H. apply derived_mono; [exact IH|exact (S n s Hs)|exact Hx].
Qed.
Lemma form_feature : forall E b d t v x, env_all (fun f => vectors_same (e_fw E) (f_ty f)) E -> vectors_same (e_fw E) t = true -> okb (e_ub E) x ->
  (form (with_specialised b E) d t v x <-> form E d t v x).
Proof.
  intros E b d t v x S St Hx. split.
  - assert (K : with_specialised (e_spec E) (with_specialised b E) = E) by (destruct E; reflexivity).
    intros H. rewrite <- K. revert H. apply (form_mono (with_specialised b E)); [apply ref_mono; exact S|exact St|exact Hx].
  - apply form_mono; [apply ref_mono; exact S|exact St|exact Hx].
Qed.
