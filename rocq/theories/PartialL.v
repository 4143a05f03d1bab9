(** Reading what a failed serialisation left behind.  Proofs. *)

From Verif Require Import Base BaseL Prog ProgL Prim PrimL Utf8 Utf8L Tag Ty Ser De Typed Mig SortL DiscL RtL RtTy RtDer RtSch RtId Parts SerL EofL Partial.
From Coq Require Import List NArith ZArith Bool Lia ZifyBool Permutation Sorted.
Import ListNotations.
Open Scope N_scope.

(** ** Forgetting the write calls of failed runs *)
Definition collapse (w : pw) : ser := match snd w with Ok _ => Ok (fst w) | Err e => Err e | Panic x => Panic x end.

Lemma collapse_pdo : forall s, collapse (pdo s) = s.
Proof. intros [l|e|x]; reflexivity. Qed.
Lemma collapse_then : forall a b, collapse (a >>> b) = collapse a +++ collapse b.
Proof. intros [la [ua|e|x]] [lb [ub|e'|x']]; reflexivity. Qed.
Lemma collapse_concat : forall l, collapse (pconcat l) = sconcat (map collapse l).
Proof. induction l as [|w l IH]; [reflexivity|]. cbn [map]. rewrite sconcat_cons, <- IH. apply collapse_then. Qed.
Lemma collapse_map : forall X (pf : X -> pw) (sf : X -> ser) l, (forall x, collapse (pf x) = sf x) ->
  collapse (pconcat (map pf l)) = sconcat (map sf l).
Proof. intros X pf sf l H. rewrite collapse_concat, map_map. f_equal. apply map_ext. exact H. Qed.
Lemma collapse_bulk : forall E k l, collapse (pw_bulk E k l) = ser_bulk E k l.
Proof. intros E k l. unfold pw_bulk, ser_bulk. cbv zeta. rewrite collapse_then, collapse_pdo. destruct (len l =? 0); [reflexivity|]. rewrite collapse_pdo. reflexivity. Qed.
Lemma pw_done : forall w l, collapse w = Ok l -> w = (l, Ok tt).
Proof. intros [a [[]|e|x]] l H; unfold collapse in H; cbn [fst snd] in H; try discriminate. apply Ok_inj in H. subst. reflexivity. Qed.

Section Coll.
Variables (E : env) (rec : N -> val -> pw) (srec : N -> val -> ser).
Hypothesis Hrec : forall n v, collapse (rec n v) = srec n v.
Lemma collapse_ty : forall t v, collapse (pw_ty E rec srec t v) = ser_ty E srec t v.
Proof.
  induction t as [|i| | | | | | | | | |a IHa b IHb|t IH|t IH|n t IH|t IH|a IHa b IHb|t IH|k a IHa b IHb|k t IH|t IH|t IH| | |c m t IH|n];
    intros v; cbn [pw_ty ser_ty]; try (destruct v; reflexivity || apply collapse_pdo).
  - destruct v; try reflexivity. rewrite collapse_then, IHa, IHb. reflexivity.
  - destruct v; try reflexivity. destruct (if e_spec E then bulk_of t else None); [apply collapse_bulk|].
    rewrite collapse_then, (collapse_map _ _ (ser_ty E srec t)) by exact IH. reflexivity.
  - destruct v; try reflexivity. rewrite collapse_then, (collapse_map _ _ (ser_ty E srec t)) by exact IH. reflexivity.
  - destruct v; try reflexivity. destruct (Nat.eqb (length l) n); [|reflexivity]. apply collapse_map, IH.
  - destruct v as [| | | | | |k l]; try reflexivity. destruct k as [|[p|p|]]; destruct l as [|x [|y l]]; try reflexivity.
    rewrite collapse_then, IH. reflexivity.
  - destruct v as [| | | | | |k l]; try reflexivity. destruct k as [|[p|p|]]; destruct l as [|x [|y l]]; try reflexivity;
    rewrite collapse_then, ?IHa, ?IHb; reflexivity.
  - destruct v as [| | | | | |k l]; try reflexivity. destruct k as [|[p|[p|p|]|]]; destruct l as [|x [|y l]]; try reflexivity;
    rewrite collapse_then, IH; reflexivity.
  - destruct v; try reflexivity. rewrite collapse_then, (collapse_map _ _ (ser_entry (ser_ty E srec a) (ser_ty E srec b))); [reflexivity|].
    intros p. destruct p; try reflexivity. cbn [pw_entry ser_entry]. rewrite collapse_then, IHa, IHb. reflexivity.
  - destruct v; try reflexivity. rewrite collapse_then, (collapse_map _ _ (ser_ty E srec t)) by exact IH. reflexivity.
  - destruct v; try reflexivity. rewrite collapse_then, (collapse_map _ _ (ser_ty E srec t)) by exact IH. reflexivity.
  - destruct v; apply IH.
  - destruct v; apply IH.
  - destruct v; apply Hrec.
Qed.
Lemma collapse_mode : forall m t v, collapse (pw_mode E rec srec m t v) = ser_mode E srec m t v.
Proof.
  intros m t v. destruct m; cbn [pw_mode ser_mode]; try apply collapse_pdo.
  - apply collapse_ty.
  - destruct t; try apply collapse_pdo. destruct v; try apply collapse_pdo. destruct (bulk_of t); [apply collapse_bulk|reflexivity].
Qed.
(** The fields as (type, mode) pairs. *)
Fixpoint pw_wire (ws : list (ty * fmode)) (vs : list val) : list pw :=
  match ws, vs with
  | [], [] => []
  | w :: ws', v :: vs' => pw_mode E rec srec (snd w) (fst w) v :: pw_wire ws' vs'
  | _, _ => [pdo ty_err]
  end.
Lemma pw_fields_wire : forall r fs vs, pw_fields E rec srec r fs vs = pw_wire (wire_fields false r fs) vs.
Proof.
  intros r. induction fs as [|f fs IH]; intros vs; cbn [pw_fields].
  - destruct vs; reflexivity.
  - unfold wire_fields in *. cbn [filter]. destruct (falive r f); cbn [map pw_wire]; [|apply IH].
    destruct vs as [|v vs]; [reflexivity|]. cbn [fst snd wire_field]. rewrite IH. reflexivity.
Qed.
Lemma collapse_fields : forall r fs vs, map collapse (pw_fields E rec srec r fs vs) = ser_fields E srec false r fs vs.
Proof.
  intros r. induction fs as [|f fs IH]; intros vs; cbn [pw_fields ser_fields].
  - destruct vs; reflexivity.
  - destruct (falive r f); [|apply IH]. destruct vs as [|v vs]; [reflexivity|]. cbn [map]. rewrite collapse_mode, IH. reflexivity.
Qed.
Lemma collapse_derived : forall s v, collapse (pw_derived E rec srec s v) = ser_derived E srec s v.
Proof.
  intros s v. unfold pw_derived, ser_derived. destruct (sent s (scur s)) as [h|]; [|reflexivity].
  rewrite collapse_then, collapse_pdo. f_equal. destruct (s_body s) as [fs|vs].
  - unfold pw_struct, ser_struct. destruct v; try reflexivity. destruct (h_opt h); [apply collapse_pdo|].
    rewrite collapse_concat, collapse_fields. reflexivity.
  - unfold pw_enum, ser_enum. destruct v as [| | | | | |k l]; try reflexivity. destruct (calc_disc (scur s) vs) as [ds|]; [|reflexivity].
    destruct (find_name k ds) as [[vr dd]|]; [|reflexivity]. destruct (h_opt h).
    + unfold pw_variant_opt, ser_variant_opt. destruct (v_size vr) as [[|n|]|]; [apply collapse_pdo| | |reflexivity];
      rewrite collapse_then, !collapse_pdo; reflexivity.
    + rewrite collapse_then, collapse_pdo, collapse_concat, collapse_fields. reflexivity.
Qed.
End Coll.
Lemma collapse_ref : forall E d n v, collapse (pw_ref E d n v) = ser_ref E d n v.
Proof.
  intros E. induction d as [|d IH]; intros n v; cbn [pw_ref ser_ref]; [reflexivity|].
  destruct (e_sch E n) as [s|]; [|reflexivity]. apply collapse_derived, IH.
Qed.
Lemma collapse_writes : forall E d t v, collapse (writes E d t v) = to_writer E d t v.
Proof. intros E d t v. apply collapse_ty, collapse_ref. Qed.

(** ** Outcomes *)
Section Bad.
Variables (Pe : err -> Prop) (Pp : pan -> Prop).
Hypothesis PIo : Pe EIo.
Definition fine {A} (r : res A) : Prop := match r with Ok _ => True | Err e => Pe e | Panic x => Pp x end.
Definition bad {A} (r : res A) : Prop := match r with Ok _ => False | Err e => Pe e | Panic x => Pp x end.
Definition pbad {A} (w : pw) (p : prog A) : Prop := match snd w with Ok _ => True | _ => bad (run p (out (fst w))) end.

Lemma bad_bind : forall A B (p : prog A) (k : A -> prog B) bs, bad (run p bs) -> bad (run (bind p k) bs).
Proof. intros A B p k bs H. rewrite run_bind. destruct (run p bs) as [[a r]|e|x]; [destruct H|exact H|exact H]. Qed.
Lemma bad_cut : forall A (p : prog A) q s, reads Pe p -> bad (run p (q ++ s)) -> bad (run p q).
Proof.
  intros A p q s H. revert q s. induction H as [a|e|x|n e k He Hk IH]; intros q s; cbn [run]; auto.
  destruct (split_at n q) as [[x' y']|] eqn:F; [|intros _; exact He].
  apply split_at_some in F. destruct F as [-> F]. rewrite <- app_assoc, (split_at_app_n _ n x' (y' ++ s)) by auto. apply IH.
Qed.
Lemma pb_ok : forall A w l (p : prog A), collapse w = Ok l -> pbad w p.
Proof. intros A w l p H. apply pw_done in H. subst w. exact I. Qed.
Lemma pb_bind : forall A B w (p : prog A) (k : A -> prog B), pbad w p -> pbad w (bind p k).
Proof. intros A B [l [u|e|x]] p k H; unfold pbad in *; cbn [fst snd] in *; auto; apply bad_bind, H. Qed.
Lemma pb_then : forall A B a b s (p : prog A) (k : A -> prog B) m, collapse a = s ->
  (forall ops rest, s = Ok ops -> run p (out ops ++ rest) = rmap (fun x => (x, rest)) m) -> (forall ops, s = Ok ops -> fine m) -> pbad a p ->
  (forall x, m = Ok x -> pbad b (k x)) -> pbad (a >>> b) (bind p k).
Proof.
  intros A B a b s p k m Ha Hr Hf Hp Hk. destruct a as [la [[]|e|x]].
  - unfold collapse in Ha. cbn [fst snd] in Ha. symmetry in Ha. unfold pbad, pthen. cbn [fst snd].
    specialize (Hf la Ha). unfold pbad in Hk.
    assert (G : forall Q, (forall x, m = Ok x -> match Q with Ok _ => True | _ => bad (run (k x) (out (fst b))) end) ->
                match Q : res unit with Ok _ => True | _ => bad (run (bind p k) (out (la ++ fst b))) end).
    { intros Q HQ. destruct Q; [exact I| |]; rewrite out_app, run_bind, (Hr la) by exact Ha; (destruct m as [y|e'|x']; [exact (HQ y eq_refl)|exact Hf|exact Hf]). }
    apply G, Hk.
  - apply (pb_bind _ _ (la, Err e)), Hp.
  - apply (pb_bind _ _ (la, Panic x)), Hp.
Qed.
Lemma pb_bytes : forall A B b bs (p : prog A) (k : A -> prog B) x, (forall rest, run p (bs ++ rest) = Ok (x, rest)) -> pbad b (k x) ->
  pbad (pdo (sall bs) >>> b) (bind p k).
Proof.
  intros A B b bs p k x Hr Hk. apply (pb_then _ _ _ _ (sall bs) p k (Ok x)); [reflexivity| | |exact I|].
  - intros ops rest Ho. apply Ok_inj in Ho. subst ops. unfold out. cbn [flat_map wop_bytes]. rewrite app_nil_r. apply Hr.
  - intros; exact I.
  - intros y Hy. apply Ok_inj in Hy. subst. exact Hk.
Qed.
Lemma pb_err : forall A s (p : prog A), bad (run p []) -> pbad (pdo s) p.
Proof. intros A [l|e|x] p H; unfold pbad; cbn; auto. Qed.
Lemma pb_of_res : forall A B w (r : res A) (k : A -> prog B), fine r -> (forall x, r = Ok x -> pbad w (k x)) -> pbad w (bind (of_res r) k).
Proof. intros A B [l [u|e|x]] [a|e'|x'] k Hf H; unfold pbad in *; cbn in *; auto. Qed.
Lemma bad_wrap : forall A (r : res A), Pe (EDeserialize MInner) -> bad r -> bad (rmap_err wrap_err r).
Proof. intros A [a|e|x] H Hr; cbn in *; auto. Qed.
Lemma pb_wrap : forall A w (p : prog A), Pe (EDeserialize MInner) -> pbad w p -> pbad w (map_err wrap_err p).
Proof. intros A [l [u|e|x]] p Hw H; unfold pbad in *; cbn [fst snd] in *; auto; rewrite run_map_err; apply bad_wrap; assumption. Qed.

Lemma pb_rep : forall A X (pf : X -> pw) (sf : X -> ser) (mf : X -> res A) (p : prog A) l,
  (forall x, In x l -> collapse (pf x) = sf x /\ rt (sf x) p (mf x) /\ (forall ops, sf x = Ok ops -> fine (mf x)) /\ pbad (pf x) p) ->
  pbad (pconcat (map pf l)) (rep (length l) p).
Proof.
  intros A X pf sf mf p. induction l as [|x l IH]; intros H; [exact I|]. cbn [map length rep pconcat fold_right]. fold (pconcat (map pf l)).
  destruct (H x (or_introl eq_refl)) as (H1 & H2 & H3 & H4). apply (pb_then _ _ _ _ (sf x) p _ (mf x)); [exact H1|exact H2|exact H3|exact H4|].
  intros y _. apply pb_bind, IH. intros; apply H; right; assumption.
Qed.

Lemma u64_nil : forall fw, bad (run (de_u64 fw) []).
Proof. intros []; exact PIo. Qed.
Lemma str_nil : forall E, bad (run (de_str E) []).
Proof. intros E. unfold de_str. apply bad_bind. unfold de_len, de_usize. apply bad_bind, u64_nil. Qed.

Section Pair.
Variables E E' : env.
Hypothesis Hfw : e_fw E' = e_fw E.
Hypothesis Hspec : e_spec E' = e_spec E.
Hypothesis Hub : e_ub E' = e_ub E.
Hypothesis W : wf_env E.
Hypothesis Hmem : e_mem E' = None.
Let Hub32 : e_ub E = 32 \/ e_ub E = 64 := we_ub _ W.
Let Hiter := we_iter _ W.
Hypothesis Htime : (e_time E < 2 ^ 64)%Z.
Variable ok : ty -> bool.
Hypothesis Hwrap : Pe (EDeserialize MInner) \/ (forall a b, ok (TResult a b) = false) /\ (forall a, ok (TBound a) = false).

Lemma pb_len : forall B b n (k : N -> prog B), n < 2 ^ e_ub E -> pbad b (k n) -> pbad (pdo (sall (ser_len E n)) >>> b) (bind (de_len E') k).
Proof. intros B b n k Hn H. apply (pb_bytes _ _ _ _ _ _ n); [|exact H]. intros rest. apply (run_len_prefix E E'); assumption. Qed.
Lemma pb_u32 : forall B b n (k : N -> prog B), n < 2 ^ 32 -> pbad b (k n) -> pbad (pdo (sall (ser_u32 (e_fw E) n)) >>> b) (bind (de_u32 (e_fw E')) k).
Proof. intros B b n k Hn H. apply (pb_bytes _ _ _ _ _ _ n); [|exact H]. intros rest. rewrite Hfw. apply rt_u32. exact Hn. Qed.
Lemma pb_seq : forall X A (pf : X -> pw) (sf : X -> ser) (mf : X -> res val) (p : prog val) (l : list A) (l' : list X) sz,
  len l < 2 ^ e_ub E -> length l' = length l ->
  (forall x, In x l' -> collapse (pf x) = sf x /\ rt (sf x) p (mf x) /\ (forall ops, sf x = Ok ops -> fine (mf x)) /\ pbad (pf x) p) ->
  pbad (pdo (sall (ser_len E (len l))) >>> pconcat (map pf l')) (de_seq E' sz p).
Proof.
  intros X A pf sf mf p l l' sz Hl Hlen H. unfold de_seq. apply pb_len; [exact Hl|].
  destruct (len l =? 0) eqn:E0.
  - apply N.eqb_eq, len_0 in E0. subst l. destruct l'; [|discriminate]. exact I.
  - rewrite run_alloc_none by assumption. cbn [bind]. rewrite len_to_nat, <- Hlen. apply (pb_rep _ _ pf sf mf). exact H.
Qed.
Lemma bulk_done : forall recW t k l A (p : prog A), bulk_of t = Some k -> len l < 2 ^ e_ub E -> vec_fits E t (len l) -> Forall (wt_ty E recW t) l -> pbad (pw_bulk E k l) p.
Proof.
  intros recW t k l A p Hk Hl Hf Hw.
  assert (H : rspec (Forall (fun _ : wop => True)) (fun _ => False) (fun _ => False) (ser_bulk E k l)).
  { eapply sspec_bulk; eauto. }
  destruct (ser_bulk E k l) as [o|e|x] eqn:Es; [|destruct H|destruct H]. apply (pb_ok _ _ o). rewrite collapse_bulk. exact Es.
Qed.

Section Rec.
Variables (recP : N -> val -> pw) (recS : N -> val -> ser) (recD : N -> prog val) (recM : N -> val -> res val) (recW : N -> val -> Prop).
Hypothesis Hcol : forall n v, collapse (recP n v) = recS n v.
Hypothesis Hrec : forall n v, recW n v -> rt (recS n v) (recD n) (recM n v).
Hypothesis Hbad : forall n v, ok (TRef n) = true -> recW n v -> pbad (recP n v) (recD n).
Hypothesis Hreads : forall n, ok (TRef n) = true -> reads Pe (recD n).
Let se := ser_ty E recS.
Let mg := mig_ty E E' recM.
Hypothesis Hfine : forall t v ops, wt_ty E recW t v -> se t v = Ok ops -> fine (mg t v).
Let RT := rt_ty E E' Hfw Hspec Hub Hub32 Hmem Hiter Htime recS recD recM recW Hrec.
Let RM := rt_mode E E' Hfw Hspec Hub Hub32 Hmem Hiter Htime recS recD recM recW Hrec.
Let C := collapse_ty E recP recS Hcol.
Let CM := collapse_mode E recP recS Hcol.

Lemma pw_ty_bad : forall t v, ty_all ok t = true -> wt_ty E recW t v -> pbad (pw_ty E recP recS t v) (de_ty E' recD t).
Proof.
  induction t as [|i| | | | | | | | | |a IHa b IHb|t IH|t IH|n t IH|t IH|a IHa b IHb|t IH|k a IHa b IHb|k t IH|t IH|t IH| | |c m t IH|n];
    intros v Ht Hw; cbn [ty_all] in Ht; apply andb_prop in Ht; destruct Ht as [Hh Ht];
    repeat match goal with H : _ && _ = true |- _ => apply andb_prop in H; destruct H end;
    try (cbn [pw_ty de_ty]; destruct v; cbn in Hw; try contradiction; exact I).
  - cbn [pw_ty de_ty]. destruct v; apply pb_err, str_nil.
  - destruct v; cbn in Hw; try contradiction. cbn [pw_ty de_ty].
    apply (pb_then _ _ _ _ (se a v1) _ _ (mg a v1)); [apply C|intros ops rest Ho; apply (RT a v1); tauto|intros ops Ho; eapply Hfine; [apply Hw|exact Ho]|apply IHa; tauto|].
    intros x _. apply pb_bind, IHb; tauto.
  - destruct v; cbn [wt_ty] in Hw; try contradiction. cbn [pw_ty de_ty]. destruct Hw as (H1 & H2 & H3). rewrite Hspec.
    destruct (if e_spec E then bulk_of t else None) as [k|] eqn:Ek.
    + apply pb_bind. eapply bulk_done; eauto. clear - Ek. destruct (e_spec E); [assumption|discriminate].
    + apply pb_bind. apply (pb_seq _ _ _ (se t) (mg t)); auto. intros x Hx. rewrite Forall_forall in H3. specialize (H3 x Hx).
      repeat split; [apply C|apply RT, H3|intros ops Ho; eapply Hfine; eauto|apply IH; assumption].
  - destruct v; cbn [wt_ty] in Hw; try contradiction. cbn [pw_ty de_ty]. destruct Hw as (H1 & H3).
    apply pb_bind. apply (pb_seq _ _ _ (se t) (mg t)); auto. intros x Hx. rewrite Forall_forall in H3. specialize (H3 x Hx).
    repeat split; [apply C|apply RT, H3|intros ops Ho; eapply Hfine; eauto|apply IH; assumption].
  - destruct v; cbn [wt_ty] in Hw; try contradiction. cbn [pw_ty de_ty]. destruct Hw as (H1 & H3). subst n. rewrite Nat.eqb_refl.
    apply pb_bind. apply (pb_rep _ _ _ (se t) (mg t)). intros x Hx. rewrite Forall_forall in H3. specialize (H3 x Hx).
    repeat split; [apply C|apply RT, H3|intros ops Ho; eapply Hfine; eauto|apply IH; assumption].
  - destruct v as [| | | | | |k l]; cbn [wt_ty] in Hw; try contradiction. cbn [pw_ty de_ty].
    destruct k as [|[p|p|]]; try contradiction; destruct l as [|x [|y l]]; try contradiction; [exact I|].
    apply (pb_bytes _ _ _ _ _ _ 1); [intros rest; apply run_read_byte_cons|].
    change (1 =? 0) with false. change (1 =? 1) with true. cbv iota. apply pb_bind, IH; assumption.
  - destruct Hwrap as [HW|[HW _]]; [|rewrite HW in Hh; discriminate].
    destruct v as [| | | | | |k l]; cbn [wt_ty] in Hw; try contradiction. cbn [pw_ty de_ty].
    destruct k as [|[p|p|]]; try contradiction; destruct l as [|x [|y l]]; try contradiction.
    + apply (pb_u32 _ _ 0); [reflexivity|]. change (0 =? 0) with true. cbv iota. apply pb_bind, pb_wrap; [exact HW|apply IHa; assumption].
    + apply (pb_u32 _ _ 1); [reflexivity|]. change (1 =? 0) with false. change (1 =? 1) with true. cbv iota. apply pb_bind, pb_wrap; [exact HW|apply IHb; assumption].
  - destruct Hwrap as [HW|[_ HW]]; [|rewrite HW in Hh; discriminate].
    destruct v as [| | | | | |k l]; cbn [wt_ty] in Hw; try contradiction. cbn [pw_ty de_ty].
    destruct k as [|[p|[p|p|]|]]; try contradiction; destruct l as [|x [|y l]]; try contradiction; [exact I| |].
    + apply (pb_u32 _ _ 2); [reflexivity|]. change (2 =? 0) with false. change (2 =? 1) with false. change (2 =? 2) with true. cbv iota.
      apply pb_bind, pb_wrap; [exact HW|apply IH; assumption].
    + apply (pb_u32 _ _ 1); [reflexivity|]. change (1 =? 0) with false. change (1 =? 1) with true. cbv iota. apply pb_bind, pb_wrap; [exact HW|apply IH; assumption].
  - destruct v; cbn [wt_ty] in Hw; try contradiction. cbn [pw_ty de_ty]. destruct Hw as (H1 & H2 & _).
    apply pb_bind. apply (pb_seq _ _ _ (ser_entry (se a) (se b)) (mig_entry (mg a) (mg b))); [assumption|apply (citer_len E Hiter)|].
    intros p Hp. apply (Permutation_in _ (citer_perm E Hiter _ _ _)) in Hp. rewrite Forall_forall in H2.
    specialize (H2 p Hp). destruct p as [| | | |x y| |]; try contradiction. destruct H2 as [Hx Hy].
    cbn [pw_entry ser_entry mig_entry]. unfold de_entry. repeat split.
    + rewrite collapse_then, !C. reflexivity.
    + apply rt_bind; [apply RT, Hx|]. intros z _. apply rt_map. apply RT, Hy.
    + intros ops Ho. apply sbind_ok in Ho. destruct Ho as (la & lb & Ha & Hb & _).
      pose proof (Hfine a x la Hx Ha) as F1. pose proof (Hfine b y lb Hy Hb) as F2. unfold mg in *.
      destruct (mig_ty E E' recM a x); cbn; auto. destruct (mig_ty E E' recM b y); cbn; auto.
    + apply (pb_then _ _ _ _ (se a x) _ _ (mg a x)); [apply C|intros ops rest Ho; apply (RT a x); assumption|intros ops Ho; eapply Hfine; eauto|apply IHa; assumption|].
      intros z _. apply pb_bind, IHb; assumption.
  - destruct v; cbn [wt_ty] in Hw; try contradiction. cbn [pw_ty de_ty]. destruct Hw as (H1 & H2 & _).
    apply pb_bind. apply (pb_seq _ _ _ (se t) (mg t)); [assumption|apply (citer_len E Hiter)|].
    intros x Hx. apply (Permutation_in _ (citer_perm E Hiter _ _ _)) in Hx. rewrite Forall_forall in H2. specialize (H2 x Hx).
    repeat split; [apply C|apply RT, H2|intros ops Ho; eapply Hfine; eauto|apply IH; assumption].
  - destruct v; cbn [wt_ty] in Hw; try contradiction. cbn [pw_ty de_ty]. destruct Hw as (H1 & H2 & _).
    apply pb_bind. apply (pb_seq _ _ _ (se t) (mg t)); [assumption|apply Permutation_length, Hiter|].
    intros x Hx. apply (Permutation_in _ (Hiter _ _)) in Hx. rewrite Forall_forall in H2. specialize (H2 x Hx).
    repeat split; [apply C|apply RT, H2|intros ops Ho; eapply Hfine; eauto|apply IH; assumption].
  - cbn [de_ty]. destruct v; apply IH; assumption.
  - cbn [pw_ty de_ty]. destruct v as [| | | |x y| |]; cbn in Hw; try contradiction. destruct x, y; try contradiction. exact I.
  - cbn [pw_ty de_ty]. destruct v as [| | | |x y| |]; cbn in Hw; try contradiction. destruct x, y; try contradiction.
    cbn [ser_ty]. destruct (z <? 0)%Z; [|exact I]. unfold pbad. cbn [pdo fst snd out flat_map]. apply bad_bind.
    cbn [de_int]. apply bad_bind, u64_nil.
  - cbn [de_ty]. assert (Hx : wt_ty E recW t v) by (destruct v; cbn in Hw; tauto). specialize (IH v Ht Hx).
    destruct v; apply pb_bind; exact IH.
  - cbn [de_ty]. destruct v; apply Hbad; auto.
Qed.

Lemma mode_fine : forall f v ops, wt_ty E recW (f_ty f) v -> ser_mode E recS (mode_of false f) (f_ty f) v = Ok ops ->
  fine (mig_mode E E' recM se (mode_of false f) (f_ty f) v).
Proof.
  intros f v ops Hw Hs.
  assert (Em : mig_mode E E' recM se (mode_of false f) (f_ty f) v = mg (f_ty f) v).
  { cbn [mode_of]. unfold mode_legacy. destruct (f_fixed f); [|destruct (f_spec f)]; destruct (f_ty f), v; reflexivity. }
  rewrite Em. cbn [mode_of] in Hs. unfold mode_legacy in Hs. destruct (f_fixed f); [|destruct (f_spec f)].
  - destruct v; try (destruct (f_ty f); discriminate). destruct (f_ty f) as [|[]| | | | | | | | | | | | | | | | | | | | | | | |]; try discriminate; exact I.
  - destruct (f_ty f) as [| | | | | | | | | | | |t| | | | | | | | | | | | |]; try (destruct v; discriminate). destruct v; try discriminate.
    cbn [ser_mode] in Hs. destruct (bulk_of t) as [k|] eqn:Ek; [|discriminate]. destruct Hw as (_ & _ & Hf). unfold mg. cbn [mig_ty].
    assert (G : exists l', rmapM (mig_ty E E' recM t) l = Ok l').
    { clear - Ek Hf. induction Hf as [|x l Hx Hl [l' IH]]; [eexists; reflexivity|]. cbn [rmapM]. rewrite IH.
      assert (exists y, mig_ty E E' recM t x = Ok y) as [y ->]; [|eexists; reflexivity].
      destruct t as [|[]| | | | | | | | | | | | | | | | | | | | | | | |]; cbn in Ek; try discriminate; destruct x; cbn in Hx; try contradiction; eexists; reflexivity. }
    destruct G as [l' ->]. exact I.
  - cbn [ser_mode] in Hs. eapply Hfine; eauto.
Qed.
Lemma pw_mode_bad : forall f v, field_ok f = true -> ty_all ok (f_ty f) = true -> wt_ty E recW (f_ty f) v ->
  pbad (pw_mode E recP recS (mode_of false f) (f_ty f) v) (de_mode E' recD (mode_of false f) (f_ty f)).
Proof.
  intros f v Hf Ht Hw. unfold field_ok in Hf. apply andb_prop in Hf. destruct Hf as [Hf _]. cbn [mode_of]. unfold mode_legacy in *.
  destruct (f_fixed f); [|destruct (f_spec f)].
  - cbn [mode_ok] in Hf. cbn [pw_mode de_mode].
    assert (exists s w, fixed_of (f_ty f) = Some (s, w)) as (s & w & Ef).
    { destruct (fixed_of (f_ty f)) as [[s w]|] eqn:Ef; [eauto|]. exfalso. destruct (f_ty f); cbn in Hf, Ef; try discriminate; rewrite Ef in Hf; discriminate. }
    destruct (fixed_of_wt _ _ _ _ _ _ Ef Hw) as (z & -> & _). destruct (f_ty f); cbn [ser_mode]; rewrite Ef; exact I.
  - cbn [mode_ok] in Hf. destruct (f_ty f) as [| | | | | | | | | | | |t| | | | | | | | | | | | |]; try discriminate. destruct v; cbn [wt_ty] in Hw; try contradiction.
    cbn [pw_mode de_mode]. destruct (bulk_of t) as [k|] eqn:Ek; [|discriminate]. destruct Hw as (H1 & H2 & H3). eapply bulk_done; eauto.
  - apply pw_ty_bad; assumption.
Qed.

Lemma pf_fields : forall cur tgt fs vs, forallb field_ok fs = true -> forallb (fun f => ty_all ok (f_ty f)) fs = true ->
  (forall f, In f fs -> falive cur f = false -> falive tgt f = true -> fine (f_default f cur)) ->
  Forall2 (wtw E recW) (wire_fields false cur fs) vs ->
  pbad (pconcat (pw_wire E recP recS (wire_fields false cur fs) vs)) (de_fields E' recD false cur tgt fs).
Proof.
  intros cur tgt. induction fs as [|f fs IH]; intros vs Hf Ho Hd Hw; cbn [de_fields].
  - inversion Hw; subst. exact I.
  - cbn [forallb] in Hf, Ho. apply andb_prop in Hf. destruct Hf as [Hf1 Hf]. apply andb_prop in Ho. destruct Ho as [Ho1 Ho].
    assert (Hd' : forall f, In f fs -> falive cur f = false -> falive tgt f = true -> fine (f_default f cur)) by (intros; apply Hd; auto; right; assumption).
    unfold wire_fields in *. cbn [filter] in *. destruct (falive cur f) eqn:Ec.
    + cbn [map] in *. inversion Hw as [|? v ? vs' Hv Hvs]; subst. cbn [pw_wire wire_field fst snd pconcat fold_right].
      fold (pconcat (pw_wire E recP recS (map (wire_field false) (filter (falive cur) fs)) vs')).
      specialize (IH vs' Hf Ho Hd' Hvs).
      assert (G : forall B (k : val -> prog B), (forall x, pbad (pconcat (pw_wire E recP recS (map (wire_field false) (filter (falive cur) fs)) vs')) (k x)) ->
        pbad (pw_mode E recP recS (mode_of false f) (f_ty f) v >>> pconcat (pw_wire E recP recS (map (wire_field false) (filter (falive cur) fs)) vs'))
          (bind (de_mode E' recD (mode_of false f) (f_ty f)) k)).
      { intros B k Hk. apply (pb_then _ _ _ _ (ser_mode E recS (mode_of false f) (f_ty f) v) _ _ (mig_mode E E' recM se (mode_of false f) (f_ty f) v)).
        - apply CM.
        - intros ops rest Hops. apply RM; [exact Hv|exact Hops|]. intros Hi. exfalso. unfold mode_of, mode_legacy in Hi. destruct (f_fixed f), (f_spec f); discriminate.
        - intros ops Hops. eapply mode_fine; eauto.
        - apply pw_mode_bad; assumption.
        - intros x _. apply Hk. }
      destruct (falive tgt f); [|change (mode_removed false f) with (mode_of false f)]; apply G; intros x; apply pb_bind, IH.
    + specialize (IH vs Hf Ho Hd' Hw). destruct (falive tgt f) eqn:Et; [|exact IH].
      apply pb_of_res; [apply Hd; auto; left; reflexivity|]. intros x _. apply pb_bind, IH.
Qed.

(** Variant fields of optimised enums: nothing of them reaches the writer. *)
Notation vwire cur fs := (map (fun f => (f_ty f, MPlain)) (filter (falive cur) fs)).
Lemma vfields_done : forall cur fs vs bs, Forall2 (wtw E recW) (vwire cur fs) vs ->
  rmapM ser_bytes (ser_wire E recS (vwire cur fs) vs) = Ok bs ->
  exists r, fine r /\ forall rest, run (de_vfields E' recD cur fs) (concat bs ++ rest) = rmap (fun p => (p, rest)) r.
Proof.
  intros cur. induction fs as [|f fs IH]; intros vs bs Hw Hs; cbn [de_vfields].
  - inversion Hw; subst. inversion Hs; subst. exists (Ok []). split; [exact I|reflexivity].
  - cbn [filter] in *. destruct (falive cur f) eqn:Ec; [|apply (IH vs); assumption].
    cbn [map] in *. inversion Hw as [|? v ? vs' Hv Hvs]; subst. cbn [ser_wire rmapM fst snd ser_mode] in Hs.
    apply rbind_ok in Hs. destruct Hs as (b & Hb & Hs). apply rbind_ok in Hs. destruct Hs as (bs' & Hbs & Hs).
    apply Ok_inj in Hs. subst bs. destruct (IH vs' bs' Hvs Hbs) as (r & Hr1 & Hr2).
    assert (F : fine (mg (f_ty f) v)). { destruct (ser_bytes_ok _ _ Hb) as (ops & Ho & _). eapply Hfine; eauto. }
    exists (rbind (mg (f_ty f) v) (fun a => rbind r (fun l => Ok (a :: l)))). split.
    + destruct (mg (f_ty f) v); cbn; auto. destruct r; cbn; auto.
    + intros rest. cbn [concat]. rewrite <- app_assoc, run_bind, (rt_bytes _ _ _ _ _ _ (RT (f_ty f) v Hv) Hb). fold (mg (f_ty f) v).
      destruct (mg (f_ty f) v) as [a|e|x]; cbn [rmap rbind]; try reflexivity. rewrite run_bind, Hr2. destruct r; reflexivity.
Qed.
Lemma vfields_bad : forall cur fs vs, forallb (fun f => ty_all ok (f_ty f)) fs = true -> Forall2 (wtw E recW) (vwire cur fs) vs ->
  (forall bs, rmapM ser_bytes (ser_wire E recS (vwire cur fs) vs) <> Ok bs) ->
  exists q, bad (run (de_vfields E' recD cur fs) q).
Proof.
  intros cur. induction fs as [|f fs IH]; intros vs Ho Hw Hs; cbn [de_vfields].
  - inversion Hw; subst. exfalso. eapply Hs. reflexivity.
  - cbn [forallb] in Ho. apply andb_prop in Ho. destruct Ho as [Ho1 Ho].
    cbn [filter] in *. destruct (falive cur f) eqn:Ec; [|apply (IH vs); assumption].
    cbn [map] in *. inversion Hw as [|? v ? vs' Hv Hvs]; subst. cbn [ser_wire rmapM fst snd ser_mode] in Hs. unfold wtw in Hv. cbn [fst] in Hv.
    pose proof (pw_ty_bad (f_ty f) v Ho1 Hv) as B. pose proof (C (f_ty f) v) as Hc.
    destruct (ser_ty E recS (f_ty f) v) as [ops|e|x] eqn:Es.
    + destruct (IH vs' Ho Hvs) as (q & Hq).
      { intros bs Hbs. rewrite Hbs in Hs. cbn in Hs. eapply Hs. reflexivity. }
      exists (out ops ++ q). rewrite run_bind, (RT (f_ty f) v Hv ops q Es). pose proof (Hfine _ _ _ Hv Es) as F. unfold mg in F.
      destruct (mig_ty E E' recM (f_ty f) v); cbn [rmap]; [apply bad_bind, Hq|exact F|exact F].
    + exists (out (fst (pw_ty E recP recS (f_ty f) v))). apply bad_bind. unfold pbad in B. unfold collapse in Hc. destruct (snd (pw_ty E recP recS (f_ty f) v)); [discriminate|exact B|exact B].
    + exists (out (fst (pw_ty E recP recS (f_ty f) v))). apply bad_bind. unfold pbad in B. unfold collapse in Hc. destruct (snd (pw_ty E recP recS (f_ty f) v)); [discriminate|exact B|exact B].
Qed.
Lemma reads_vfields : forall cur fs, forallb (fun f => ty_all ok (f_ty f)) fs = true -> reads Pe (de_vfields E' recD cur fs).
Proof.
  intros cur. induction fs as [|f fs IH]; cbn [de_vfields forallb]; intros H; [constructor|]. apply andb_prop in H. destruct H as [H1 H2].
  destruct (falive cur f); [|auto]. apply reads_bind; [apply (reads_ty Pe PIo E' recD ok Hwrap Hreads); exact H1|].
  intros a. apply reads_bind; [auto|]. intros; constructor.
Qed.
(** The payload of a [size = "fixed(0)"] variant that could not be written. *)
Lemma payload_nil : forall cur fs vs, forallb (fun f => ty_all ok (f_ty f)) fs = true -> Forall2 (wtw E recW) (vwire cur fs) vs ->
  (forall bs, rmapM ser_bytes (ser_wire E recS (vwire cur fs) vs) = Ok bs -> concat bs <> []) ->
  bad (run (de_vfields E' recD cur fs) []).
Proof.
  intros cur fs vs Ho Hw Hs. pose proof (reads_vfields cur fs Ho) as R.
  destruct (rmapM ser_bytes (ser_wire E recS (vwire cur fs) vs)) as [bs|e|x] eqn:Eb.
  - destruct (vfields_done cur fs vs bs Hw Eb) as (r & F & Hr). specialize (Hr []). rewrite app_nil_r in Hr. specialize (Hs bs eq_refl).
    destruct r as [l|e|x]; cbn [rmap] in Hr.
    + destruct (reads_prefix Pe _ _ R _ _ [] (concat bs) Hr eq_refl Hs) as (e & -> & He). exact He.
    + apply (bad_cut _ _ [] (concat bs) R). cbn [app]. rewrite Hr. exact F.
    + apply (bad_cut _ _ [] (concat bs) R). cbn [app]. rewrite Hr. exact F.
  - destruct (vfields_bad cur fs vs Ho Hw) as (q & Hq); [rewrite Eb; discriminate|]. apply (bad_cut _ _ [] q R Hq).
  - destruct (vfields_bad cur fs vs Ho Hw) as (q & Hq); [rewrite Eb; discriminate|]. apply (bad_cut _ _ [] q R Hq).
Qed.

Lemma pf_struct : forall h cur tgt fs fs' v, wire_fields (h_opt h) cur fs = wire_fields (h_opt h) cur fs' ->
  forallb field_ok fs' = true -> forallb (fun f => ty_all ok (f_ty f)) fs' = true ->
  (forall f, In f fs' -> falive cur f = false -> falive tgt f = true -> fine (f_default f cur)) ->
  match v with VSeq vs => wt_fields E recW cur fs vs | _ => False end ->
  pbad (pw_struct E recP recS h cur fs v) (if h_opt h then de_struct_opt E' recD (h_idx h) cur tgt fs' else de_struct_legacy E' recD cur tgt fs').
Proof.
  intros h cur tgt fs fs' v Hwire Hf Ho Hd Hw. destruct v as [| | | | |vs|]; try contradiction. cbn [pw_struct]. destruct (h_opt h).
  - apply pb_err. unfold de_struct_opt. apply bad_bind. exact PIo.
  - unfold de_struct_legacy. apply pb_bind. rewrite pw_fields_wire, Hwire. apply pf_fields; auto.
    rewrite <- Hwire. unfold wire_fields. unfold wt_fields in Hw. clear - Hw. induction Hw; cbn; constructor; assumption.
Qed.

Lemma pf_enum : forall h cur tgt vs vs' v,
  same_wire (h_opt h) cur (SEnum vs) (SEnum vs') ->
  NoDup (map v_name vs) -> NoDup (map v_name vs') -> rev_ok cur vs cur h ->
  (forall vr, In vr vs' -> forallb field_ok (v_fields vr) = true /\ forallb (fun f => ty_all ok (f_ty f)) (v_fields vr) = true) ->
  (forall f vr, In vr vs' -> In f (v_fields vr) -> falive cur f = false -> falive tgt f = true -> fine (f_default f cur)) ->
  match v with VVar k l => exists vr, In vr vs /\ v_name vr = k /\ valive cur vr = true /\ wt_fields E recW cur (v_fields vr) l | _ => False end ->
  pbad (pw_enum E recP recS h cur vs v) (if h_opt h then de_enum_opt E' recD cur tgt vs' else de_enum_legacy E' recD cur tgt vs').
Proof.
  intros h cur tgt vs vs' v (ds & ds' & Hds & Hds' & Hwire) Hnn Hnn' Hrev Hok Hd Hv. destruct v as [| | | | | |k l]; try contradiction.
  destruct Hv as (vr0 & Hin0 & Hk0 & Hal0 & Hw). cbn [pw_enum]. rewrite Hds.
  destruct Hrev as (ds0 & Hds0 & Hd32 & Hopt). rewrite Hds in Hds0. inversion Hds0; subst ds0. clear Hds0.
  assert (Hf0 : exists d, find_name k ds = Some (vr0, d)).
  { assert (In vr0 (map fst ds)) as Hi by (rewrite (calc_disc_fst _ _ _ Hds); apply filter_In; auto).
    apply in_map_iff in Hi. destruct Hi as ([vr1 d] & Hi1 & Hi2). cbn in Hi1. subst vr1. unfold find_name.
    destruct (find (fun p => v_name (fst p) =? k) ds) as [[vr d']|] eqn:Ef.
    - apply find_some in Ef. destruct Ef as [Hin Hk]. cbn [fst] in Hk. apply N.eqb_eq in Hk.
      assert (In vr vs). { assert (In vr (map fst ds)) as H by (apply in_map_iff; exists (vr, d'); auto). rewrite (calc_disc_fst _ _ _ Hds) in H. apply filter_In in H. tauto. }
      assert (vr = vr0) by (eapply NoDup_map_inj; [exact Hnn|assumption|assumption|congruence]). subst. eauto.
    - exfalso. apply (find_none _ _ Ef) in Hi2. cbn [fst] in Hi2. rewrite Hk0, N.eqb_refl in Hi2. discriminate. }
  destruct Hf0 as (d & Ef). rewrite Ef. apply find_some in Ef. destruct Ef as [Hin _].
  assert (Hmatch : exists vr', In (vr', d) ds' /\ In vr' vs' /\ wire_variant (h_opt h) cur (vr0, d) = wire_variant (h_opt h) cur (vr', d)).
  { assert (Hi : In (wire_variant (h_opt h) cur (vr0, d)) (map (wire_variant (h_opt h) cur) ds')).
    { rewrite <- Hwire. apply in_map. assumption. }
    apply in_map_iff in Hi. destruct Hi as ([vr' d'] & Hi1 & Hi2).
    assert (d' = d). { unfold wire_variant in Hi1. cbn [fst snd] in Hi1. inversion Hi1; subst. auto. }
    subst d'. exists vr'. split; [assumption|]. split; [|auto].
    assert (In vr' (map fst ds')) as H by (apply in_map_iff; exists (vr', d); auto).
    rewrite (calc_disc_fst _ _ _ Hds') in H. apply filter_In in H. apply H. }
  destruct Hmatch as (vr' & Hin' & Hinvs' & Hwv). destruct (Hok vr' Hinvs') as [Hok1 Hok2].
  assert (Hdd : d < 2 ^ 32) by (rewrite Forall_forall in Hd32; exact (Hd32 _ Hin)).
  pose proof (calc_disc_nodup _ _ _ Hds') as Hnd'.
  destruct (h_opt h) eqn:Eo.
  - specialize (Hopt eq_refl). rewrite forallb_forall in Hopt. specialize (Hopt _ Hin).
    unfold opt_variant_ok in Hopt. rewrite N.eqb_refl in Hopt. cbn [fst snd negb orb] in Hopt. apply andb_prop in Hopt. destruct Hopt as [Hd5 Hsz].
    apply N.ltb_lt in Hd5. unfold wire_variant in Hwv. cbn [fst snd] in Hwv.
    assert (Hsize : v_size vr' = v_size vr0) by congruence.
    assert (Hfw' : vwire cur (v_fields vr0) = vwire cur (v_fields vr')) by congruence.
    assert (Hww : Forall2 (wtw E recW) (vwire cur (v_fields vr')) l).
    { rewrite <- Hfw'. unfold wt_fields in Hw. clear - Hw. induction Hw; cbn; constructor; assumption. }
    assert (Hft : forall c, match v_size vr' with Some s => class_of s = c | None => False end -> find_tag d c ds' = Some (vr', d)).
    { intros c Hc. unfold find_tag. apply find_some_uniq; [assumption| |].
      - cbn [fst snd]. rewrite N.eqb_refl. destruct (v_size vr'); [|destruct Hc]. subst c. cbn [andb]. apply sclass_eqb_refl.
      - intros y Hy Hyk. apply andb_prop in Hyk. destruct Hyk as [Hyk _]. apply N.eqb_eq in Hyk.
        eapply NoDup_map_inj; [exact Hnd'|assumption|assumption|exact Hyk]. }
    assert (Htag : forall c, tag_new_checked (e_dbg E) d c = Ok (tag_new d c)).
    { intros c. unfold tag_new_checked. replace (d <? 32) with true by (clear - Hd5; lia). rewrite andb_false_r. reflexivity. }
    unfold pw_variant_opt, de_enum_opt. rewrite Hds'. rewrite !Htag. cbn [rbind]. unfold write_tag.
    assert (T : forall c, match v_size vr' with Some s => class_of s = c | None => False end -> forall w, pbad w (de_variant_opt E' recD cur tgt vr') ->
      pbad (pdo (sall [tag_new d c]) >>> w) (bind read_optimised_tag (fun ts => match find_tag (variant_id (fst ts)) (snd ts) ds' with None => Fail (EDeserialize MUnknownVariant) | Some (vr, _) => de_variant_opt E' recD cur tgt vr end))).
    { intros c Hc w Hp. destruct (tag_round d c Hd5) as (Ht1 & Ht2 & _).
      apply (pb_bytes _ _ _ _ _ _ (tag_new d c, c)).
      - intros rest. cbn [app]. unfold read_optimised_tag, read_tag. rewrite run_bind, run_read_byte_cons, run_bind, run_of_res, Ht2. reflexivity.
      - cbn [fst snd]. rewrite Ht1, (Hft c Hc). exact Hp. }
    rewrite Hsize in *. destruct (v_size vr0) as [[|n|]|] eqn:Esz; [exact I| | |discriminate].
    + apply T; [reflexivity|]. unfold de_variant_opt. rewrite Hsize. cbn [variant_buf]. rewrite run_alloc_none by assumption. cbn [bind].
      assert (B : (forall o, rbind (rmapM ser_bytes (ser_vfields E recS cur (v_fields vr0) l)) (fun bs => let b := concat bs in if e_dbg E && negb (len b =? n) then Panic PAssert else sall b) <> Ok o) ->
        bad (run (bind (read_n n) (fun buf => bind (in_buf (de_vfields E' recD cur (v_fields vr')) buf) (fun l0 => if valive tgt vr' then Ret (VVar (v_name vr') l0) else of_res (v_convert vr' l0 cur)))) [])).
      { intros Hs. rewrite run_bind. destruct n as [|p]; [|exact PIo]. change (run (read_n 0) []) with (@Ok (bytes * bytes) ([], [])). cbv iota beta.
        apply bad_bind. rewrite run_in_buf.
        assert (P : bad (run (de_vfields E' recD cur (v_fields vr')) [])).
        { apply (payload_nil cur (v_fields vr') l Hok2 Hww). intros bs Hbs Hc. rewrite ser_vfields_wire, Hfw', Hbs in Hs. cbn [rbind] in Hs. cbv zeta in Hs.
          rewrite Hc in Hs. change (len (@nil N) =? 0) with true in Hs. cbn [negb] in Hs. rewrite andb_false_r in Hs. eapply Hs. reflexivity. }
        destruct (run (de_vfields E' recD cur (v_fields vr')) []) as [[a r]|e|x]; [destruct P|exact P|exact P]. }
      match goal with |- pbad (pdo ?s) _ => destruct s as [o|e|x] eqn:Es end; [exact I| |].
      * apply (pb_err _ (Err e)). apply B. discriminate.
      * apply (pb_err _ (Panic x)). apply B. discriminate.
    + apply T; [reflexivity|]. unfold de_variant_opt. rewrite Hsize. cbn [variant_buf]. apply pb_err. apply bad_bind, bad_bind. exact PIo.
  - unfold wire_variant in Hwv. cbn [fst snd] in Hwv.
    assert (Hfw' : wire_fields false cur (v_fields vr0) = wire_fields false cur (v_fields vr')) by congruence.
    assert (Hww : Forall2 (wtw E recW) (wire_fields false cur (v_fields vr')) l).
    { rewrite <- Hfw'. unfold wire_fields. unfold wt_fields in Hw. clear - Hw. induction Hw; cbn; constructor; assumption. }
    unfold de_enum_legacy. rewrite Hds'. apply pb_u32; [exact Hdd|].
    assert (Hfd : find_disc d ds' = Some (vr', d)).
    { unfold find_disc. apply find_some_uniq; [assumption|apply N.eqb_refl|].
      intros y Hy Hyk. apply N.eqb_eq in Hyk. eapply NoDup_map_inj; [exact Hnd'|assumption|assumption|exact Hyk]. }
    rewrite Hfd. unfold de_variant_legacy. apply pb_bind. rewrite pw_fields_wire, Hfw'. apply pf_fields; auto. intros f Hff. apply (Hd f vr' Hinvs' Hff).
Qed.

Lemma pf_derived : forall s s' v, wf_schema s -> wf_schema s' -> evolves s s' -> fields_all (fun f => ty_all ok (f_ty f)) s' = true ->
  (forall f, (match s_body s' with SStruct fs => In f fs | SEnum vs => exists v, In v vs /\ In f (v_fields v) end) -> falive (scur s) f = false -> falive (scur s') f = true -> fine (f_default f (scur s))) ->
  wt_derived E recW s v -> pbad (pw_derived E recP recS s v) (de_derived E' recD s').
Proof.
  intros s s' v (Hc0 & Hc & Hb) (Hc0' & Hc' & Hb') (Hle & h & Hh & Hh' & Hwire & _) Ho Hd Hw.
  unfold pw_derived, de_derived. rewrite Hh. apply (pb_bytes _ _ _ _ _ _ (scur s)).
  - intros rest. rewrite Hfw. apply rt_u16. exact Hc.
  - unfold de_body. rewrite Hh'. unfold same_wire in Hwire. unfold wt_derived in Hw. unfold fields_all in Ho.
    destruct (s_body s) as [fs|vs], (s_body s') as [fs'|vs']; try contradiction.
    + apply pf_struct; auto.
    + destruct Hb as (Hn & _ & Hr). destruct Hb' as (Hn' & Hf' & _). apply pf_enum; auto; [|intros f vr H1 H2; apply Hd; exists vr; auto].
      intros vr Hin. rewrite Forall_forall in Hf'. rewrite forallb_forall in Ho. auto.
Qed.
End Rec.

Hypothesis Hcomp : forall n s, e_sch E n = Some s -> exists s', e_sch E' n = Some s' /\ evolves s s'.
Hypothesis Hsch' : forall n s, e_sch E' n = Some s -> wf_schema s.
Hypothesis Hhonest : sizes_honest E.
Hypothesis HokE : env_all (fun f => ty_all ok (f_ty f)) E'.
Hypothesis Hdef : forall n s s' f, e_sch E n = Some s -> e_sch E' n = Some s' -> (match s_body s' with SStruct fs => In f fs | SEnum vs => exists v, In v vs /\ In f (v_fields v) end) -> falive (scur s) f = false -> falive (scur s') f = true -> fine (f_default f (scur s)).
Hypothesis Hfine : forall d t v ops, wt_ty E (wt_ref E d) t v -> ser_ty E (ser_ref E d) t v = Ok ops -> fine (mig_ty E E' (mig_ref E E' d) t v).

Lemma pf_ref : forall d n v, ok (TRef n) = true -> wt_ref E d n v -> pbad (pw_ref E d n v) (de_ref E' d n).
Proof.
  induction d as [|d IH]; intros n v Hn Hw; cbn [wt_ref] in Hw; [contradiction|].
  destruct (e_sch E n) as [s|] eqn:Es; [|contradiction].
  destruct (Hcomp n s Es) as (s' & Es' & Hev). cbn [pw_ref de_ref]. rewrite Es, Es'.
  apply (pf_derived (pw_ref E d) (ser_ref E d) (de_ref E' d) (mig_ref E E' d) (wt_ref E d)); eauto.
  - apply collapse_ref.
  - apply (rt_ref E E'); auto. apply (we_sch _ W).
  - intros n' Hn'. apply (reads_deserialize Pe ok E' d (TRef n') PIo Hwrap HokE). cbn [ty_all]. rewrite Hn'. reflexivity.
  - eapply we_sch; eauto.
Qed.
Lemma writes_bad : forall d t v, ty_all ok t = true -> wt E d t v -> pbad (writes E d t v) (deserialize E' d t).
Proof.
  intros d t v Ht Hw. unfold writes, deserialize.
  apply (pw_ty_bad (pw_ref E d) (ser_ref E d) (de_ref E' d) (mig_ref E E' d) (wt_ref E d)); auto.
  - apply collapse_ref.
  - apply (rt_ref E E'); auto. apply (we_sch _ W).
  - intros n v' Hn Hv. apply pf_ref; assumption.
  - apply Hfine.
Qed.
End Pair.
End Bad.
