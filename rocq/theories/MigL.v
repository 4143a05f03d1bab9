(** [migrate] never runs out of the nesting depth the value has.  Proofs. *)

From Verif Require Import Base BaseL Prog ProgL Prim PrimL Utf8 Tag Ty Ser De Typed Mig SortL DiscL RtL RtTy RtDer RtSch RtId Parts PartsL SerL.
From Coq Require Import List NArith ZArith Bool Lia ZifyBool Permutation Sorted.
Import ListNotations.
Open Scope N_scope.

Definition ns (x : pan) : Prop := x <> PStack.
Definition anye (_ : err) : Prop := True.
Definition any {A} (_ : A) : Prop := True.
Notation nost := (rspec any anye ns).

Lemma nost_neq : forall A (r : res A), nost r -> r <> Panic PStack.
Proof. intros A [a|e|x] H; try discriminate. intros [= ->]. apply H. reflexivity. Qed.
Lemma neq_nost : forall A (r : res A), r <> Panic PStack -> nost r.
Proof. intros A [a|e|x] H; try exact I. intros ->. apply H. reflexivity. Qed.
Lemma nost_bind : forall A B (r : res A) (f : A -> res B), nost r -> (forall a, nost (f a)) -> nost (rbind r f).
Proof. intros. eapply rspec_bind; eauto. Qed.
Lemma nost_mapM : forall A B (f : A -> res B) l, Forall (fun x => nost (f x)) l -> nost (rmapM f l).
Proof. intros. eapply rspec_mono; [|apply rspec_mapM; eassumption]. exact (fun _ _ => I). Qed.
Lemma nost_rewrap : forall A (r : res A), nost r -> nost (rewrap r).
Proof. intros A [a|e|x] H; exact H. Qed.
Lemma nost_tyerr : forall A, nost (ty_err : res A).
Proof. intros. cbn. discriminate. Qed.
Lemma nost_ok : forall A (a : A), nost (Ok a).
Proof. intros. exact I. Qed.

Section M.
Variables (E E' : env).
Hypothesis W : wf_env E.
Section Rec.
Variables (rec : N -> val -> res val) (recW : N -> val -> Prop) (se : ty -> val -> ser).
Hypothesis Hrec : forall n v, recW n v -> nost (rec n v).
Hypothesis Hse : forall t v, wt_ty E recW t v -> nost (ser_bytes (se t v)).

Lemma Forall_mono : forall A (P Q : A -> Prop) l, Forall P l -> (forall x, P x -> Q x) -> Forall Q l.
Proof. intros A P Q l H HI. eapply Forall_impl; eauto. Qed.

Lemma nost_ty : forall t v, wt_ty E recW t v -> nost (mig_ty E E' rec t v).
Proof.
  induction t; intros v Hw; destruct v; try contradiction; cbn [wt_ty] in Hw; cbn [mig_ty]; try (apply nost_ok).
  - destruct Hw. apply nost_bind; [auto|]. intros. apply nost_bind; [auto|]. intros; apply nost_ok.
  - apply nost_bind; [|intros; apply nost_ok]. apply nost_mapM. eapply Forall_mono; [apply Hw|]. auto.
  - apply nost_bind; [|intros; apply nost_ok]. apply nost_mapM. eapply Forall_mono; [apply Hw|]. auto.
  - apply nost_bind; [|intros; apply nost_ok]. apply nost_mapM. eapply Forall_mono; [apply Hw|]. auto.
  - apply nost_bind; [|intros; apply nost_ok]. apply nost_mapM.
    destruct k as [|[p|p|]]; try contradiction; destruct l as [|x [|y l]]; try contradiction; repeat constructor; auto.
  - apply nost_bind; [|intros; apply nost_ok]. apply nost_rewrap, nost_mapM.
    destruct k as [|[p|p|]]; try contradiction; destruct l as [|x [|y l]]; try contradiction; repeat constructor; cbn [N.eqb Pos.eqb]; auto.
  - apply nost_bind; [|intros; apply nost_ok]. apply nost_rewrap, nost_mapM.
    destruct k as [|[p|[p|p|]|]]; try contradiction; destruct l as [|x [|y l]]; try contradiction; repeat constructor; auto.
  - destruct Hw as (_ & Hl & _). apply nost_bind; [|intros; apply nost_ok]. apply nost_mapM. apply (iter_Forall E W k).
    eapply Forall_mono; [exact Hl|]. intros p Hp. destruct p; try contradiction. destruct Hp. cbn [mig_entry].
    apply nost_bind; [auto|]. intros. apply nost_bind; [auto|]. intros; apply nost_ok.
  - destruct Hw as (_ & Hl & _). apply nost_bind; [|intros; apply nost_ok]. apply nost_mapM. apply (iter_Forall E W k).
    eapply Forall_mono; [exact Hl|]. auto.
  - destruct Hw as (_ & Hl & _). apply nost_bind; [|intros; apply nost_ok]. apply nost_mapM.
    rewrite Forall_forall in *. intros x Hx. apply IHt, Hl. eapply Permutation_in; [apply (we_iter _ W)|exact Hx].
  - auto.
  - auto.
  - auto.
  - auto.
  - auto.
  - auto.
  - auto.
  - destruct v1; try contradiction. destruct v2; try contradiction. destruct (z <=? e_time E')%Z; [apply nost_ok|]. cbn. discriminate.
  - destruct Hw. apply nost_bind; [auto|]. intros a. destruct (e_ext E' c a); exact I.
  - destruct Hw. apply nost_bind; [auto|]. intros a. destruct (e_ext E' c a); exact I.
  - destruct Hw. apply nost_bind; [auto|]. intros a. destruct (e_ext E' c a); exact I.
  - destruct Hw. apply nost_bind; [auto|]. intros a. destruct (e_ext E' c a); exact I.
  - destruct Hw. apply nost_bind; [auto|]. intros a. destruct (e_ext E' c a); exact I.
  - destruct Hw. apply nost_bind; [auto|]. intros a. destruct (e_ext E' c a); exact I.
  - destruct Hw. apply nost_bind; [auto|]. intros a. destruct (e_ext E' c a); exact I.
  - auto.
  - auto.
  - auto.
  - auto.
  - auto.
  - auto.
  - auto.
Qed.

Lemma by_bytes_spec : forall (P : val -> Prop) enc l, Forall (fun x => nost (enc x)) l -> Forall P l ->
  rspec (Forall P) anye ns (by_bytes enc l).
Proof.
  intros P enc l He HP. unfold by_bytes. pose proof (nost_mapM _ _ enc l He) as H.
  destruct (rmapM enc l) as [bs|e|x] eqn:Em; cbn [rbind]; try exact H. cbn [rspec].
  apply Forall_forall. intros y Hy. apply in_map_iff in Hy. destruct Hy as ([b' y'] & <- & Hy).
  apply (Permutation_in _ (ssort_perm _ _ _)) in Hy. rewrite Forall_forall in HP. apply HP. eapply in_combine_r. exact Hy.
Qed.

Lemma nost_mode : forall m t v, wt_ty E recW t v -> nost (mig_mode E E' rec se m t v).
Proof.
  intros m t v Hw. pose proof (nost_ty t v Hw) as Ht. unfold mig_mode. destruct m; try exact Ht; destruct t; try exact Ht; destruct v; try exact Ht.
  - destruct Hw as (_ & Hl & _).
    set (P := fun p => match p with VPair x y => wt_ty E recW t1 x /\ wt_ty E recW t2 y | _ => False end) in *.
    eapply rspec_bind; [apply (by_bytes_spec P)|].
    + eapply Forall_mono; [apply (iter_Forall E W k); exact Hl|]. intros p Hp. destruct p; try contradiction. apply Hse, Hp.
    + apply (iter_Forall E W k). exact Hl.
    + intros es Hes. apply nost_bind; [|intros; apply nost_ok]. destruct (len l <? OFFSET_TABLE_MIN_LEN).
      * apply nost_mapM. eapply Forall_mono; [exact Hes|]. intros p Hp. destruct p; try contradiction. destruct Hp. cbn [mig_entry].
        apply nost_bind; [apply nost_ty; assumption|]. intros. apply nost_bind; [apply nost_ty; assumption|]. intros; apply nost_ok.
      * apply nost_bind; [|intros; apply nost_bind; [|intros; apply nost_ok]]; apply nost_mapM; (eapply Forall_mono; [exact Hes|]);
          intros p Hp; destruct p; try contradiction; destruct Hp; apply nost_ty; assumption.
  - destruct Hw as (_ & Hl & _). eapply rspec_bind; [apply (by_bytes_spec (wt_ty E recW t))|].
    + eapply Forall_mono; [apply (iter_Forall E W k); exact Hl|]. intros p Hp. apply Hse, Hp.
    + apply (iter_Forall E W k). exact Hl.
    + intros es Hes. apply nost_bind; [|intros; apply nost_ok]. apply nost_mapM. eapply Forall_mono; [exact Hes|]. intros; apply nost_ty; assumption.
Qed.

Definition quiet (f : field) : Prop := (forall r, nost (f_default f r)) /\ (forall l r v, nost (f_convert f l r v)).
Lemma nost_fields : forall opt r tgt fs vs, (forall f, In f fs -> quiet f) ->
  Forall2 (fun p v => wt_ty E recW (fst p) v) (wire_fields opt r fs) vs ->
  rspec (fun p => Forall (fun q => quiet (fst q)) (snd p)) anye ns (mig_fields E E' rec se opt r tgt fs vs).
Proof.
  intros opt r tgt. induction fs as [|f fs IH]; intros vs Hq Hw; cbn [mig_fields].
  - destruct vs; cbn; [constructor|discriminate].
  - unfold wire_fields in Hw. cbn [filter] in Hw. assert (Hq' : forall g, In g fs -> quiet g) by (intros; apply Hq; right; assumption).
    destruct (falive r f).
    + cbn [map] in Hw. inversion Hw as [|p v l l' Hv Hl]; subst.
      eapply rspec_bind; [apply nost_mode; exact Hv|]. intros v' _. eapply rspec_bind; [apply IH; assumption|].
      intros p Hp. destruct (falive tgt f); cbn [rspec snd]; [exact Hp|constructor; [apply Hq; left; reflexivity|exact Hp]].
    + destruct (falive tgt f); [|apply IH; assumption].
      eapply rspec_bind; [apply (proj1 (Hq f (or_introl eq_refl)))|]. intros v' _. eapply rspec_bind; [apply IH; assumption|]. intros p Hp. exact Hp.
Qed.
Lemma nost_converts : forall r rm this, Forall (fun q => quiet (fst q)) rm -> nost (mig_converts r this rm).
Proof.
  intros r. induction rm as [|[f v] rm IH]; intros this H; cbn [mig_converts]; [apply nost_ok|]. inversion H as [|x l Hx Hl]; subst.
  apply nost_bind; [apply (proj2 Hx)|]. intros. apply IH. assumption.
Qed.
Lemma nost_body : forall opt r tgt fs vs, (forall f, In f fs -> quiet f) ->
  Forall2 (fun p v => wt_ty E recW (fst p) v) (wire_fields opt r fs) vs -> nost (mig_body E E' rec se opt r tgt fs vs).
Proof.
  intros opt r tgt fs vs Hq Hw. unfold mig_body. eapply rspec_bind; [apply nost_fields; eassumption|]. intros p Hp. apply nost_converts, Hp.
Qed.

Lemma nost_derived : forall s s' v h, evolves s s' -> sent s (scur s) = Some h ->
  match s_body s' with
  | SStruct fs => forall f, In f fs -> quiet f
  | SEnum vs => forall vr, In vr vs -> (forall f, In f (v_fields vr) -> quiet f) /\ forall l r, nost (v_convert vr l r)
  end -> wf_schema s -> wf_schema s' ->
  wt_derived E recW s v -> nost (mig_derived E E' rec se s' (scur s) (h_opt h) v).
Proof.
  intros s s' v h (Hle & h0 & Hh & Hh' & Hwire & Hres) Hh2 Hu Hwf Hwf' Hw.
  rewrite Hh2 in Hh. inversion Hh; subst h0. clear Hh.
  unfold same_wire in Hwire. unfold mig_derived, wt_derived in *.
  destruct (s_body s) as [fs|vs] eqn:Eb, (s_body s') as [fs'|vs'] eqn:Eb'; try contradiction.
  - destruct v as [| | | | |l|]; try contradiction. apply nost_bind; [|intros; apply nost_ok]. apply nost_body; [exact Hu|].
    rewrite <- Hwire. unfold wire_fields, wt_fields in *. clear - Hw. induction Hw; cbn; constructor; assumption.
  - destruct v as [| | | | | |k l]; try contradiction. destruct Hw as (vr & Hin & Hk & Ha & Hw).
    destruct Hwire as (ds & ds' & Hds & Hds' & Hwire).
    destruct (find (fun x => v_name x =? k) vs') as [vr'|] eqn:Ef; [|apply nost_tyerr].
    apply find_some in Ef. destruct Ef as [Hin' Hk']. apply N.eqb_eq in Hk'.
    destruct (Hu vr' Hin') as [Hq Hc].
    apply nost_bind; [|intros l'; destruct (valive (scur s') vr'); [apply nost_ok|apply Hc]].
    apply nost_body; [exact Hq|].
    (* vr' is alive at [scur s] and its wire fields are those of vr *)
    assert (Hp : exists d, In (vr, d) ds).
    { assert (Hi : In vr (map fst ds)) by (rewrite (calc_disc_fst _ _ _ Hds); apply filter_In; auto).
      apply in_map_iff in Hi. destruct Hi as ([x d] & <- & Hi). eauto. }
    destruct Hp as (d & Hp). assert (Hm : In (wire_variant (h_opt h) (scur s) (vr, d)) (map (wire_variant (h_opt h) (scur s)) ds')).
    { rewrite <- Hwire. apply in_map, Hp. }
    apply in_map_iff in Hm. destruct Hm as ([vx dx] & Hx & Hxin).
    assert (Hxv : In vx vs').
    { assert (Hi : In vx (map fst ds')) by (apply in_map_iff; exists (vx, dx); auto). rewrite (calc_disc_fst _ _ _ Hds') in Hi. apply filter_In in Hi. apply Hi. }
    unfold wire_variant in Hx. cbn [fst snd] in Hx.
    assert (Hnd : NoDup (map v_name vs')) by (destruct Hwf' as (_ & _ & Hb); rewrite Eb' in Hb; apply Hb).
    assert (vx = vr') by (eapply NoDup_map_inj; [exact Hnd|assumption|assumption|congruence]). subst vx.
    assert (Hty : map f_ty (filter (falive (scur s)) (v_fields vr')) = map f_ty (filter (falive (scur s)) (v_fields vr))).
    { destruct (h_opt h).
      - assert (Hmm : map (fun f => (f_ty f, MPlain)) (filter (falive (scur s)) (v_fields vr')) = map (fun f => (f_ty f, MPlain)) (filter (falive (scur s)) (v_fields vr))) by congruence.
        apply (f_equal (map fst)) in Hmm. rewrite !map_map in Hmm. exact Hmm.
      - assert (Hmm : wire_fields false (scur s) (v_fields vr') = wire_fields false (scur s) (v_fields vr)) by congruence.
        unfold wire_fields in Hmm. apply (f_equal (map fst)) in Hmm. rewrite !map_map in Hmm. exact Hmm. }
    unfold wire_fields, wt_fields in *. clear - Hw Hty.
    revert l Hw Hty. generalize (filter (falive (scur s)) (v_fields vr)) as gs, (filter (falive (scur s)) (v_fields vr')) as gs'.
    intros gs gs'. revert gs. induction gs' as [|g' gs' IH]; intros [|g gs] l Hw Hty; try discriminate; inversion Hw; subst; cbn [map]; constructor.
    + cbn [wire_field fst map] in *. injection Hty as -> _. assumption.
    + cbn [map] in Hty. injection Hty as _ Hty. eapply IH; eassumption.
Qed.
End Rec.

Hypothesis W' : wf_env E'.
Hypothesis C : compatible E E'.
Hypothesis U : user_panics E' (fun x => x <> PStack).

Lemma nost_ser : forall d t v, wt E d t v -> nost (ser_bytes (ser_ty E (ser_ref E d) t v)).
Proof.
  intros d t v Hw.
  assert (H : rspec (Forall (fun w => wfb (wop_bytes w))) anye ns (to_writer E d t v)).
  { apply (sspec_writer anye ns (fun _ _ => True)); try (unfold anye; auto; fail).
    - intros _ _. split; repeat constructor.
    - left. discriminate.
    - apply every_true; auto. }
  unfold to_writer in H. eapply rspec_mono; [|apply (sspec_bytes anye ns (fun w => wfb (wop_bytes w))); [auto|exact H]]. exact (fun _ _ => I).
Qed.
Lemma nost_ref : forall d n v, wt_ref E d n v -> nost (mig_ref E E' d n v).
Proof.
  induction d as [|d IH]; intros n v Hw; cbn [wt_ref] in Hw; [contradiction|]. cbn [mig_ref].
  destruct (e_sch E n) as [s|] eqn:Es; [|contradiction].
  destruct C as (_ & _ & _ & C4). destruct (C4 n s Es) as (s' & Es' & Hev). rewrite Es'.
  destruct (sent s (scur s)) as [h|] eqn:Eh; [|apply nost_tyerr].
  eapply nost_derived; [exact IH| |exact Hev|exact Eh| |exact (we_sch _ W _ _ Es)|exact (we_sch _ W' _ _ Es')|exact Hw].
  - intros t x Hx. apply nost_ser. exact Hx.
  - destruct (U n s' Es') as [U1 U2]. destruct (s_body s') as [fs|vs].
    + intros f Hf. split; intros; apply neq_nost; intros Hp.
      * exact (proj1 (U1 f r PStack Hf) Hp eq_refl).
      * exact (proj2 (U1 f r PStack Hf) _ _ Hp eq_refl).
    + intros vr Hvr. split.
      * intros f Hf. assert (Hx : exists v0, In v0 vs /\ In f (v_fields v0)) by eauto. split; intros; apply neq_nost; intros Hp.
        -- exact (proj1 (U1 f r PStack Hx) Hp eq_refl).
        -- exact (proj2 (U1 f r PStack Hx) _ _ Hp eq_refl).
      * intros l r. apply neq_nost. intros Hp. exact (U2 vs vr l r PStack eq_refl Hvr Hp eq_refl).
Qed.
Lemma migrate_nost : forall d t v, wt E d t v -> migrate E E' d t v <> Panic PStack.
Proof. intros d t v Hw. apply nost_neq. eapply nost_ty; [apply nost_ref|exact Hw]. Qed.
End M.
