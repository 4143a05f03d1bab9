(** Tidied programs write and read the same.  Proofs. *)

From Verif Require Import Base BaseL Transp Prog ProgL Prim PrimL Utf8 Tag Ty Ser De Typed Mig Evol EvolL Local LocalL Tidy SortL Parts PartsL SerL RtDer RtSch DiscL RtL RtTy RtId MigL.
From Coq Require Import List NArith ZArith Bool Lia ZifyBool.
Import ListNotations.
Open Scope N_scope.

Lemma over_dead : forall c s e r, over_by c e -> c <= r -> exists_at s e r = false.
Proof. intros c s e r (x & -> & Hx) Hr. unfold exists_at. lia. Qed.

Lemma tidy_alive : forall c r fs fs', tidy_fields c fs fs' -> c <= r -> filter (falive r) fs' = filter (falive r) fs.
Proof.
  intros c r fs fs' H Hr. induction H as [|f fs fs' _ IH|f fs fs' Hf _ IH]; cbn [filter]; [reflexivity|rewrite IH; reflexivity|].
  unfold falive at 2. rewrite (over_dead c) by assumption. exact IH.
Qed.
Lemma tidy_in : forall c fs fs' f, tidy_fields c fs fs' -> In f fs' -> In f fs.
Proof. intros c fs fs' f H. induction H as [|g fs fs' _ IH|g fs fs' _ _ IH]; intros Hi; auto; [destruct Hi; [left|right]|right]; auto. Qed.

Lemma tidy_gather : forall c r vs vs', tidy_variants c vs vs' -> c <= r -> forall used, gather r vs' used = gather r vs used.
Proof.
  intros c r vs vs' H Hr. induction H as [|v v' vs vs' Hv _ IH|v vs vs' Hv _ IH]; intros used; cbn [gather]; [reflexivity| |].
  - destruct Hv as (_ & Hs & He & Ho & _). unfold valive. rewrite Hs, He, Ho. destruct (exists_at _ _ r); [|apply IH].
    destruct (v_over v r); [|apply IH]. destruct (existsb _ used); [reflexivity|apply IH].
  - unfold valive. rewrite (over_dead c) by assumption. apply IH.
Qed.
Notation tv c := (fun p p' : variant * N => tidy_variant c (fst p) (fst p') /\ snd p = snd p').
Lemma tidy_assign : forall c r vs vs', tidy_variants c vs vs' -> c <= r -> forall used n,
  Forall2 (tv c) (assign r vs used n) (assign r vs' used n).
Proof.
  intros c r vs vs' H Hr. induction H as [|v v' vs vs' Hv _ IH|v vs vs' Hv _ IH]; intros used n; cbn [assign]; [constructor| |].
  - pose proof Hv as (_ & Hs & He & Ho & _). unfold valive. rewrite Hs, He, Ho. destruct (exists_at _ _ r); [|apply IH].
    destruct (v_over v r); cbv zeta; constructor; auto.
  - unfold valive. rewrite (over_dead c) by assumption. apply IH.
Qed.
Lemma tidy_calc : forall c r vs vs', tidy_variants c vs vs' -> c <= r ->
  match calc_disc r vs, calc_disc r vs' with
  | Some ds, Some ds' => Forall2 (tv c) ds ds'
  | None, None => True
  | _, _ => False
  end.
Proof.
  intros c r vs vs' H Hr. unfold calc_disc. rewrite (tidy_gather c r vs vs' H Hr). destruct (gather r vs []); [|exact I]. apply tidy_assign; assumption.
Qed.
Lemma tidy_find_name : forall c k ds ds', Forall2 (tv c) ds ds' ->
  match find_name k ds, find_name k ds' with
  | Some (v, d), Some (v', d') => tidy_variant c v v' /\ d = d'
  | None, None => True
  | _, _ => False
  end.
Proof.
  intros c k ds ds' H. unfold find_name. induction H as [|[v d] [v' d'] ds ds' [H1 H2] _ IH]; cbn [find fst]; [exact I|]. cbn [fst snd] in *.
  pose proof (proj1 H1) as ->. destruct (v_name v =? k); [auto|exact IH].
Qed.

(** ** Encoding *)
Section Enc.
Variables (E : env) (rec : N -> val -> ser).
Lemma tidy_ser_fields : forall c opt r fs fs', tidy_fields c fs fs' -> c <= r -> forall vs, ser_fields E rec opt r fs' vs = ser_fields E rec opt r fs vs.
Proof.
  intros c opt r fs fs' H Hr. induction H as [|f fs fs' _ IH|f fs fs' Hf _ IH]; intros vs; cbn [ser_fields]; [reflexivity| |].
  - rewrite IH. destruct (falive r f); [|reflexivity]. destruct vs; [reflexivity|]. rewrite IH. reflexivity.
  - unfold falive. rewrite (over_dead c) by assumption. apply IH.
Qed.
Lemma tidy_ser_vfields : forall c r fs fs', tidy_fields c fs fs' -> c <= r -> forall vs, ser_vfields E rec r fs' vs = ser_vfields E rec r fs vs.
Proof.
  intros c r fs fs' H Hr. induction H as [|f fs fs' _ IH|f fs fs' Hf _ IH]; intros vs; cbn [ser_vfields]; [reflexivity| |].
  - rewrite IH. destruct (falive r f); [|reflexivity]. destruct vs; [reflexivity|]. rewrite IH. reflexivity.
  - unfold falive. rewrite (over_dead c) by assumption. apply IH.
Qed.
Lemma tidy_ser_derived : forall c s s' v, tidy_schema c s s' -> c <= scur s -> ser_derived E rec s' v = ser_derived E rec s v.
Proof.
  intros c s s' v (Hh & Hb) Hc. unfold ser_derived, sent, scur in *. rewrite Hh.
  set (r := len (s_hist s)) in *. destruct (if r =? 0 then None else nth_error (s_hist s) (N.to_nat (r - 1))) as [h|]; [|reflexivity]. f_equal.
  destruct (s_body s) as [fs|vs], (s_body s') as [fs'|vs']; try contradiction.
  - unfold ser_struct, ser_struct_opt. destruct v; try reflexivity. rewrite !(tidy_ser_fields c _ r fs fs' Hb Hc). reflexivity.
  - unfold ser_enum. destruct v as [| | | | | |k l]; try reflexivity. pose proof (tidy_calc c r vs vs' Hb Hc) as Hd.
    destruct (calc_disc r vs) as [ds|], (calc_disc r vs') as [ds'|]; try contradiction; [|reflexivity].
    pose proof (tidy_find_name c k ds ds' Hd) as Hf. destruct (find_name k ds) as [[x d]|], (find_name k ds') as [[x' d']|]; try contradiction; [|reflexivity].
    destruct Hf as ((_ & _ & _ & _ & Hz & _ & Hf) & <-). unfold ser_variant_opt. rewrite Hz, !(tidy_ser_fields c _ r _ _ Hf Hc), !(tidy_ser_vfields c r _ _ Hf Hc). reflexivity.
Qed.
End Enc.

Lemma scur_hist : forall s s', s_hist s' = s_hist s -> scur s' = scur s.
Proof. intros s s' H. unfold scur. rewrite H. reflexivity. Qed.
Lemma sent_hist : forall s s' r, s_hist s' = s_hist s -> sent s' r = sent s r.
Proof. intros s s' r H. unfold sent. rewrite H. reflexivity. Qed.

Lemma tidy_ser_ref : forall E S cut, tidied cut (e_sch E) S -> no_older cut (e_sch E) ->
  forall d n v, ser_ref (set_sch E S) d n v = ser_ref E d n v.
Proof.
  intros E S cut T K. induction d as [|d IH]; intros n v; [reflexivity|]. cbn [ser_ref].
  change (e_sch (set_sch E S) n) with (S n). pose proof (T n) as Hn. destruct (e_sch E n) as [s|] eqn:Es, (S n) as [s'|]; try contradiction; [|reflexivity].
  change (ser_derived (set_sch E S) (ser_ref (set_sch E S) d) s' v) with (ser_derived E (ser_ref (set_sch E S) d) s' v).
  rewrite (tidy_ser_derived E _ (cut n) s s' v Hn (K n s Es)). apply loc_ser_derived. intros. apply IH.
Qed.
Lemma tidy_ser_ty : forall E S cut, tidied cut (e_sch E) S -> no_older cut (e_sch E) ->
  forall d t v, to_writer (set_sch E S) d t v = to_writer E d t v.
Proof.
  intros E S cut T K d t v. unfold to_writer. change (ser_ty (set_sch E S) (ser_ref (set_sch E S) d) t v) with (ser_ty E (ser_ref (set_sch E S) d) t v).
  apply loc_ser_ty. intros. eapply tidy_ser_ref; eassumption.
Qed.

(** ** Migration *)
Section Mig.
Variables (W E : env) (S : N -> option schema).
Hypothesis WW : wf_env W.
Notation E' := (set_sch E S).

Section Rec.
Variables (rec rec' : N -> val -> res val) (recW : N -> val -> Prop) (se : ty -> val -> ser).
Hypothesis Hrec : forall n v, recW n v -> rec' n v = rec n v.

Lemma same_mapM : forall A B (f g : A -> res B) l, Forall (fun x => f x = g x) l -> rmapM f l = rmapM g l.
Proof. intros A B f g l H. induction H as [|x l Hx _ IH]; [reflexivity|]. cbn [rmapM]. rewrite Hx, IH. reflexivity. Qed.
Ltac ent Hl := (eapply Forall_mono; [exact Hl|]; auto).

Lemma cong_ty : forall t v, wt_ty W recW t v -> mig_ty W E' rec' t v = mig_ty W E rec t v.
Proof.
  induction t; intros v Hw; destruct v; try contradiction; cbn [wt_ty] in Hw; cbn [mig_ty]; try reflexivity; auto.
  - destruct Hw. rewrite IHt1, IHt2 by assumption. reflexivity.
  - f_equal. apply same_mapM. eapply Forall_mono; [apply Hw|]. auto.
  - f_equal. apply same_mapM. eapply Forall_mono; [apply Hw|]. auto.
  - f_equal. apply same_mapM. eapply Forall_mono; [apply Hw|]. auto.
  - f_equal. apply same_mapM. destruct k as [|[p|p|]]; try contradiction; destruct l as [|x [|y l]]; try contradiction; repeat constructor; auto.
  - f_equal. f_equal. apply same_mapM. destruct k as [|[p|p|]]; try contradiction; destruct l as [|x [|y l]]; try contradiction; repeat constructor; cbn [N.eqb Pos.eqb]; auto.
  - f_equal. f_equal. apply same_mapM. destruct k as [|[p|[p|p|]|]]; try contradiction; destruct l as [|x [|y l]]; try contradiction; repeat constructor; auto.
  - destruct Hw as (_ & Hl & _). f_equal. apply same_mapM. apply (iter_Forall W WW k). eapply Forall_mono; [exact Hl|].
    intros p Hp. destruct p; try contradiction. destruct Hp. cbn [mig_entry]. rewrite IHt1, IHt2 by assumption. reflexivity.
  - destruct Hw as (_ & Hl & _). f_equal. apply same_mapM. apply (iter_Forall W WW k). eapply Forall_mono; [exact Hl|]. auto.
  - destruct Hw as (_ & Hl & _). f_equal. apply same_mapM. rewrite Forall_forall in *. intros x Hx. apply IHt, Hl.
    eapply Permutation.Permutation_in; [apply (we_iter _ WW)|exact Hx].
  - destruct Hw. rewrite IHt by assumption. reflexivity.
  - destruct Hw. rewrite IHt by assumption. reflexivity.
  - destruct Hw. rewrite IHt by assumption. reflexivity.
  - destruct Hw. rewrite IHt by assumption. reflexivity.
  - destruct Hw. rewrite IHt by assumption. reflexivity.
  - destruct Hw. rewrite IHt by assumption. reflexivity.
  - destruct Hw. rewrite IHt by assumption. reflexivity.
Qed.

Lemma by_bytes_in : forall (P : val -> Prop) enc l es, Forall P l -> by_bytes enc l = Ok es -> Forall P es.
Proof.
  intros P enc l es HP H. unfold by_bytes in H. destruct (rmapM enc l) as [bs|e|x]; cbn [rbind] in H; try discriminate. apply Ok_inj in H. subst es.
  apply Forall_forall. intros y Hy. apply in_map_iff in Hy. destruct Hy as ([b' y'] & <- & Hy).
  apply (Permutation.Permutation_in _ (SortL.ssort_perm _ _ _)) in Hy. rewrite Forall_forall in HP. apply HP. eapply in_combine_r. exact Hy.
Qed.
Lemma cong_mode : forall m t v, wt_ty W recW t v -> mig_mode W E' rec' se m t v = mig_mode W E rec se m t v.
Proof.
  intros m t v Hw. pose proof (cong_ty t v Hw) as Ht. unfold mig_mode. destruct m; try exact Ht; destruct t; try exact Ht; destruct v; try exact Ht.
  - destruct Hw as (_ & Hl & _).
    set (P := fun p => match p with VPair x y => wt_ty W recW t1 x /\ wt_ty W recW t2 y | _ => False end) in *.
    match goal with |- rbind ?b _ = _ => destruct b as [es| |] eqn:Eb end; cbn [rbind]; try reflexivity.
    apply (by_bytes_in P) in Eb; [|apply (iter_Forall W WW k); exact Hl].
    assert (Hk : Forall (fun p => mig_entry (mig_ty W E' rec' t1) (mig_ty W E' rec' t2) p = mig_entry (mig_ty W E rec t1) (mig_ty W E rec t2) p) es).
    { eapply Forall_mono; [exact Eb|]. intros p Hp. destruct p; try contradiction. destruct Hp. cbn [mig_entry]. rewrite !cong_ty by assumption. reflexivity. }
    f_equal. destruct (len l <? OFFSET_TABLE_MIN_LEN); [apply same_mapM; exact Hk|].
    assert (H1 : forall (x : val -> val) f g, (forall p, P p -> f p = g p) -> rmapM f es = rmapM (B := val) g es).
    { intros _ f g Hfg. apply same_mapM. eapply Forall_mono; [exact Eb|]. exact Hfg. }
    match goal with |- rbind (rmapM ?f _) _ = rbind (rmapM ?g _) _ => rewrite (H1 (fun x => x) f g) end.
    + f_equal. match goal with |- (fun x => rbind (rmapM ?f _) _) = (fun y => rbind (rmapM ?g _) _) => rewrite (H1 (fun x => x) f g) end; [reflexivity|].
      intros p Hp. destruct p; try contradiction. destruct Hp. apply cong_ty; assumption.
    + intros p Hp. destruct p; try contradiction. destruct Hp. apply cong_ty; assumption.
  - destruct Hw as (_ & Hl & _). match goal with |- rbind ?b _ = _ => destruct b as [es| |] eqn:Eb end; cbn [rbind]; try reflexivity.
    apply (by_bytes_in (wt_ty W recW t)) in Eb; [|apply (iter_Forall W WW k); exact Hl]. f_equal. apply same_mapM.
    eapply Forall_mono; [exact Eb|]. intros; apply cong_ty; assumption.
Qed.

(** The fields of the tidied declaration. *)
Lemma cong_fields : forall c opt r tgt fs fs', tidy_fields c fs fs' -> c <= r -> c <= tgt -> forall vs,
  Forall2 (fun p v => wt_ty W recW (fst p) v) (wire_fields opt r fs) vs ->
  mig_fields W E' rec' se opt r tgt fs' vs = mig_fields W E rec se opt r tgt fs vs.
Proof.
  intros c opt r tgt fs fs' H Hr Ht. induction H as [|f fs fs' _ IH|f fs fs' Hf _ IH]; intros vs Hw; cbn [mig_fields]; [reflexivity| |].
  - unfold wire_fields in Hw. cbn [filter] in Hw. destruct (falive r f).
    + cbn [map] in Hw. inversion Hw as [|p v l l' Hv Hl]; subst. rewrite cong_mode by exact Hv. f_equal. unfold wire_fields in IH. rewrite (IH _ Hl). reflexivity.
    + unfold wire_fields in IH. rewrite (IH _ Hw). reflexivity.
  - unfold wire_fields in Hw. cbn [filter] in Hw. unfold falive in Hw at 1. rewrite (over_dead c) in Hw by assumption.
    unfold falive. rewrite !(over_dead c) by assumption. apply IH. exact Hw.
Qed.
Lemma cong_body : forall c opt r tgt fs fs', tidy_fields c fs fs' -> c <= r -> c <= tgt -> forall vs,
  Forall2 (fun p v => wt_ty W recW (fst p) v) (wire_fields opt r fs) vs ->
  mig_body W E' rec' se opt r tgt fs' vs = mig_body W E rec se opt r tgt fs vs.
Proof. intros c opt r tgt fs fs' H Hr Ht vs Hw. unfold mig_body. rewrite (cong_fields c opt r tgt fs fs' H Hr Ht vs Hw). reflexivity. Qed.

Lemma tidy_find : forall c k vs vs' vr r, tidy_variants c vs vs' -> c <= r -> NoDup (map v_name vs) ->
  find (fun x => v_name x =? k) vs = Some vr -> valive r vr = true ->
  exists vr', find (fun x => v_name x =? k) vs' = Some vr' /\ tidy_variant c vr vr'.
Proof.
  intros c k vs vs' vr r H Hr. induction H as [|v v' vs vs' Hv _ IH|v vs vs' Hv _ IH]; cbn [find map]; intros Hn Hf Ha; [discriminate| |]; inversion Hn; subst.
  - rewrite (proj1 Hv). destruct (v_name v =? k); [|auto]. inversion Hf; subst. eauto.
  - destruct (v_name v =? k); [|auto]. inversion Hf; subst. unfold valive in Ha. rewrite (over_dead c) in Ha by assumption. discriminate.
Qed.

Lemma cong_derived : forall c sw s s' v h, evolves sw s -> sent sw (scur sw) = Some h -> wf_schema sw -> wf_schema s ->
  tidy_schema c s s' -> c <= scur sw -> wt_derived W recW sw v ->
  mig_derived W E' rec' se s' (scur sw) (h_opt h) v = mig_derived W E rec se s (scur sw) (h_opt h) v.
Proof.
  intros c sw s s' v h (Hle & h0 & Hh & Hh' & Hwire & _) Hh2 Hwf Hwf' (Hhist & Hbody) Hc Hw.
  rewrite Hh2 in Hh. inversion Hh; subst h0. clear Hh.
  assert (Hct : c <= scur s) by lia.
  unfold same_wire in Hwire. unfold mig_derived, wt_derived in *. rewrite (scur_hist s s' Hhist).
  destruct (s_body s) as [fs|vs] eqn:Eb, (s_body s') as [fs'|vs'] eqn:Eb'; try contradiction; destruct (s_body sw) as [gs|ws] eqn:Ew; try contradiction.
  - destruct v as [| | | | |l|]; try contradiction. f_equal. apply (cong_body c); [exact Hbody|exact Hc|exact Hct|].
    rewrite <- Hwire. unfold wire_fields, wt_fields in *. clear - Hw. induction Hw; cbn; constructor; assumption.
  - destruct v as [| | | | | |k l]; try contradiction. destruct Hw as (vr & Hin & Hk & Ha & Hw).
    destruct Hwire as (ds & ds' & Hds & Hds' & Hwire).
    assert (Hp : exists d, In (vr, d) ds).
    { assert (Hi : In vr (map fst ds)) by (rewrite (calc_disc_fst _ _ _ Hds); apply filter_In; auto).
      apply in_map_iff in Hi. destruct Hi as ([x d] & <- & Hi). eauto. }
    destruct Hp as (d & Hp). assert (Hm : In (wire_variant (h_opt h) (scur sw) (vr, d)) (map (wire_variant (h_opt h) (scur sw)) ds')).
    { rewrite <- Hwire. apply in_map, Hp. }
    apply in_map_iff in Hm. destruct Hm as ([vx dx] & Hx & Hxin).
    assert (Hxv : In vx vs /\ valive (scur sw) vx = true).
    { assert (Hi : In vx (map fst ds')) by (apply in_map_iff; exists (vx, dx); auto). rewrite (calc_disc_fst _ _ _ Hds') in Hi. apply filter_In in Hi. exact Hi. }
    destruct Hxv as [Hxv Hxa]. unfold wire_variant in Hx. cbn [fst snd] in Hx.
    assert (Hnd : NoDup (map v_name vs)) by (destruct Hwf' as (_ & _ & Hb); rewrite Eb in Hb; apply Hb).
    assert (Hname : v_name vx = k) by congruence.
    destruct (find (fun x => v_name x =? k) vs) as [vr0|] eqn:Ef.
    2:{ pose proof (find_none _ _ Ef vx Hxv) as Hno. cbn beta in Hno. rewrite Hname, N.eqb_refl in Hno. discriminate. }
    assert (vr0 = vx).
    { pose proof (find_some _ _ Ef) as [Hi0 Hk0]. apply N.eqb_eq in Hk0. eapply NoDup_map_inj; [exact Hnd|assumption|assumption|congruence]. }
    subst vr0. destruct (tidy_find c k vs vs' vx (scur sw) Hbody Hc Hnd Ef Hxa) as (vr' & Ef' & Hv').
    rewrite Ef'. destruct Hv' as (Hv1 & Hv2 & Hv3 & Hv4 & Hv5 & Hv6 & Hv7). unfold valive. rewrite Hv2, Hv3, Hv6. f_equal.
    apply (cong_body c); [exact Hv7|exact Hc|exact Hct|].
    assert (Hty : map f_ty (filter (falive (scur sw)) (v_fields vx)) = map f_ty (filter (falive (scur sw)) (v_fields vr))).
    { destruct (h_opt h).
      - assert (Hmm : map (fun f => (f_ty f, MPlain)) (filter (falive (scur sw)) (v_fields vx)) = map (fun f => (f_ty f, MPlain)) (filter (falive (scur sw)) (v_fields vr))) by congruence.
        apply (f_equal (map fst)) in Hmm. rewrite !map_map in Hmm. exact Hmm.
      - assert (Hmm : wire_fields false (scur sw) (v_fields vx) = wire_fields false (scur sw) (v_fields vr)) by congruence.
        unfold wire_fields in Hmm. apply (f_equal (map fst)) in Hmm. rewrite !map_map in Hmm. exact Hmm. }
    unfold wire_fields, wt_fields in *. clear - Hw Hty.
    revert l Hw Hty. generalize (filter (falive (scur sw)) (v_fields vr)) as gs, (filter (falive (scur sw)) (v_fields vx)) as gs'.
    intros gs gs'. revert gs. induction gs' as [|g' gs' IH]; intros [|g gs] l Hw Hty; try discriminate; inversion Hw; subst; cbn [map]; constructor.
    + cbn [wire_field fst map] in *. injection Hty as -> _. assumption.
    + cbn [map] in Hty. injection Hty as _ Hty. eapply IH; eassumption.
Qed.
End Rec.

Variable cut : N -> N.
Hypothesis WE : wf_env E.
Hypothesis C : compatible W E.
Hypothesis T : tidied cut (e_sch E) S.
Hypothesis K : no_older cut (e_sch W).

Lemma cong_ref : forall d n v, wt_ref W d n v -> mig_ref W E' d n v = mig_ref W E d n v.
Proof.
  induction d as [|d IH]; intros n v Hw; cbn [wt_ref] in Hw; [contradiction|]. cbn [mig_ref].
  destruct (e_sch W n) as [sw|] eqn:Es; [|contradiction].
  destruct C as (_ & _ & _ & C4). destruct (C4 n sw Es) as (s & Es' & Hev). rewrite Es'. change (e_sch E' n) with (S n).
  pose proof (T n) as Tn. rewrite Es' in Tn. destruct (S n) as [s'|]; [|contradiction].
  destruct (sent sw (scur sw)) as [h|] eqn:Eh; [|reflexivity].
  apply (cong_derived _ _ (wt_ref W d) _ IH (cut n)); auto; [exact (we_sch _ WW _ _ Es)|exact (we_sch _ WE _ _ Es')].
Qed.
Lemma cong_migrate : forall d t v, wt W d t v -> migrate W E' d t v = migrate W E d t v.
Proof. intros d t v Hw. unfold migrate. apply (cong_ty _ _ (wt_ref W d)); [apply cong_ref|exact Hw]. Qed.

(** The tidied program still understands what [W] writes. *)
Lemma tidy_same_wire : forall opt c r b s s', tidy_schema c s s' -> c <= r -> same_wire opt r b (s_body s) -> same_wire opt r b (s_body s').
Proof.
  intros opt c r b s s' (_ & Hb) Hc H. unfold same_wire in *. destruct b as [gs|ws], (s_body s) as [fs|vs], (s_body s') as [fs'|vs']; try contradiction.
  - rewrite H. unfold wire_fields. rewrite (tidy_alive c r fs fs' Hb Hc). reflexivity.
  - destruct H as (ds & ds1 & H1 & H2 & H3). pose proof (tidy_calc c r vs vs' Hb Hc) as Hd. rewrite H2 in Hd.
    destruct (calc_disc r vs') as [ds'|]; [|contradiction]. exists ds, ds'. split; [exact H1|]. split; [reflexivity|]. rewrite H3. clear - Hd Hc.
    induction Hd as [|[v d] [v' d'] l l' [(H1 & _ & _ & _ & H5 & _ & H7) H2] _ IH]; [reflexivity|]. cbn [map fst snd] in *. rewrite IH. f_equal.
    unfold wire_variant, wire_fields. cbn [fst snd]. rewrite H1, H5, H2, (tidy_alive c r _ _ H7 Hc). reflexivity.
Qed.
Lemma tidy_variants_in : forall c vs vs' v', tidy_variants c vs vs' -> In v' vs' -> exists v, In v vs /\ tidy_variant c v v'.
Proof.
  intros c vs vs' v' H. induction H as [|v w vs vs' Hv _ IH|v vs vs' _ _ IH]; intros Hi; [contradiction| |].
  - destruct Hi as [<-|Hi]; [exists v; split; [left; reflexivity|exact Hv]|]. destruct (IH Hi) as (x & Hx & Ht). exists x. split; [right|]; assumption.
  - destruct (IH Hi) as (x & Hx & Ht). exists x. split; [right|]; assumption.
Qed.
Lemma tidy_evolves : forall c sw s s', evolves sw s -> tidy_schema c s s' -> c <= scur sw -> evolves sw s'.
Proof.
  intros c sw s s' (Hle & h & H1 & H2 & H3 & H4) Ht Hc. pose proof Ht as (Hh & Hb). unfold evolves. rewrite (scur_hist s s' Hh).
  split; [exact Hle|]. exists h. rewrite (sent_hist s s' _ Hh). split; [exact H1|]. split; [exact H2|]. split; [eapply tidy_same_wire; eassumption|].
  intros Ho. specialize (H4 Ho). unfold opt_restricted in *. rewrite (scur_hist s s' Hh).
  destruct (s_body s) as [fs|vs], (s_body s') as [fs'|vs']; try contradiction.
  - intros f Hf. apply H4. eapply tidy_in; eassumption.
  - intros vr f Hv Ha Hf. destruct (tidy_variants_in c vs vs' vr Hb Hv) as (v0 & Hi & (_ & E2 & E3 & _ & _ & _ & E7)).
    apply (H4 v0 f Hi); [unfold valive in *; rewrite <- E2, <- E3; exact Ha|eapply tidy_in; eassumption].
Qed.
Lemma tidy_compatible : compatible W E'.
Proof.
  destruct C as (C1 & C2 & C3 & C4). repeat split; auto. intros n sw Es. destruct (C4 n sw Es) as (s & Es' & Hev).
  pose proof (T n) as Tn. rewrite Es' in Tn. change (e_sch E' n) with (S n). destruct (S n) as [s'|]; [|contradiction].
  exists s'. split; [reflexivity|]. eapply tidy_evolves; [exact Hev|exact Tn|exact (K n sw Es)].
Qed.
End Mig.

(** ** Values *)
Lemma tidy_wt_derived : forall E rec c s s' v, tidy_schema c s s' -> c <= scur s -> wt_derived E rec s' v <-> wt_derived E rec s v.
Proof.
  intros E rec c s s' v (Hh & Hb) Hc. unfold wt_derived, wt_fields. rewrite (scur_hist s s' Hh).
  destruct (s_body s) as [fs|vs], (s_body s') as [fs'|vs']; try contradiction; destruct v as [| | | | |l|k l]; try tauto.
  - rewrite (tidy_alive c _ fs fs' Hb Hc). tauto.
  - split; intros (vr & Hi & Hk & Ha & Hw).
    + destruct (tidy_variants_in c vs vs' vr Hb Hi) as (v0 & Hi0 & (E1 & E2 & E3 & _ & _ & _ & E7)). exists v0.
      rewrite (tidy_alive c _ _ _ E7 Hc) in Hw. unfold valive in *. rewrite <- E1, <- E2, <- E3. auto.
    + assert (Hx : exists v1, In v1 vs' /\ tidy_variant c vr v1).
      { clear - Hb Hi Ha Hc. induction Hb as [|v0 v' vs vs' Hv _ IH|v0 vs vs' Hv _ IH]; [contradiction| |].
        - destruct Hi as [<-|Hi]; [exists v'; split; [left; reflexivity|exact Hv]|]. destruct (IH Hi) as (x & Hx & Ht). exists x. split; [right|]; assumption.
        - destruct Hi as [<-|Hi]; [|exact (IH Hi)]. unfold valive in Ha. rewrite (over_dead c) in Ha by assumption. discriminate. }
      destruct Hx as (v1 & Hi1 & (E1 & E2 & E3 & _ & _ & _ & E7)). exists v1. rewrite (tidy_alive c _ _ _ E7 Hc). unfold valive in *. rewrite E1, E2, E3. auto.
Qed.
Lemma tidy_wt_ref : forall E S cut, tidied cut (e_sch E) S -> no_older cut (e_sch E) ->
  forall d n v, wt_ref (set_sch E S) d n v <-> wt_ref E d n v.
Proof.
  intros E S cut T K. induction d as [|d IH]; intros n v; cbn [wt_ref]; [tauto|].
  change (e_sch (set_sch E S) n) with (S n). pose proof (T n) as Hn. destruct (e_sch E n) as [s|] eqn:Es, (S n) as [s'|]; try contradiction; [|tauto].
  change (wt_derived (set_sch E S) (wt_ref (set_sch E S) d) s' v) with (wt_derived E (wt_ref (set_sch E S) d) s' v).
  rewrite (tidy_wt_derived E _ (cut n) s s' v Hn (K n s Es)). split; apply loc_wt_derived; intros f Hf m Hm w Hw; apply IH; exact Hw.
Qed.

(** ** Histories of edits and tidyings *)
Lemma edit_end_le : forall r r' e e', r <= r' -> edit_end r' e e' -> edit_end r e e'.
Proof. intros r r' e e' H [->|(-> & x & -> & Hx)]; [left; reflexivity|]. right. split; [reflexivity|]. exists x. split; [reflexivity|lia]. Qed.
Lemma edit_field_le : forall r r' f f', r <= r' -> edit_field r' f f' -> edit_field r f f'.
Proof. intros r r' f f' H (A1 & A2 & A3 & A4 & A5 & A6). repeat split; auto. eapply edit_end_le; eassumption. Qed.
Lemma edit_fields_le : forall r r' fs fs', r <= r' -> edit_fields r' fs fs' -> edit_fields r fs fs'.
Proof.
  intros r r' fs fs' H He. induction He as [|f f' fs fs' Hf _ IH|f' fs fs' Hf _ IH]; [constructor|apply ef_keep; [eapply edit_field_le; eassumption|exact IH]|].
  apply ef_add; [lia|exact IH].
Qed.
Lemma edit_variants_le : forall r r' vs vs', r <= r' -> edit_variants r' vs vs' -> edit_variants r vs vs'.
Proof.
  intros r r' vs vs' H He. induction He as [|v v' vs vs' Hv _ IH|v' vs vs' Hv _ IH]; [constructor| |apply ev_add; [lia|exact IH]].
  apply ev_keep; [|exact IH]. destruct Hv as (A1 & A2 & A3 & A4 & A5 & A6). repeat split; auto; [intros; apply A4; lia|eapply edit_end_le; eassumption|eapply edit_fields_le; eassumption].
Qed.
Lemma edit_wire_at : forall h r s s', wf_schema s -> edit_schema s s' -> r <= scur s -> sent s r = Some h ->
  same_wire (h_opt h) r (s_body s) (s_body s').
Proof.
  intros h r s s' (H0 & _ & Hb) (_ & He) Hle Hh. unfold edit_body in He. unfold same_wire.
  destruct (s_body s) as [fs|vs], (s_body s') as [fs'|vs']; try contradiction.
  - symmetry. unfold wire_fields. apply (edit_wire_fields (wire_field (h_opt h)) r); [|eapply edit_fields_le; eassumption].
    intros f f'. apply (edit_wire_field (h_opt h) r).
  - apply (edit_variants_le r (scur s) vs vs' Hle) in He. destruct Hb as (_ & _ & Hr). destruct (Hr _ _ Hh) as (ds & Hds & _ & Hopt).
    unfold calc_disc in *. pose proof (edit_gather _ _ _ He []) as Hg. destruct (gather r vs []) as [u|]; [|discriminate].
    rewrite Hg. exists ds, (assign r vs' u 0). split; [exact Hds|]. split; [reflexivity|]. injection Hds as <-.
    pose proof (edit_assign _ _ _ He u 0) as Ha. induction Ha as [|p p' l l' [H1 H2] Hl IH]; [reflexivity|].
    cbn [map]. rewrite (edit_wire_variant (h_opt h) r p p' H1 H2).
    + rewrite IH; [reflexivity|]. intros Ho. specialize (Hopt Ho). cbn [forallb] in Hopt. apply andb_prop in Hopt. apply Hopt.
    + intros Ho. specialize (Hopt Ho). cbn [forallb] in Hopt. apply andb_prop in Hopt. destruct Hopt as [Hopt _].
      unfold opt_variant_ok in Hopt. destruct (v_size (fst p)); [discriminate|]. rewrite andb_false_r in Hopt. discriminate.
Qed.
Lemma wire_trans : forall opt r a b c, same_wire opt r a b -> same_wire opt r b c -> same_wire opt r a c.
Proof.
  intros opt r a b c H1 H2. unfold same_wire in *. destruct a, b, c; try contradiction; [congruence|].
  destruct H1 as (d1 & d2 & A1 & A2 & A3), H2 as (d3 & d4 & B1 & B2 & B3). exists d1, d4. split; [exact A1|]. split; [exact B2|]. congruence.
Qed.

(** [evolves] without its restriction on optimised revisions. *)
Definition keeps (s s' : schema) : Prop :=
  scur s <= scur s' /\ exists h, sent s (scur s) = Some h /\ sent s' (scur s) = Some h /\ same_wire (h_opt h) (scur s) (s_body s) (s_body s').
Definition keeps_all (E E' : env) : Prop :=
  e_fw E = e_fw E' /\ e_spec E = e_spec E' /\ e_ub E = e_ub E' /\
  forall n s, e_sch E n = Some s -> exists s', e_sch E' n = Some s' /\ keeps s s'.
Lemma kept_up_keeps : forall cut W E, wf_env W -> no_older cut (e_sch W) -> kept_up cut W E -> keeps_all W E.
Proof.
  intros cut W E WW K H. induction H as [|E E' _ IH WE (E1 & E2 & E3 & E4)|E S _ IH T].
  - destruct (compatible_refl W WW) as (C1 & C2 & C3 & C4). repeat split; auto. intros n s Hs. destruct (C4 n s Hs) as (s' & Hs' & A & h & B & C & D & _).
    exists s'. split; [exact Hs'|]. split; [exact A|]. exists h. auto.
  - destruct IH as (I1 & I2 & I3 & I4). repeat split; try congruence. intros n sw Hs. destruct (I4 n sw Hs) as (s & Es & Hle & h & A & B & C).
    destruct (E4 n s Es) as (s' & Es' & He). exists s'. split; [exact Es'|]. pose proof He as ((more & Hm) & _).
    split; [unfold scur in *; rewrite Hm, len_app; lia|]. exists h. split; [exact A|]. split; [eapply sent_app; eassumption|].
    eapply wire_trans; [exact C|]. apply edit_wire_at; auto. exact (we_sch _ WE _ _ Es).
  - destruct IH as (I1 & I2 & I3 & I4). repeat split; auto. intros n sw Hs. destruct (I4 n sw Hs) as (s & Es & Hle & h & A & B & C).
    pose proof (T n) as Tn. rewrite Es in Tn. change (e_sch (set_sch E S) n) with (S n). destruct (S n) as [s'|]; [|contradiction].
    exists s'. split; [reflexivity|]. pose proof (proj1 Tn) as Hh. unfold keeps. rewrite (scur_hist s s' Hh), (sent_hist s s' _ Hh). split; [exact Hle|].
    exists h. split; [exact A|]. split; [exact B|]. eapply tidy_same_wire; [exact Tn|exact (K n sw Hs)|exact C].
Qed.
Lemma keeps_compatible : forall W E, keeps_all W E ->
  (forall n s s' h, e_sch W n = Some s -> e_sch E n = Some s' -> sent s (scur s) = Some h -> h_opt h = true -> opt_restricted (scur s) s') ->
  compatible W E.
Proof.
  intros W E (I1 & I2 & I3 & I4) O. repeat split; auto. intros n s Hs. destruct (I4 n s Hs) as (s' & Es & Hle & h & A & B & C). exists s'. split; [exact Es|].
  split; [exact Hle|]. exists h. repeat split; auto. intros Ho. exact (O n s s' h Hs Es A Ho).
Qed.

Lemma tidy_numbering : forall c r vs vs', tidy_variants c vs vs' -> c <= r -> numbering r vs' = numbering r vs.
Proof.
  intros c r vs vs' H Hr. unfold numbering. pose proof (tidy_calc c r vs vs' H Hr) as Hd.
  destruct (calc_disc r vs) as [ds|], (calc_disc r vs') as [ds'|]; try contradiction; [|reflexivity]. cbn [option_map]. f_equal.
  induction Hd as [|[v d] [v' d'] l l' [(H1 & _) H2] _ IH]; [reflexivity|]. cbn [map fst snd] in *. rewrite IH, H1, H2. reflexivity.
Qed.
