(** C57: looking into data by hand, with the tables the derive emits. *)

From Verif Require Import Base BaseL Prog ProgL Prim PrimL Tag Ty Ser De Typed Mig SortL DiscL RtL RtTy RtDer RtSch RtId Agree SerL PartsL Spec Cross Evol EvolL MigL Ex Parts Users PropMig SliceReader Skip SkipL PropSkip RollL Walk WalkSpec WalkL PropSlice WalkEncL WalkConvL WalkSess PropWalk WalkRef Hand.
From Coq Require Import List NArith ZArith Bool Lia Permutation Sorted.
Import ListNotations.
Open Scope N_scope.

(** ** The tables *)

(** At a known revision the variant table has one entry for each variant alive there, with distinct
    discriminants, those of the wire; at any other revision it is empty. *)
Theorem C57_variant_table : forall E n s vs r, wf_env E -> e_sch E n = Some s -> s_body s = SEnum vs ->
  (1 <= r <= scur s -> map fst (variant_table s r) = map v_name (filter (valive r) vs) /\ NoDup (map fst (variant_table s r))
     /\ NoDup (map snd (variant_table s r)))
  /\ (~ 1 <= r <= scur s -> variant_table s r = [])
  /\ forall k d, variant_name s r d = Some k <-> In (k, d) (variant_table s r).
Proof.
  intros E n s vs r W Es Eb. destruct (we_sch E W n s Es) as (_ & _ & H). rewrite Eb in H. destruct H as (Hn & _ & Hr).
  assert (Hd : 1 <= r <= scur s -> exists ds, calc_disc r vs = Some ds /\ variant_table s r = map (fun p => (v_name (fst p), snd p)) ds).
  { intros Hk. assert (Hs : exists h, sent s r = Some h).
    { unfold sent. replace (r =? 0) with false by (symmetry; apply N.eqb_neq; lia).
      destruct (nth_error (s_hist s) (N.to_nat (r - 1))) eqn:En; [eauto|]. apply nth_error_None in En. unfold scur, len in Hk. lia. }
    destruct Hs as (h & Hs). destruct (Hr r h Hs) as (ds & Hd & _). exists ds. split; [exact Hd|]. unfold variant_table, known. rewrite Eb, Hd.
    replace (1 <=? r) with true by (symmetry; apply N.leb_le; lia). replace (r <=? scur s) with true by (symmetry; apply N.leb_le; lia). reflexivity. }
  assert (H0 : ~ 1 <= r <= scur s -> variant_table s r = []).
  { intros Hk. unfold variant_table, known. rewrite Eb. destruct (1 <=? r) eqn:E1; [|reflexivity]. apply N.leb_le in E1.
    destruct (r <=? scur s) eqn:E2; [|reflexivity]. apply N.leb_le in E2. lia. }
  assert (H1 : 1 <= r <= scur s -> map fst (variant_table s r) = map v_name (filter (valive r) vs) /\ NoDup (map fst (variant_table s r)) /\ NoDup (map snd (variant_table s r))).
  { intros Hk. destruct (Hd Hk) as (ds & Hc & ->). rewrite !map_map. cbn [fst snd].
    assert (Hf : map (fun x : variant * N => v_name (fst x)) ds = map v_name (filter (valive r) vs)) by (rewrite <- (calc_disc_fst r vs ds Hc), map_map; reflexivity).
    rewrite Hf. split; [reflexivity|]. split.
    - clear - Hn. induction vs as [|v vs IH]; [constructor|]. cbn [map] in Hn. inversion Hn; subst. cbn [filter]. destruct (valive r v); [|auto].
      cbn [map]. constructor; [|auto]. intros Hx. apply H1. apply in_map_iff in Hx. destruct Hx as (y & Hy & Hi). apply filter_In in Hi. apply in_map_iff. exists y. tauto.
    - exact (calc_disc_nodup r vs ds Hc). }
  split; [exact H1|]. split; [exact H0|]. intros k d. unfold variant_name. split.
  - destruct (find (fun p => snd p =? d) (variant_table s r)) as [[k0 d0]|] eqn:Ef; intros Hx; [|discriminate]. inversion Hx; subst. apply find_some in Ef.
    destruct Ef as [Hi He]. apply N.eqb_eq in He. cbn [snd] in He. subst. exact Hi.
  - intros Hi. destruct (N.le_gt_cases 1 r) as [L1|L1]; [destruct (N.le_gt_cases r (scur s)) as [L2|L2]|];
      [|rewrite H0 in Hi by lia; destruct Hi|rewrite H0 in Hi by lia; destruct Hi].
    destruct H1 as (_ & _ & Hnd); [lia|]. erewrite (find_some_uniq _ _ _ (k, d)); [reflexivity|exact Hi|apply N.eqb_refl|].
    intros y Hy He. apply N.eqb_eq in He. eapply NoDup_map_inj; [exact Hnd|exact Hy|exact Hi|exact He].
Qed.

(** The field table: the places of the fields alive at a known revision, ascending; nothing otherwise. *)
Lemma alive_at_in : forall r fs i j, In j (alive_at r i fs) <-> exists f, (i <= j)%nat /\ nth_error fs (j - i) = Some f /\ falive r f = true.
Proof.
  intros r. induction fs as [|f fs IH]; intros i j; cbn [alive_at].
  - split; [intros []|]. intros (f & _ & H & _). destruct (j - i)%nat; discriminate.
  - assert (Hs : In j (alive_at r (S i) fs) <-> exists f', (S i <= j)%nat /\ nth_error (f :: fs) (j - i) = Some f' /\ falive r f' = true).
    { rewrite IH. split; intros (f' & Hl & Hn & Ha); exists f'; (split; [exact Hl|]); (split; [|exact Ha]); replace (j - i)%nat with (S (j - S i)) in * by lia; exact Hn. }
    destruct (falive r f) eqn:Ea; cbn [In]; rewrite Hs; split.
    + intros [<-|(f' & Hl & H)]; [exists f; rewrite Nat.sub_diag; repeat split; auto|exists f'; split; [lia|exact H]].
    + intros (f' & Hl & H). destruct (Nat.eq_dec i j) as [He|He]; [left; exact He|right; exists f'; split; [lia|exact H]].
    + intros (f' & Hl & H). exists f'. split; [lia|exact H].
    + intros (f' & Hl & H). exists f'. split; [|exact H]. destruct (Nat.eq_dec i j) as [He|He]; [|lia]. subst j. rewrite Nat.sub_diag in H. destruct H as [H Ha]. inversion H; subst. congruence.
Qed.
Lemma alive_at_sorted : forall r fs i, StronglySorted lt (alive_at r i fs).
Proof.
  intros r. induction fs as [|f fs IH]; intros i; cbn [alive_at]; [constructor|]. destruct (falive r f); [|apply IH]. constructor; [apply IH|].
  apply Forall_forall. intros j Hj. apply alive_at_in in Hj. destruct Hj as (_ & Hl & _). lia.
Qed.
Theorem C57_field_table : forall s fs r, s_body s = SStruct fs ->
  StronglySorted lt (field_names s r)
  /\ forall i, In i (field_names s r) <-> 1 <= r <= scur s /\ exists f, nth_error fs i = Some f /\ falive r f = true.
Proof.
  intros s fs r Eb. unfold field_names, known. rewrite Eb. destruct (N.leb_spec 1 r); [destruct (N.leb_spec r (scur s))|]; cbn [andb].
  - split; [apply alive_at_sorted|]. intros i. rewrite alive_at_in, Nat.sub_0_r. split.
    + intros (f & _ & H1). split; [lia|eauto].
    + intros (_ & f & H1). exists f. split; [lia|exact H1].
  - split; [constructor|]. intros i. split; [intros []|]. intros [? _]. lia.
  - split; [constructor|]. intros i. split; [intros []|]. intros [? _]. lia.
Qed.

(** ** By hand *)

(** The types of the fields that the table lists for revision [r]. *)
Definition listed_types (s : schema) (r : N) (ts : list ty) : Prop :=
  exists fs, s_body s = SStruct fs /\ Forall2 (fun i t => exists f, nth_error fs i = Some f /\ f_ty f = t) (field_names s r) ts.
(** The types of the fields at revision [r] of the variant that the table names for [d]. *)
Definition named_types (s : schema) (r d : N) (ts : list ty) : Prop :=
  exists vs vr, s_body s = SEnum vs /\ In vr vs /\ variant_name s r d = Some (v_name vr) /\ ts = map f_ty (filter (falive r) (v_fields vr)).

(** One call each for the values [l], written by [E] with types [ts], in any mixture; what it shows: the value
    as the reading program [E'] understands it, nothing if skipped, and for a walk what the walker of that type
    shows given those bytes. *)
Inductive touched (E E' : env) (D d d' : nat) : list hop -> list ty -> list val -> list obs -> Prop :=
| t_nil : touched E E' D d d' [] [] [] []
| t_decode : forall t v v' ops ts l xs, migrate E E' d t v = Ok v' -> touched E E' D d d' ops ts l xs ->
    touched E E' D d d' (HDecode t :: ops) (t :: ts) (v :: l) (OVal v' :: xs)
| t_skip : forall t v v' ops ts l xs, migrate E E' d t v = Ok v' -> touched E E' D d d' ops ts l xs ->
    touched E E' D d d' (HSkip t :: ops) (t :: ts) (v :: l) (ODone :: xs)
| t_walk : forall t w v b x ops ts l xs, to_vec E d t v = Ok b ->
    (forall rest o, wfb (b ++ rest) -> len (b ++ rest) < 2 ^ e_ub E' -> walk_with E' D d' t w (mkSR (b ++ rest) o) = Ok (x, mkSR rest o)) ->
    touched E E' D d d' ops ts l xs ->
    touched E E' D d d' (HWalk t w :: ops) (t :: ts) (v :: l) (x :: xs).

(** Without [fixed] or [specialised] the fields are written through their types' own encoding. *)
Definition plain_fields (r : N) (fs : list field) : Prop := forall f, In f fs -> falive r f = true -> f_fixed f = false /\ f_spec f = false.

Section ByHand.
Variables E E' : env.
Hypothesis W : wf_env E.
Hypothesis W' : wf_env E'.
Hypothesis C : compatible E E'.
Hypothesis Hh : sizes_honest E.
Hypothesis Hm : e_mem E' = None.
Hypothesis SB : spec_built E'.

Lemma hand_bytes : forall d r fs l ops, plain_fields r fs -> sconcat (ser_fields E (ser_ref E d) false r fs l) = Ok ops ->
  exists bs, Forall3_enc E d (filter (falive r) fs) l bs /\ out ops = concat bs.
Proof.
  intros d r fs l ops Hp H. apply sconcat_bytes in H. destruct H as (bs & H & ->). exists bs. split; [|reflexivity].
  revert l bs H Hp. induction fs as [|f fs IH]; intros l bs H Hp; cbn [ser_fields] in H.
  - destruct l; [|discriminate]. inversion H. constructor.
  - cbn [filter]. assert (Hp' : plain_fields r fs) by (intros g Hg; apply Hp; right; exact Hg). destruct (falive r f) eqn:Ea; [|auto]. destruct l as [|v l]; [discriminate|]. cbn [rmapM] in H.
    apply rbind_ok in H. destruct H as (b & Hb & H). apply rbind_ok in H. destruct H as (bs' & Hbs & H).
    apply Ok_inj in H. subst bs. constructor; [|auto]. destruct (Hp f (or_introl eq_refl) Ea) as [H1 H2].
    unfold mode_of, mode_legacy in Hb. rewrite H1, H2 in Hb. exact Hb.
Qed.

Lemma touch_run : forall D d d', (d <= d')%nat -> forall ops ts l xs, touched E E' D d d' ops ts l xs ->
  forall fs bs rest o h, Forall3_enc E d fs l bs -> map f_ty fs = ts -> Forall2 (fun f v => wt E d (f_ty f) v) fs l ->
  wfb (concat bs ++ rest) -> len (concat bs ++ rest) < 2 ^ e_ub E' -> hw_position h + len ops < 2 ^ 32 ->
  hand_run E' D d' ops h (mkSR (concat bs ++ rest) o) = Ok ((xs, mkHand (hw_revision h) (hw_position h + len ops)), mkSR rest o).
Proof.
  intros D d d' Hd ops ts l xs H.
  assert (Hdec : forall t v b v' rest, wt E d t v -> to_vec E d t v = Ok b -> migrate E E' d t v = Ok v' -> run (deserialize E' d' t) (b ++ rest) = Ok (v', rest)).
  { intros t v b v' rest Hw Hb Hv. destruct (cross E E' d d' t v b rest W W' C Hh Hw Hd) as [Hx|[Hx _]]; [rewrite Hv; discriminate|exact Hb| |congruence]. rewrite Hv in Hx. exact Hx. }
  assert (Hstep : forall op x b y o h, hop_on E' D d' op (mkSR (b ++ y) o) = Ok (x, mkSR y o) -> hw_position h + 1 < 2 ^ 32 ->
            hand_step E' D d' op h (mkSR (b ++ y) o) = Ok ((x, mkHand (hw_revision h) (hw_position h + 1)), mkSR y o)).
  { intros op x b y o h Hx Hp. unfold hand_step, sm_bind. rewrite Hx. unfold sm_res, hand_next. replace (2 ^ 32 <=? hw_position h + 1) with false by (symmetry; apply N.leb_gt; exact Hp).
    rewrite andb_false_r, N.mod_small by exact Hp. reflexivity. }
  assert (Hgo : forall op x b bs ops ts l xs (fs : list field), hop_on E' D d' op = hop_on E' D d' op ->
     (forall y o, wfb (b ++ y) -> len (b ++ y) < 2 ^ e_ub E' -> hop_on E' D d' op (mkSR (b ++ y) o) = Ok (x, mkSR y o)) ->
     (forall fs bs rest o h, Forall3_enc E d fs l bs -> map f_ty fs = ts -> Forall2 (fun f v => wt E d (f_ty f) v) fs l ->
        wfb (concat bs ++ rest) -> len (concat bs ++ rest) < 2 ^ e_ub E' -> hw_position h + len ops < 2 ^ 32 ->
        hand_run E' D d' ops h (mkSR (concat bs ++ rest) o) = Ok ((xs, mkHand (hw_revision h) (hw_position h + len ops)), mkSR rest o)) ->
     forall rest o h, Forall3_enc E d fs l bs -> map f_ty fs = ts -> Forall2 (fun f v => wt E d (f_ty f) v) fs l ->
        wfb (concat (b :: bs) ++ rest) -> len (concat (b :: bs) ++ rest) < 2 ^ e_ub E' -> hw_position h + len (op :: ops) < 2 ^ 32 ->
        hand_run E' D d' (op :: ops) h (mkSR (concat (b :: bs) ++ rest) o) = Ok ((x :: xs, mkHand (hw_revision h) (hw_position h + len (op :: ops))), mkSR rest o)).
  { intros op x b bs ops0 ts0 l0 xs0 fs _ Hop IH rest o h He Ht Hw Hb Hl Hp. cbn [concat] in *. rewrite <- app_assoc in *.
    assert (Hlen : len (op :: ops0) = 1 + len ops0) by (unfold len; cbn [length]; lia). rewrite Hlen in *.
    cbn [hand_run]. unfold sm_bind at 1. rewrite (Hstep op x b (concat bs ++ rest) o h (Hop _ _ Hb Hl)) by lia. cbn [fst snd].
    apply wfb_app in Hb. rewrite len_app in Hl. unfold sm_bind. rewrite (IH fs bs rest o _ He Ht Hw (proj2 Hb)) by (cbn [hw_position]; lia).
    cbn [fst snd hw_revision hw_position]. unfold sm_ret. do 4 f_equal. lia. }
  induction H as [|t v v' ops ts l xs Hv H IH|t v v' ops ts l xs Hv H IH|t w v b x ops ts l xs Hs Hx H IH]; intros fs bs rest o h He Ht Hw Hb Hl Hp.
  - inversion He; subst. cbn [concat app hand_run]. unfold sm_ret. cbn [len]. change (len (@nil hop)) with 0. rewrite N.add_0_r. destruct h; reflexivity.
  - inversion He as [|f fs' v0 l0 b bs' Hs He']; subst. cbn [map] in Ht. injection Ht as Ht1 Ht2. subst t. inversion Hw; subst.
    apply (Hgo (HDecode (f_ty f)) (OVal v') b bs' ops (map f_ty fs') l xs fs' eq_refl); [|exact IH|exact He'|reflexivity|assumption|exact Hb|exact Hl|exact Hp].
    intros y o' _ _. cbn [hop_on]. unfold sm_map, sm_bind. rewrite sr_run_run. cbn [sr_inner sr_orig]. rewrite (Hdec (f_ty f) v b v' y) by assumption. reflexivity.
  - inversion He as [|f fs' v0 l0 b bs' Hs He']; subst. cbn [map] in Ht. injection Ht as Ht1 Ht2. subst t. inversion Hw; subst.
    apply (Hgo (HSkip (f_ty f)) ODone b bs' ops (map f_ty fs') l xs fs' eq_refl); [|exact IH|exact He'|reflexivity|assumption|exact Hb|exact Hl|exact Hp].
    intros y o' _ Hl'. cbn [hop_on]. unfold sm_map, sm_bind. rewrite sr_run_run. cbn [sr_inner sr_orig].
    rewrite (C12_skip_consumes_what_deserialize_consumes E' d' (f_ty f) (b ++ y) v' y SB Hl' (Hdec (f_ty f) v b v' y ltac:(assumption) Hs Hv)). reflexivity.
  - inversion He as [|f fs' v0 l0 b0 bs' Hs' He']; subst. cbn [map] in Ht. injection Ht as Ht1 Ht2. subst t. inversion Hw; subst.
    rewrite Hs in Hs'. apply Ok_inj in Hs'. subst b0.
    apply (Hgo (HWalk (f_ty f) w) x b bs' ops (map f_ty fs') l xs fs' eq_refl); [|exact IH|exact He'|reflexivity|assumption|exact Hb|exact Hl|exact Hp].
    intros y o' Hb' Hl'. exact (Hx y o' Hb' Hl').
Qed.

(** What the reader finds: the revision, then the fields. *)
Lemma header_run : forall s x o, wf_schema s -> sr_run (de_u16 (e_fw E')) (mkSR (ser_u16 (e_fw E) (scur s) ++ x) o) = Ok (scur s, mkSR x o).
Proof.
  intros s x o (_ & H & _). rewrite sr_run_run. cbn [sr_inner sr_orig]. destruct C as (<- & _). rewrite rt_u16 by exact H. reflexivity.
Qed.
Lemma struct_hand : forall D d d' n s s' h fs l b rest o choose ts xs,
  wt E (S d) (TRef n) (VSeq l) -> to_vec E (S d) (TRef n) (VSeq l) = Ok b -> (d <= d')%nat ->
  e_sch E n = Some s -> s_body s = SStruct fs -> sent s (scur s) = Some h -> h_opt h = false -> plain_fields (scur s) fs -> e_sch E' n = Some s' ->
  wfb (b ++ rest) -> len (b ++ rest) < 2 ^ e_ub E' -> len l < 2 ^ 32 ->
  listed_types s' (scur s) ts -> touched E E' D d d' (choose (scur s)) ts l xs ->
  struct_by_hand E' D d' choose (mkSR (b ++ rest) o) = Ok ((xs, mkHand (scur s) (len l)), mkSR rest o).
Proof.
  intros D d d' n s s' h fs l b rest o choose ts xs Hw Hs Hd Es Eb En Eo Hp Es' Hb Hl H32 (fs' & Eb' & Hts) Ht.
  apply to_vec_ok in Hs. destruct Hs as (ops & Hs & ->). unfold to_writer in Hs. cbn [ser_ty ser_ref] in Hs. rewrite Es in Hs. unfold ser_derived in Hs.
  rewrite En, Eb in Hs. unfold ser_struct in Hs. rewrite Eo in Hs. apply sbind_ok in Hs. destruct Hs as (la & lb & Hla & Hs & ->).
  apply Ok_inj in Hla. subst la. destruct (hand_bytes d (scur s) fs l lb Hp Hs) as (bs & He & Hout).
  rewrite out_app, Hout in *. unfold out in Hb, Hl |- * at 1. cbn [flat_map wop_bytes] in *. rewrite app_nil_r, <- app_assoc in *.
  unfold struct_by_hand, sm_bind. rewrite header_run by (apply (we_sch E W n); exact Es).
  assert (Hlen : forall ops ts l xs, touched E E' D d d' ops ts l xs -> len ops = len l) by (intros ops0 ts0 l0 xs0 H0; unfold len; induction H0; cbn [length]; lia).
  pose proof (Hlen _ _ _ _ Ht) as Hlo. apply wfb_app in Hb. rewrite len_app in Hl.
  unfold wt in Hw. cbn [wt_ty wt_ref] in Hw. rewrite Es in Hw. unfold wt_derived in Hw. rewrite Eb in Hw.
  pose proof C as (_ & _ & _ & Hev). destruct (Hev n s Es) as (s0 & Es0 & Hle & h0 & Hh0 & _ & Hwire & _). rewrite Es' in Es0. inversion Es0; subst s0.
  rewrite Eb, Eb' in Hwire. cbn [same_wire] in Hwire. apply wire_tys in Hwire.
  assert (Htys : map f_ty (filter (falive (scur s)) fs) = ts).
  { rewrite Hwire. unfold field_names in Hts. rewrite Eb' in Hts. unfold known in Hts. destruct (we_sch E W n s Es) as (Hpos & _).
    replace (1 <=? scur s) with true in Hts by (symmetry; apply N.leb_le; lia). replace (scur s <=? scur s') with true in Hts by (symmetry; apply N.leb_le; exact Hle). cbn [andb] in Hts.
    assert (Hgen : forall pre post ts, Forall2 (fun i t => exists f, nth_error (pre ++ post) i = Some f /\ f_ty f = t) (alive_at (scur s) (length pre) post) ts -> map f_ty (filter (falive (scur s)) post) = ts).
    { clear. intros pre post. revert pre. induction post as [|f post IH]; intros pre ts H; cbn [alive_at filter] in *; [inversion H; reflexivity|].
      assert (Hpre : length (pre ++ [f]) = S (length pre)) by (rewrite app_length; cbn [length]; lia).
      destruct (falive (scur s) f).
      - inversion H as [|i t js ts' (g & Hg & <-) H']; subst. rewrite nth_error_app2, Nat.sub_diag in Hg by lia. cbn [nth_error] in Hg. inversion Hg; subst g. cbn [map]. f_equal.
        apply (IH (pre ++ [f])). rewrite Hpre, <- app_assoc. exact H'.
      - apply (IH (pre ++ [f])). rewrite Hpre, <- app_assoc. exact H. }
    exact (Hgen [] fs' ts Hts). }
  rewrite (touch_run D d d' Hd _ _ _ _ Ht (filter (falive (scur s)) fs) bs rest o (mkHand (scur s) 0) He Htys Hw (proj2 Hb)) by (cbn [hw_position]; lia).
  cbn [hw_revision hw_position]. rewrite Hlo. reflexivity.
Qed.

(** The discriminant written, and the name both programs have for it. *)
Lemma named : forall n s s' vs vs' vr k ds, e_sch E n = Some s -> s_body s = SEnum vs -> e_sch E' n = Some s' -> s_body s' = SEnum vs' ->
  calc_disc (scur s) vs = Some ds -> In (vr, k) ds ->
  exists h vr', sent s (scur s) = Some h /\ In vr' vs' /\ v_name vr' = v_name vr /\ variant_name s' (scur s) k = Some (v_name vr)
    /\ wire_variant (h_opt h) (scur s) (vr, k) = wire_variant (h_opt h) (scur s) (vr', k).
Proof.
  intros n s s' vs vs' vr k ds Es Eb Es' Eb' Hc Hi. pose proof C as (_ & _ & _ & Hev). destruct (Hev n s Es) as (s0 & Es0 & Hle & h & Hh0 & _ & Hwire & _). rewrite Es' in Es0. inversion Es0; subst s0.
  rewrite Eb, Eb' in Hwire. cbn [same_wire] in Hwire. destruct Hwire as (ds0 & ds' & Hc0 & Hc' & Hm0). rewrite Hc in Hc0. inversion Hc0; subst ds0.
  destruct (variant_match _ _ _ _ _ _ _ _ Hc Hc' Hm0 Hi) as (vr' & Hi' & Hv' & _ & Hn & Hwv). exists h, vr'. repeat (split; [assumption|]). split; [|exact Hwv].
  apply (proj2 (proj2 (C57_variant_table E' n s' vs' (scur s) W' Es' Eb'))). unfold variant_table, known. rewrite Eb', Hc'. destruct (we_sch E W n s Es) as (Hpos & _).
  replace (1 <=? scur s) with true by (symmetry; apply N.leb_le; lia). replace (scur s <=? scur s') with true by (symmetry; apply N.leb_le; exact Hle). cbn [andb].
  apply in_map_iff. exists (vr', k). cbn [fst snd]. rewrite Hn. auto.
Qed.
Lemma written_variant : forall d n s vs k l b, wt E (S d) (TRef n) (VVar k l) -> to_vec E (S d) (TRef n) (VVar k l) = Ok b -> e_sch E n = Some s -> s_body s = SEnum vs ->
  exists h ds vr x ops, sent s (scur s) = Some h /\ calc_disc (scur s) vs = Some ds /\ In (vr, x) ds /\ v_name vr = k /\ In vr vs /\ x < 2 ^ 32
    /\ (h_opt h = true -> x < 32)
    /\ wt_fields E (wt_ref E d) (scur s) (v_fields vr) l
    /\ b = ser_u16 (e_fw E) (scur s) ++ out ops
    /\ (if h_opt h then ser_variant_opt E (ser_ref E d) (scur s) vr x l else sall (ser_u32 (e_fw E) x) +++ sconcat (ser_fields E (ser_ref E d) false (scur s) (v_fields vr) l)) = Ok ops.
Proof.
  intros d n s vs k l b Hw Hs Es Eb. apply to_vec_ok in Hs. destruct Hs as (ops & Hs & ->). unfold to_writer in Hs. cbn [ser_ty ser_ref] in Hs. rewrite Es in Hs. unfold ser_derived in Hs.
  destruct (sent s (scur s)) as [h|] eqn:En; [|discriminate]. rewrite Eb in Hs. apply sbind_ok in Hs. destruct Hs as (la & lb & Hla & Hs & ->).
  apply Ok_inj in Hla. subst la. unfold ser_enum in Hs. destruct (calc_disc (scur s) vs) as [ds|] eqn:Hc; [|discriminate]. destruct (find_name k ds) as [[vr x]|] eqn:Ef; [|discriminate].
  destruct (find_some _ _ Ef) as [Hi Hk]. cbn [fst] in Hk. apply N.eqb_eq in Hk.
  destruct (we_sch E W n s Es) as (_ & _ & Hsch). rewrite Eb in Hsch. destruct Hsch as (Hnd & _ & Hr). destruct (Hr _ _ En) as (ds0 & Hc0 & Hx & Hopt). rewrite Hc in Hc0. inversion Hc0; subst ds0.
  rewrite Forall_forall in Hx. assert (Hin : In vr vs) by (assert (Hz : In vr (map fst ds)) by (apply in_map_iff; exists (vr, x); auto); rewrite (calc_disc_fst _ _ _ Hc) in Hz; apply filter_In in Hz; apply Hz).
  unfold wt in Hw. cbn [wt_ty wt_ref] in Hw. rewrite Es in Hw. unfold wt_derived in Hw. rewrite Eb in Hw. destruct Hw as (vr0 & Hi0 & Hk0 & _ & Hf).
  assert (vr0 = vr) by (eapply NoDup_map_inj; [exact Hnd|exact Hi0|exact Hin|congruence]). subst vr0.
  exists h, ds, vr, x, lb. repeat (split; [first [assumption|reflexivity]|]). split; [exact (Hx _ Hi)|]. split.
  { intros Ho. specialize (Hopt Ho). rewrite forallb_forall in Hopt. specialize (Hopt _ Hi). unfold opt_variant_ok in Hopt. apply andb_prop in Hopt. destruct Hopt as [Hlt _]. apply N.ltb_lt in Hlt. exact Hlt. }
  split; [exact Hf|]. split; [|exact Hs]. rewrite out_app. unfold out at 1. cbn [flat_map wop_bytes]. rewrite app_nil_r. reflexivity.
Qed.

Lemma enum_hand : forall D d d' n s s' vs vs' h k l b rest o choose,
  wt E (S d) (TRef n) (VVar k l) -> to_vec E (S d) (TRef n) (VVar k l) = Ok b -> (d <= d')%nat ->
  e_sch E n = Some s -> s_body s = SEnum vs -> sent s (scur s) = Some h -> h_opt h = false -> (forall vr, In vr vs -> plain_fields (scur s) (v_fields vr)) ->
  e_sch E' n = Some s' -> s_body s' = SEnum vs' ->
  wfb (b ++ rest) -> len (b ++ rest) < 2 ^ e_ub E' -> len l < 2 ^ 32 ->
  exists x, variant_name s' (scur s) x = Some k
    /\ forall ts xs, named_types s' (scur s) x ts -> touched E E' D d d' (choose (scur s) x) ts l xs ->
       enum_by_hand E' D d' choose (mkSR (b ++ rest) o) = Ok ((scur s, x, xs), mkSR rest o).
Proof.
  intros D d d' n s s' vs vs' h k l b rest o choose Hw Hs Hd Es Eb En Eo Hp Es' Eb' Hb Hl H32.
  destruct (written_variant d n s vs k l b Hw Hs Es Eb) as (h0 & ds & vr & x & ops & En0 & Hc & Hi & Hk & Hin & Hx & _ & Hf & Hbe & Ho). rewrite En in En0. inversion En0; subst h0.
  rewrite Eo in Ho. destruct (named n s s' vs vs' vr x ds Es Eb Es' Eb' Hc Hi) as (h1 & vr' & En1 & Hin' & Hn' & Hname & Hwv). rewrite En in En1. inversion En1; subst h1.
  exists x. subst k. split; [exact Hname|]. intros ts xs (vs0 & vr0 & Eb0 & Hin0 & Hname0 & ->) Ht. rewrite Eb' in Eb0. inversion Eb0; subst vs0.
  destruct (we_sch E' W' n s' Es') as (_ & _ & Hsch). rewrite Eb' in Hsch. destruct Hsch as (Hnd & _).
  assert (vr0 = vr') by (eapply NoDup_map_inj; [exact Hnd|exact Hin0|exact Hin'|congruence]). subst vr0.
  rewrite Eo in Hwv. apply variant_tys in Hwv. apply sbind_ok in Ho. destruct Ho as (la & lb & Hla & Ho & ->). apply Ok_inj in Hla. subst la.
  destruct (hand_bytes d (scur s) (v_fields vr) l lb (Hp vr Hin) Ho) as (bs & He & Hout). rewrite out_app, Hout in Hbe. unfold out in Hbe. cbn [flat_map wop_bytes] in Hbe. rewrite app_nil_r in Hbe. subst b.
  rewrite <- !app_assoc in *. unfold enum_by_hand, sm_bind at 1. rewrite header_run by (apply (we_sch E W n); exact Es).
  unfold enum_walker, sm_bind. rewrite sr_run_run. cbn [sr_inner sr_orig]. pose proof C as (Hfw & _). rewrite <- Hfw. rewrite rt_u32 by exact Hx. cbn [with_orig rmap sm_ret fst snd].
  unfold sm_ret. cbn [fst snd].
  assert (Hlen : forall ops ts l xs, touched E E' D d d' ops ts l xs -> len ops = len l) by (intros ops0 ts0 l0 xs0 H0; unfold len; induction H0; cbn [length]; lia).
  pose proof (Hlen _ _ _ _ Ht) as Hlo. apply wfb_app in Hb. destruct Hb as [_ Hb]. apply wfb_app in Hb. rewrite !len_app in Hl. 
  rewrite (touch_run D d d' Hd _ _ _ _ Ht (filter (falive (scur s)) (v_fields vr)) bs rest o (mkHand (scur s) 0) He Hwv Hf (proj2 Hb)); [reflexivity| |].
  - rewrite len_app. lia.
  - cbn [hw_position]. lia.
Qed.
End ByHand.

(** Bytes written by a program, read with a StructWalker by any later version of it, in any mixture of
    decoding, skipping and walking: the revision says which fields there are, the fields come in the order of
    the table, and after the last of them the reader is at the end of the value. *)
Theorem C57_struct_by_hand : forall E E' D d d' n s s' h fs l b rest o choose ts xs,
  wf_env E -> wf_env E' -> later E E' -> opt_safe E E' -> sizes_honest E -> e_mem E' = None -> spec_built E' ->
  wt E (S d) (TRef n) (VSeq l) -> to_vec E (S d) (TRef n) (VSeq l) = Ok b -> (d <= d')%nat ->
  e_sch E n = Some s -> s_body s = SStruct fs -> sent s (scur s) = Some h -> h_opt h = false -> plain_fields (scur s) fs -> e_sch E' n = Some s' ->
  wfb (b ++ rest) -> len (b ++ rest) < 2 ^ e_ub E' -> len l < 2 ^ 32 ->
  listed_types s' (scur s) ts -> touched E E' D d d' (choose (scur s)) ts l xs ->
  struct_by_hand E' D d' choose (mkSR (b ++ rest) o) = Ok ((xs, mkHand (scur s) (len l)), mkSR rest o).
Proof.
  intros E E' D d d' n s s' h fs l b rest o choose ts xs W W' L O Hh Hm SB. exact (struct_hand E E' W W' (later_compatible E E' W L O) Hh Hm SB D d d' n s s' h fs l b rest o choose ts xs).
Qed.

(** The same for enums: the discriminant names the variant that was written, in the table of the reading
    program for the revision on the wire. *)
Theorem C57_enum_by_hand : forall E E' D d d' n s s' vs vs' h k l b rest o choose,
  wf_env E -> wf_env E' -> later E E' -> opt_safe E E' -> sizes_honest E -> e_mem E' = None -> spec_built E' ->
  wt E (S d) (TRef n) (VVar k l) -> to_vec E (S d) (TRef n) (VVar k l) = Ok b -> (d <= d')%nat ->
  e_sch E n = Some s -> s_body s = SEnum vs -> sent s (scur s) = Some h -> h_opt h = false -> (forall vr, In vr vs -> plain_fields (scur s) (v_fields vr)) ->
  e_sch E' n = Some s' -> s_body s' = SEnum vs' ->
  wfb (b ++ rest) -> len (b ++ rest) < 2 ^ e_ub E' -> len l < 2 ^ 32 ->
  exists x, variant_name s' (scur s) x = Some k
    /\ forall ts xs, named_types s' (scur s) x ts -> touched E E' D d d' (choose (scur s) x) ts l xs ->
       enum_by_hand E' D d' choose (mkSR (b ++ rest) o) = Ok ((scur s, x, xs), mkSR rest o).
Proof.
  intros E E' D d d' n s s' vs vs' h k l b rest o choose W W' L O Hh Hm SB. exact (enum_hand E E' W W' (later_compatible E E' W L O) Hh Hm SB D d d' n s s' vs vs' h k l b rest o choose).
Qed.

(** Optimised enums: the byte after the revision holds the discriminant, and it names the variant. *)
Theorem C57_optimised_named : forall E E' d n s s' vs vs' h k l b,
  wf_env E -> wf_env E' -> later E E' -> opt_safe E E' -> wt E (S d) (TRef n) (VVar k l) -> to_vec E (S d) (TRef n) (VVar k l) = Ok b ->
  e_sch E n = Some s -> s_body s = SEnum vs -> sent s (scur s) = Some h -> h_opt h = true -> e_sch E' n = Some s' -> s_body s' = SEnum vs' ->
  exists tag body, b = ser_u16 (e_fw E) (scur s) ++ tag :: body /\ variant_name s' (scur s) (variant_id tag) = Some k.
Proof.
  intros E E' d n s s' vs vs' h k l b W W' L O Hw Hs Es Eb En Eo Es' Eb'. pose proof (later_compatible E E' W L O) as C.
  destruct (written_variant E W d n s vs k l b Hw Hs Es Eb) as (h0 & ds & vr & x & ops & En0 & Hc & Hi & Hk & Hin & _ & Hx & _ & -> & Ho). rewrite En in En0. inversion En0; subst h0.
  rewrite Eo in Ho. specialize (Hx Eo). destruct (named E E' W W' C n s s' vs vs' vr x ds Es Eb Es' Eb' Hc Hi) as (h1 & vr' & _ & _ & _ & Hname & _). subst k.
  assert (Htag : exists c body, out ops = tag_new x c :: body).
  { unfold ser_variant_opt in Ho. destruct (v_size vr) as [[|z|]|]; [| | |discriminate].
    - apply rbind_ok in Ho. destruct Ho as (t & Ht & Ho). unfold tag_new_checked in Ht. destruct (e_dbg E && negb (x <? 32)); [discriminate|]. apply Ok_inj in Ht. subst t. apply Ok_inj in Ho. subst ops. exists CInline, []. reflexivity.
    - apply sbind_ok in Ho. destruct Ho as (la & lb & Hla & _ & ->). apply rbind_ok in Hla. destruct Hla as (t & Ht & Hla). unfold tag_new_checked in Ht. destruct (e_dbg E && negb (x <? 32)); [discriminate|]. apply Ok_inj in Ht. subst t. apply Ok_inj in Hla. subst la. exists CFixed, (out lb). reflexivity.
    - apply sbind_ok in Ho. destruct Ho as (la & lb & Hla & _ & ->). apply rbind_ok in Hla. destruct Hla as (t & Ht & Hla). unfold tag_new_checked in Ht. destruct (e_dbg E && negb (x <? 32)); [discriminate|]. apply Ok_inj in Ht. subst t. apply Ok_inj in Hla. subst la. exists CVarlen, (out lb). reflexivity. }
  destruct Htag as (c & body & ->). exists (tag_new x c), body. split; [reflexivity|]. rewrite (proj1 (C25_round_trip x c Hx)). exact Hname.
Qed.

(** ** The accessors of a generated walker *)

(** [discriminant()] names the variant in the table for [revision()], wherever the generated walkers are
    right at all (see C37 and C38 for the origins of bytes that covers). *)
Theorem C57_walker_named : forall E D d n s vs k l may op bs rest o d' r s1, walked_from E D d (TRef n) (VVar k l) may op bs rest ->
  e_sch E n = Some s -> s_body s = SEnum vs -> may s -> enter E D d (TRef n) (mkSR bs o) = Ok ((d', CEnum r s vs), s1) ->
  variant_name s (enum_revision s r) (enum_discriminant r) = Some k.
Proof.
  intros E D d n s vs k l may op bs rest o d' r s1 H Es Eb Hmay Hen.
  destruct (from_general _ _ _ _ _ _ _ _ _ H) as (P & M & (HM & SB & HP & HE & Hmap) & Hv & Hb & Hl).
  assert (W : wf_env E) by (inversion H; assumption).
  pose proof (HE (TRef n) d bs (VVar k l) rest o Hv Hb Hl (may_opens _ _ _ _ Es Hmay)) as He. cbn [refused] in He.
  destruct He as [(d0 & c & p & bs' & He & Hr & Hop & _)|(x & He & Hop)].
  - rewrite Hen in He. inversion He; subst. destruct (enum_view _ _ _ _ _ _ _ _ _ _ _ _ H Es Eb Hop) as [(x & ->)|(k0 & l0 & det & Hk & ->)]; [inversion Hr|].
    inversion Hk; subst k0 l0. inversion Hr as [| | | | | | | |er s0 vs0 kn l0 fs0 His Hhere Hu]; subst. specialize (His k). rewrite Hhere, N.eqb_refl in His. specialize (His ltac:(discriminate)).
    apply (proj2 (proj2 (C57_variant_table E n s vs (enum_revision s r) W Es Eb))).
    assert (Hdisc : disc_of vs (enum_revision s r) k = Some (enum_discriminant r)).
    { destruct r as [rev x|b x|b c0 x]; cbn [is_variant enum_revision enum_discriminant] in *; destruct (disc_of vs _ k) as [y|]; try discriminate; apply N.eqb_eq in His; subst; reflexivity. }
    assert (Hkn : known s (enum_revision s r) = true).
    { unfold known. destruct (we_sch E W n s Es) as (Hpos & _). destruct r as [rev x|b x|b c0 x]; cbn [enum_revision].
      2, 3: apply andb_true_intro; split; apply N.leb_le; lia.
      cbn [enter] in Hen. destruct d as [|d]; [discriminate|]. rewrite Es in Hen. unfold sm_map, sm_bind at 1 in Hen. unfold enter_derived, sm_bind in Hen.
      destruct (sr_run (de_u16 (e_fw E)) (mkSR bs o)) as [[rv s2]|e|pp]; try discriminate.
      destruct ((rv =? 0) || (scur s <? rv)) eqn:Erv; [discriminate|]. apply orb_false_elim in Erv. destruct Erv as [E0 E1]. apply N.eqb_neq in E0. apply N.ltb_ge in E1.
      rewrite Eb in Hen. unfold enter_enum in Hen. destruct (has_convert s && negb (rv =? scur s)).
      - unfold sm_bind in Hen. destruct (materialise E D d s rv s2) as [[p s3]|e|pp]; try discriminate. destruct (on_slice (de_u32 (e_fw E)) (fst p) (snd p) s3) as [[q s4]|e|pp]; try discriminate.
      - destruct (sent s rv) as [h|]; [|discriminate]. destruct (h_opt h).
        + destruct (calc_disc rv vs) as [ds|]; [|discriminate]. unfold sm_bind at 1 in Hen. destruct (sr_run read_tag s2) as [[tg s3]|e|pp]; try discriminate.
          unfold sm_bind at 1 in Hen. unfold sm_res at 1 in Hen. destruct (size_class tg) as [cl|e|pp]; try discriminate. cbn [rmap] in Hen. destruct (class_at ds (variant_id tg)) as [c'|]; [|discriminate].
          destruct (sclass_eqb cl c'); [|discriminate]. unfold sm_bind in Hen. match goal with H : context [match ?m s3 with _ => _ end] |- _ => destruct (m s3) as [[pp s5]|e|pp] end; discriminate.
        + unfold sm_bind in Hen. destruct (sr_run (de_u32 (e_fw E)) s2) as [[kk s3]|e|pp]; try discriminate. unfold sm_ret in Hen. inversion Hen; subst. apply andb_true_intro. split; apply N.leb_le; lia. }
    unfold variant_table. rewrite Eb, Hkn. unfold disc_of in Hdisc. destruct (calc_disc (enum_revision s r) vs) as [ds|]; [|discriminate].
    destruct (find_name k ds) as [[vr y]|] eqn:Ef; [|discriminate]. inversion Hdisc; subst. apply find_some in Ef. destruct Ef as [Hi Hkk]. cbn [fst] in Hkk. apply N.eqb_eq in Hkk.
    apply in_map_iff. exists (vr, enum_discriminant r). cbn [fst snd]. rewrite Hkk. auto.
  - exfalso. pose proof (He (fun _ => sm_ret ODone)) as H1. pose proof (He (fun _ => sm_ret OEnd)) as H2. unfold sm_bind in H1, H2. rewrite Hen in H1, H2. unfold sm_ret in H1, H2. rewrite <- H1 in H2. discriminate.
Qed.

(** [revision()] is documented as the revision on the wire.  It is that or the current one. *)
Definition walker_revision (s : schema) (c : ctx) : option N :=
  match c with CStruct r _ _ => Some (struct_revision s r) | CEnum r _ _ => Some (enum_revision s r) | _ => None end.
Theorem C57_walker_revision : forall E D d n s bs o d' c s1 rev x, e_sch E n = Some s ->
  enter E D d (TRef n) (mkSR bs o) = Ok ((d', c), s1) -> run (de_u16 (e_fw E)) bs = Ok (rev, x) ->
  walker_revision s c = Some rev \/ (walker_revision s c = Some (scur s) /\ rev < scur s).
Proof.
  intros E D d n s bs o d' c s1 rev x Es Hen Hu. cbn [enter] in Hen. destruct d as [|d]; [discriminate|]. rewrite Es in Hen. unfold sm_map, sm_bind at 1 in Hen. unfold enter_derived, sm_bind in Hen.
  rewrite sr_run_run in Hen. cbn [sr_inner sr_orig] in Hen. rewrite Hu in Hen. cbn [with_orig rmap] in Hen.
  destruct ((rev =? 0) || (scur s <? rev)) eqn:Erv; [discriminate|]. apply orb_false_elim in Erv. destruct Erv as [E0 E1]. apply N.eqb_neq in E0. apply N.ltb_ge in E1.
  assert (Hcur : walker_revision s c = Some (scur s) -> walker_revision s c = Some rev \/ (walker_revision s c = Some (scur s) /\ rev < scur s)).
  { intros ->. destruct (N.eq_dec rev (scur s)) as [->|He]; [left; reflexivity|right; split; [reflexivity|lia]]. }
  destruct (s_body s) as [fs|vs].
  - unfold enter_struct in Hen. destruct (has_convert s && negb (rev =? scur s)).
    + unfold sm_bind in Hen. destruct (materialise E D d s rev (mkSR x o)) as [[p s3]|e|pp]; try discriminate. inversion Hen; subst. apply Hcur. reflexivity.
    + destruct (sent s rev) as [h|]; [|discriminate]. destruct (h_opt h); [destruct (h_idx h)|].
      * unfold sm_bind in Hen. destruct (sr_run read_varlen_len (mkSR x o)) as [[p s3]|e|pp]; try discriminate. destruct (sm_op (sr_borrow p) s3) as [[q s4]|e|pp]; try discriminate.
        inversion Hen; subst. apply Hcur. reflexivity.
      * unfold sm_bind in Hen. destruct (sr_run read_varlen_len (mkSR x o)) as [[p s3]|e|pp]; try discriminate. inversion Hen; subst. left. reflexivity.
      * inversion Hen; subst. left. reflexivity.
  - unfold enter_enum in Hen. destruct (has_convert s && negb (rev =? scur s)).
    + unfold sm_bind in Hen. destruct (materialise E D d s rev (mkSR x o)) as [[p s3]|e|pp]; try discriminate. destruct (on_slice (de_u32 (e_fw E)) (fst p) (snd p) s3) as [[q s4]|e|pp]; try discriminate.
      inversion Hen; subst. apply Hcur. reflexivity.
    + destruct (sent s rev) as [h|]; [|discriminate]. destruct (h_opt h).
      * destruct (calc_disc rev vs) as [ds|]; [|discriminate]. unfold sm_bind at 1 in Hen. destruct (sr_run read_tag (mkSR x o)) as [[tg s3]|e|pp]; try discriminate.
        unfold sm_bind at 1 in Hen. unfold sm_res at 1 in Hen. destruct (size_class tg) as [cl|e|pp]; try discriminate. cbn [rmap] in Hen. destruct (class_at ds (variant_id tg)) as [c'|]; [|discriminate].
        destruct (sclass_eqb cl c'); [|discriminate]. unfold sm_bind in Hen. match goal with H : context [match ?m s3 with _ => _ end] |- _ => destruct (m s3) as [[pp s5]|e|pp] end; try discriminate.
        inversion Hen; subst. apply Hcur. reflexivity.
      * unfold sm_bind in Hen. destruct (sr_run (de_u32 (e_fw E)) (mkSR x o)) as [[kk s3]|e|pp]; try discriminate. inversion Hen; subst. left. reflexivity.
Qed.

(** Older data of an optimised enum into which a variant was inserted (WalkRef.v): the walker reports the current
    revision for data of the first, and the table then names the inserted variant. *)
Theorem C57_walker_revision_refuted : exists s b d' r s1, wf_env (only s) /\ decodes s b (VVar 2 [VInt 5]) []
  /\ run (de_u16 (e_fw (only s))) b = Ok (1, [33; 5]) /\ scur s = 2
  /\ enter (only s) 9 1 (TRef 1) (mkSR b 3) = Ok ((d', CEnum r s (match s_body s with SEnum vs => vs | _ => [] end)), s1)
  /\ enum_revision s r = 2 /\ variant_name s (enum_revision s r) (enum_discriminant r) = Some 1
  /\ variant_name s 1 (enum_discriminant r) = Some 2.
Proof.
  exists r_inserted, [1; 33; 5]. do 3 eexists. split; [apply wf_only; vm_compute; reflexivity|]. split; [vm_compute; reflexivity|]. split; [vm_compute; reflexivity|]. split; [reflexivity|].
  split; [vm_compute; reflexivity|]. split; [reflexivity|]. split; vm_compute; reflexivity.
Qed.

(** ** The hypotheses are met *)
Definition note1 : schema := mkSchema [leg] (SStruct [fld TStr 1 None; fld (TInt I32) 1 None; fld (TVec TStr) 1 None]).
Definition note2 : schema := mkSchema [leg; leg]
  (SStruct [fld TStr 1 None; with_default (VBool true) (fld TBool 2 None); with_convert (fun this _ _ => Ok this) (fld (TInt I32) 1 (Some 2)); fld (TVec TStr) 1 None]).
Definition kind1 : schema := mkSchema [leg] (SEnum [var 0 1 None None []; var 1 1 None None [fld TStr 1 None; fld (TRef 1) 1 None]]).
Definition kind2 : schema := mkSchema [leg; leg] (SEnum [var 0 1 None None []; var 2 2 None None []; var 1 1 None None [fld TStr 1 None; fld (TRef 1) 1 None]]).
Definition hold : env := ex_env (fun n => if n =? 1 then Some note1 else if n =? 2 then Some kind1 else None).
Definition hnew : env := ex_env (fun n => if n =? 1 then Some note2 else if n =? 2 then Some kind2 else None).
Example wf_hold : wf_env hold.
Proof. apply wf_ex. intros n s. destruct (n =? 1); [|destruct (n =? 2)]; intros H; inversion H; subst; apply wf_schemab_ok; vm_compute; reflexivity. Qed.
Example wf_hnew : wf_env hnew.
Proof. apply wf_ex. intros n s. destruct (n =? 1); [|destruct (n =? 2)]; intros H; inversion H; subst; apply wf_schemab_ok; vm_compute; reflexivity. Qed.
Example later_h : later hold hnew.
Proof.
  apply Relation_Operators.rt_step. repeat split; try reflexivity. intros n s. cbn [hold hnew ex_env e_sch]. destruct (n =? 1); [|destruct (n =? 2)]; intros H; inversion H; subst; eexists; (split; [reflexivity|]).
  - split; [eexists; reflexivity|]. cbn [edit_body note1 note2 s_body].
    apply ef_keep; [unfold edit_field, edit_end; repeat split; auto|]. apply ef_add; [reflexivity|].
    apply ef_keep; [unfold edit_field, edit_end; repeat split; auto|].
    { right. split; [reflexivity|]. exists 2. split; reflexivity. }
    apply ef_keep; [unfold edit_field, edit_end; repeat split; auto|]. apply ef_nil.
  - split; [eexists; reflexivity|]. cbn [edit_body kind1 kind2 s_body].
    apply ev_keep; [unfold edit_variant, edit_end; repeat split; auto using edit_fields_refl|]. apply ev_add; [reflexivity|].
    apply ev_keep; [unfold edit_variant, edit_end; repeat split; auto using edit_fields_refl|]. apply ev_nil.
Qed.
Example opt_safe_h : opt_safe hold hnew.
Proof.
  intros n s s' h. cbn [hold hnew ex_env e_sch]. destruct (n =? 1); [|destruct (n =? 2)]; intros H H'; inversion H; inversion H'; subst; vm_compute; intros Hh; inversion Hh; subst; discriminate.
Qed.
Definition note : list val := [a_str [104; 105]; VInt (-7); VSeq [a_str [97]; a_str [98]]].
Definition note_bytes : bytes := [1; 2; 104; 105; 13; 2; 1; 97; 1; 98].
Definition touch_note : list hop := [HSkip TStr; HDecode (TInt I32); HWalk (TVec TStr) (Item Skip (Item Bytes Rest))].
Example note_written : wt hold 1 (TRef 1) (VSeq note) /\ to_vec hold 1 (TRef 1) (VSeq note) = Ok note_bytes.
Proof. split; [apply wtb_ok; vm_compute; reflexivity|reflexivity]. Qed.
Example note_plain : plain_fields 1 (match s_body note1 with SStruct fs => fs | _ => [] end).
Proof. intros f [<-|[<-|[<-|[]]]] _; split; reflexivity. Qed.
Example note_listed : listed_types note2 1 [TStr; TInt I32; TVec TStr].
Proof. eexists. split; [reflexivity|]. vm_compute. repeat constructor; eexists; split; reflexivity. Qed.
Example strs_walk : forall rest o, wfb ([2; 1; 97; 1; 98] ++ rest) -> len ([2; 1; 97; 1; 98] ++ rest) < 2 ^ e_ub hnew ->
  walk_with hnew 9 3 (TVec TStr) (Item Skip (Item Bytes Rest)) (mkSR ([2; 1; 97; 1; 98] ++ rest) o) = Ok (OCons ODone (OCons (OBytes [98]) ODone), mkSR rest o).
Proof.
  intros rest o Hb Hl. apply wfb_app in Hb. destruct (C39_scripts_agree hnew 9 3 (TVec TStr) (VSeq [a_str [97]; a_str [98]]) plain_now (opened_enc hnew) _ rest (Item Skip (Item Bytes Rest)) o
    (from_encoded hnew 9 3 (TVec TStr) (VSeq [a_str [97]; a_str [98]]) [2; 1; 97; 1; 98] rest wf_hnew (fun n s f _ _ _ => eq_refl) (or_introl eq_refl) eq_refl (proj2 Hb) Hl (wtb_ok hnew 3 (TVec TStr) (VSeq [a_str [97]; a_str [98]]) eq_refl) eq_refl) I) as (r & Hs & Hw).
  { cbn. auto. }
  rewrite Hw. unfold shows in Hs. cbn [refused] in Hs. destruct Hs as (c & (l & Hl1 & ->) & Hx). inversion Hl1; subst l. cbn [expect] in Hx.
  destruct Hx as (r1 & -> & r2 & (r3 & -> & r4 & -> & ->) & ->). reflexivity.
Qed.
Example note_touched : touched hold hnew 9 0 3 touch_note [TStr; TInt I32; TVec TStr] note [ODone; OVal (VInt (-7)); OCons ODone (OCons (OBytes [98]) ODone)].
Proof. eapply t_skip; [reflexivity|]. apply t_decode; [reflexivity|]. eapply t_walk; [reflexivity|exact strs_walk|apply t_nil]. Qed.
Example C57_note : forall o, struct_by_hand hnew 9 3 (fun r => if r =? 1 then touch_note else []) (mkSR (note_bytes ++ [77; 78]) o)
  = Ok (([ODone; OVal (VInt (-7)); OCons ODone (OCons (OBytes [98]) ODone)], mkHand 1 3), mkSR [77; 78] o).
Proof.
  intros o. apply (C57_struct_by_hand hold hnew 9 0 3 1 note1 note2 leg _ note note_bytes [77; 78] o _ [TStr; TInt I32; TVec TStr] _ wf_hold wf_hnew later_h opt_safe_h (or_introl eq_refl) eq_refl
    (fun n s f _ _ _ => eq_refl) (proj1 note_written) (proj2 note_written) ltac:(lia) eq_refl eq_refl eq_refl eq_refl note_plain eq_refl); [repeat constructor|vm_compute; reflexivity|vm_compute; reflexivity|exact note_listed|exact note_touched].
Qed.
Definition kind_val : val := VVar 1 [a_str [122]; VSeq note].
Definition kind_bytes : bytes := [1; 1; 1; 122] ++ note_bytes.
Example kind_written : wt hold 2 (TRef 2) kind_val /\ to_vec hold 2 (TRef 2) kind_val = Ok kind_bytes.
Proof. split; [apply wtb_ok; vm_compute; reflexivity|reflexivity]. Qed.
Example kind_names : variant_table kind2 1 = [(0, 0); (1, 1)] /\ variant_table kind2 2 = [(0, 0); (2, 1); (1, 2)] /\ variant_table kind2 3 = []
  /\ field_names note2 1 = [0; 2; 3]%nat /\ field_names note2 2 = [0; 1; 3]%nat.
Proof. repeat split; vm_compute; reflexivity. Qed.
Example kind_by_hand : named_types kind2 1 1 [TStr; TRef 1]
  /\ touched hold hnew 9 1 3 [HSkip TStr; HDecode (TRef 1)] [TStr; TRef 1] [a_str [122]; VSeq note] [ODone; OVal (VSeq [a_str [104; 105]; VBool true; VSeq [a_str [97]; a_str [98]]])]
  /\ enum_by_hand hnew 9 3 (fun r x => match variant_name kind2 r x with Some 1 => [HSkip TStr; HDecode (TRef 1)] | _ => [] end) (mkSR (kind_bytes ++ [9]) 0)
     = Ok ((1, 1, [ODone; OVal (VSeq [a_str [104; 105]; VBool true; VSeq [a_str [97]; a_str [98]]])]), mkSR [9] 0).
Proof.
  split; [eexists; exists (var 1 1 None None [fld TStr 1 None; fld (TRef 1) 1 None]); split; [reflexivity|]; split; [right; right; left; reflexivity|]; split; vm_compute; reflexivity|].
  split; [eapply t_skip; [reflexivity|]; apply t_decode; [vm_compute; reflexivity|apply t_nil]|]. vm_compute. reflexivity.
Qed.
Example C57_walker_case : exists d' r s1, enter wex 5 1 (TRef 3) (mkSR evt_bytes 10) = Ok ((d', CEnum r evt (match s_body evt with SEnum vs => vs | _ => [] end)), s1)
  /\ enum_revision evt r = 2 /\ enum_discriminant r = 3.
Proof. do 3 eexists. split; [vm_compute; reflexivity|]. split; reflexivity. Qed.
Example C57_opt_case : exists b, to_vec (only r_inserted) 1 (TRef 1) (VVar 2 [VInt 5]) = Ok b /\ wt (only r_inserted) 1 (TRef 1) (VVar 2 [VInt 5]) /\ b = [2; 34; 5] /\ variant_name r_inserted 2 (variant_id 34) = Some 2.
Proof. exists [2; 34; 5]. split; [vm_compute; reflexivity|]. split; [apply wtb_ok; vm_compute; reflexivity|]. split; [reflexivity|vm_compute; reflexivity]. Qed.

Print Assumptions C57_variant_table.
Print Assumptions C57_field_table.
Print Assumptions C57_struct_by_hand.
Print Assumptions C57_enum_by_hand.
Print Assumptions C57_optimised_named.
Print Assumptions C57_walker_named.
Print Assumptions C57_walker_revision.
Print Assumptions C57_walker_revision_refuted.
