(** Which panics walking can end in, and where it leaves the reader.  Proofs. *)

From Verif Require Import Base BaseL Prog ProgL Prim PrimL Utf8 Tag Ty Ser De Typed Mig Parts DiscL RtL Agree Total SerL Users PropTotal PropVal SliceReader Skip SkipIdx SkipL SkipTot PropUntrusted Walk WalkSpec Script.
From Coq Require Import List NArith ZArith Bool Lia.
Import ListNotations.
Open Scope N_scope.

(** [I]: what holds of the unread bytes before, [R]: of the result and the unread bytes after. *)
Definition ssafe (P : pan -> Prop) {A} (I : bytes -> Prop) (R : A -> bytes -> Prop) (m : sm A) : Prop :=
  forall s, I (sr_inner s) ->
  match m s with
  | Ok (a, s') => R a (sr_inner s') /\ (exists u, sr_inner s = u ++ sr_inner s') /\ sr_orig s' = sr_orig s
  | Err _ => True
  | Panic x => P x
  end.
Definition sfx (I : bytes -> Prop) : Prop := forall u b, I (u ++ b) -> I b.

Section Mon.
Variable P : pan -> Prop.
Notation ssafe := (ssafe P).
Lemma ss_ret : forall A (I : bytes -> Prop) (R : A -> bytes -> Prop) a, (forall b, I b -> R a b) -> ssafe I R (sm_ret a).
Proof. intros A I R a H s Hs. cbn. split; [auto|]. split; [exists []; reflexivity|reflexivity]. Qed.
Lemma ss_err : forall A (I : bytes -> Prop) (R : A -> bytes -> Prop) e, ssafe I R (sm_err e).
Proof. intros A I R e s Hs. exact Logic.I. Qed.
Lemma ss_panic : forall A (I : bytes -> Prop) (R : A -> bytes -> Prop) x, P x -> ssafe I R (sm_panic x : sm A).
Proof. intros A I R x H s Hs. exact H. Qed.
Lemma ss_bind : forall A B (I : bytes -> Prop) (R : A -> bytes -> Prop) (S : B -> bytes -> Prop) m f,
  ssafe I R m -> (forall a, ssafe (R a) S (f a)) -> ssafe I S (sm_bind m f).
Proof.
  intros A B I R S m f Hm Hf s Hs. specialize (Hm s Hs). unfold sm_bind. destruct (m s) as [[a s']|e|x]; [|exact Logic.I|exact Hm].
  destruct Hm as (H1 & (u & H2) & H3). specialize (Hf a s' H1). destruct (f a s') as [[b s'']|e|x]; [|exact Logic.I|exact Hf].
  destruct Hf as (H4 & (u' & H5) & H6). split; [exact H4|]. split; [exists (u ++ u'); rewrite H2, H5, app_assoc; reflexivity|congruence].
Qed.
Lemma ss_map : forall A B (I : bytes -> Prop) (R : A -> bytes -> Prop) (S : B -> bytes -> Prop) (g : A -> B) m,
  ssafe I R m -> (forall a b, R a b -> S (g a) b) -> ssafe I S (sm_map g m).
Proof. intros A B I R S g m Hm H. eapply ss_bind; [exact Hm|]. intros a. apply ss_ret. auto. Qed.
Lemma ss_mono : forall A (I J : bytes -> Prop) (R S : A -> bytes -> Prop) m,
  (forall b, J b -> I b) -> (forall a b, R a b -> S a b) -> ssafe I R m -> ssafe J S m.
Proof.
  intros A I J R S m HI HR Hm s Hs. specialize (Hm s (HI _ Hs)). destruct (m s) as [[a s']|e|x]; auto.
  destruct Hm as (H1 & H2 & H3). auto.
Qed.
Lemma ss_res : forall A (I : bytes -> Prop) (R : A -> bytes -> Prop) (r : res A),
  (forall a b, r = Ok a -> I b -> R a b) -> (forall x, r = Panic x -> P x) -> ssafe I R (sm_res r).
Proof.
  intros A I R r H1 H2 s Hs. unfold sm_res. destruct r as [a|e|x]; cbn [rmap]; auto.
  split; [auto|]. split; [exists []; reflexivity|reflexivity].
Qed.
Lemma ss_prog : forall A (I : bytes -> Prop) k (p : prog A), sfx I -> (forall b, I b -> (length b < k)%nat) -> safe P k (fun _ => True) p ->
  ssafe I (fun _ b => I b) (sr_run p).
Proof.
  intros A I k p HI Hk Hp s Hs. rewrite sr_run_run. specialize (Hp (sr_inner s) (Hk _ Hs)).
  destruct (run p (sr_inner s)) as [[a r]|e|x] eqn:Er; cbn [with_orig]; auto.
  apply run_suffix in Er. destruct Er as (u & Er & _). cbn [sr_inner sr_orig]. rewrite Er in Hs. split; [exact (HI _ _ Hs)|].
  split; [exists u; exact Er|reflexivity].
Qed.
Lemma ss_rep : forall (I : bytes -> Prop) m, ssafe I (fun _ b => I b) m -> forall n, ssafe I (fun _ b => I b) (sm_rep n m).
Proof.
  intros I m Hm n. induction n as [|n IH]; cbn [sm_rep]; [apply ss_ret; auto|]. eapply ss_bind; [exact Hm|]. intros x. exact IH.
Qed.
Lemma ss_advance : forall (I : bytes -> Prop) n, sfx I -> ssafe I (fun _ b => I b) (sm_op (sr_advance n)).
Proof.
  intros I n HI s Hs. unfold sm_op, sr_advance, sr_consume. destruct (split_at n (sr_inner s)) as [[x y]|] eqn:Es; [|exact Logic.I].
  apply split_at_some in Es. destruct Es as [Es _]. cbn [sr_inner sr_orig]. rewrite Es in *. split; [exact (HI _ _ Hs)|]. split; [exists x; reflexivity|reflexivity].
Qed.
Lemma ss_peek : forall (I : bytes -> Prop) n, ssafe I (fun x b => I b /\ exists y, b = x ++ y) (fun s => rmap (fun x => (x, s)) (sr_peek n s)).
Proof.
  intros I n s Hs. unfold sr_peek. destruct (split_at n (sr_inner s)) as [[x y]|] eqn:Es; cbn [rmap]; [|exact Logic.I].
  apply split_at_some in Es. destruct Es as [Es _]. split; [split; [exact Hs|exists y; exact Es]|]. split; [exists []; reflexivity|reflexivity].
Qed.
Lemma ss_borrow : forall (I : bytes -> Prop) n, sfx I -> ssafe I (fun x b => I b /\ I (x ++ b)) (sm_op (sr_borrow n)).
Proof.
  intros I n HI s Hs. unfold sm_op, sr_borrow, sr_peek, sr_advance, sr_consume. destruct (split_at n (sr_inner s)) as [[x y]|] eqn:Es; [|exact Logic.I].
  apply split_at_some in Es. destruct Es as [Es _]. cbn [sr_inner sr_orig]. rewrite Es in *. split; [split; [exact (HI _ _ Hs)|exact Hs]|].
  split; [exists x; reflexivity|reflexivity].
Qed.
Lemma ss_consumed : forall (I : bytes -> Prop) (m : sm unit), ssafe I (fun _ b => I b) m -> ssafe I (fun _ b => I b) (sm_consumed m).
Proof.
  intros I m Hm s Hs. specialize (Hm s Hs). unfold sm_consumed. destruct (m s) as [[a s']|e|x]; auto.
  destruct (len (sr_inner s) <? len (sr_inner s')); [exact Logic.I|exact Hm].
Qed.
Lemma ss_with : forall A (I : bytes -> Prop) (R : A -> bytes -> Prop) (Q : Prop) m, (Q -> ssafe I R m) -> ssafe (fun b => I b /\ Q) R m.
Proof. intros A I R Q m H s [Hs Hq]. exact (H Hq s Hs). Qed.
(** Reading from a separate slice. *)
Lemma ss_slice : forall A (I : bytes -> Prop) k (p : prog A) buf c, c <= len buf -> (length buf < k)%nat -> safe P k (fun _ => True) p ->
  ssafe I (fun q b => I b /\ snd q <= len buf) (on_slice p buf c).
Proof.
  intros A I k p buf c Hc Hk Hp. unfold on_slice. destruct (split_at c buf) as [[x y]|] eqn:Es.
  - apply split_at_some in Es. destruct Es as [Es _]. apply ss_res.
    + intros q b Hq Hb. split; [exact Hb|]. destruct (run p y) as [[a r]|e|z]; try discriminate. apply Ok_inj in Hq. subst q. cbn [snd]. lia.
    + intros z Hz. assert (Hy : (length y < k)%nat) by (rewrite Es, app_length in Hk; lia). specialize (Hp y Hy).
      destruct (run p y) as [[a r]|e|w]; try discriminate. cbn [rmap] in Hz. injection Hz as ->. exact Hp.
  - exfalso. apply split_at_none in Es. lia.
Qed.
(** The same with less stack than bytes. *)
Lemma ss_slice_shallow : forall A (I : bytes -> Prop) k (p p' : prog A) buf c, P PStack -> agree (eq PStack) p p' -> c <= len buf -> (length buf < k)%nat ->
  safe P k (fun _ => True) p' -> ssafe I (fun q b => I b /\ snd q <= len buf) (on_slice p buf c).
Proof.
  intros A I k p p' buf c HS Ha Hc Hk Hp. unfold on_slice. destruct (split_at c buf) as [[x y]|] eqn:Es.
  - apply split_at_some in Es. destruct Es as [Es _]. apply ss_res.
    + intros q b Hq Hb. split; [exact Hb|]. destruct (run p y) as [[a r]|e|z]; try discriminate. apply Ok_inj in Hq. subst q. cbn [snd]. lia.
    + intros z Hz. assert (Hy : (length y < k)%nat) by (rewrite Es, app_length in Hk; lia). specialize (Hp y Hy).
      destruct (Ha y) as [H|(w & <- & H)].
      * rewrite H in Hz. destruct (run p' y) as [[a r]|e|w]; try discriminate. cbn [rmap] in Hz. injection Hz as ->. exact Hp.
      * rewrite H in Hz. cbn [rmap] in Hz. injection Hz as <-. exact HS.
  - exfalso. apply split_at_none in Es. lia.
Qed.
End Mon.

Section W.
Variables (E : env) (P : pan -> Prop) (ok : ty -> bool).
Hypothesis W : wf_env E.
Hypothesis Hmem : e_mem E = None \/ P PMem.
Hypothesis Hok : forall t, ok t = true -> declared E t = true.
Hypothesis Hall : env_all (fun f => ty_all ok (f_ty f)) E.
Hypothesis Htime : (forall t, ok t = true -> timeless t = true) \/ P PTime.
Hypothesis Hover : no_idx_map E \/ (e_dbg E = false \/ P POverflow).
Hypothesis Huser : user_panics E P.
Variables (D U : nat).
Hypothesis HU : users_typed E (fun _ _ => True) U.
Hypothesis HX : ext_typed E (fun _ _ => True).
Hypothesis HO : opt_stable E.
(** Encoding again: the declared sizes of variants. *)
Hypothesis Hsz : e_dbg E = true -> ~ sizes_true E -> P PAssert.
Hypothesis Hidx : (forall n s r h fs, e_sch E n = Some s -> s_body s = SStruct fs -> sent s r = Some h -> h_opt h = true -> h_idx h = true -> P PSlice).
Hypothesis Hcv : forall n s, e_sch E n = Some s -> has_convert s = true -> P PStack /\ P PMem.

Notation ssafe := (ssafe P).
Notation any := (fun _ => True).
Definition inv (d : nat) (b : bytes) : Prop := (length b < d)%nat /\ (d + U <= S D)%nat /\ wfb b /\ 16 * (len b + 1) <= 2 ^ e_ub E.
Lemma inv_sfx : forall d, sfx (inv d).
Proof.
  intros d u b (H1 & H2 & H3 & H4). rewrite app_length in H1. apply wfb_app in H3. rewrite len_app in H4.
  split; [lia|]. split; [exact H2|]. split; [apply H3|lia].
Qed.
Lemma inv_len : forall d b, inv d b -> (length b < d)%nat.
Proof. intros d b H. apply H. Qed.

Lemma dec_safe : forall d t, ty_all ok t = true -> safe P d any (deserialize E d t).
Proof.
  intros d t Ht. exact (safe_ty P d E Hmem (de_ref E d) (safe_ref E P ok W Hmem Hok Hall Htime Hover Huser d) ok Hok Htime t Ht).
Qed.
Lemma skip_safe : forall d t, ty_all ok t = true -> safe P d any (skip E d t).
Proof.
  intros d t Ht bs Hb. destruct (run (skip E d t) bs) as [[a r]|e|x] eqn:H; auto.
  refine (skip_panics E P ok W Hok _ _ d t bs x Ht Hb H).
  - intros n s r h f Es _ _ Hf _. right. exact (all_fields _ s f (Hall n s Es) Hf).
  - intros d' u Hu _. exact (dec_safe d' u Hu).
Qed.
Lemma ss_dec : forall d t, ty_all ok t = true -> ssafe (inv d) (fun _ b => inv d b) (sr_run (deserialize E d t)).
Proof. intros d t Ht. eapply ss_prog; [apply inv_sfx|apply inv_len|apply dec_safe; exact Ht]. Qed.
Lemma ss_skip : forall d t, ty_all ok t = true -> ssafe (inv d) (fun _ b => inv d b) (sr_run (skip E d t)).
Proof. intros d t Ht. eapply ss_prog; [apply inv_sfx|apply inv_len|apply skip_safe; exact Ht]. Qed.
Lemma ss_len : forall d, ssafe (inv d) (fun _ b => inv d b) (sr_run (de_len E)).
Proof. intros d. eapply ss_prog; [apply inv_sfx|apply inv_len|apply safe_len]. Qed.
Lemma ss_with_bytes : forall d, ssafe (inv d) (fun _ b => inv d b) (with_bytes E).
Proof.
  intros d. unfold with_bytes. eapply ss_bind; [apply ss_len|]. intros n. eapply ss_bind; [apply ss_peek|]. intros x.
  eapply ss_bind; [eapply ss_mono; [|intros a b H; exact H|apply ss_advance, inv_sfx]; intros b [H _]; exact H|]. intros ?. apply ss_ret. auto.
Qed.
Lemma all_ok : forall t, ty_all ok t = true -> ok t = true.
Proof. intros t H. destruct t; cbn [ty_all] in H; apply andb_prop in H; apply H. Qed.

(** ** Skipping [indexed_*] fields *)
Lemma ss_skip_map : forall d a b, ty_all ok a = true -> ty_all ok b = true -> ssafe (inv d) (fun _ x => inv d x) (skip_indexed_map E d a b).
Proof.
  intros d a b Ha Hb. unfold skip_indexed_map.
  eapply ss_bind; [eapply ss_prog; [apply inv_sfx|apply inv_len|apply safe_read_byte]|]. intros fl.
  eapply ss_bind; [eapply ss_prog; [apply inv_sfx|apply inv_len|apply safe_varint]|]. intros n. cbv beta.
  destruct (N.land fl 1 =? 0).
  - apply ss_rep. eapply ss_bind; [apply ss_skip; exact Ha|]. intros ?. apply ss_skip. exact Hb.
  - destruct (n * 8 <? 2 ^ e_ub E); [|apply ss_err]. eapply ss_bind; [apply ss_advance, inv_sfx|]. intros ?.
    eapply ss_bind; [eapply ss_prog; [apply inv_sfx|apply inv_len|eapply safe_mono; [|apply safe_read_n]; auto]|]. intros lens. cbv zeta.
    match goal with |- context [if ?c then _ else _] => destruct c end; [apply ss_advance, inv_sfx|apply ss_err].
Qed.
Lemma ss_skip_seq : forall d a, ty_all ok a = true -> ssafe (inv d) (fun _ x => inv d x) (skip_indexed_seq E d a).
Proof.
  intros d a Ha. unfold skip_indexed_seq.
  eapply ss_bind; [eapply ss_prog; [apply inv_sfx|apply inv_len|apply safe_read_byte]|]. intros fl.
  eapply ss_bind; [eapply ss_prog; [apply inv_sfx|apply inv_len|apply safe_varint]|]. intros n. cbv beta.
  destruct (N.land fl 1 =? 0).
  - apply ss_rep. apply ss_skip. exact Ha.
  - destruct (n =? 0); [apply ss_ret; auto|]. destruct (n * 4 <? 2 ^ e_ub E); [|apply ss_err].
    eapply ss_bind; [apply ss_peek|]. intros tb. cbv zeta.
    eapply ss_bind; [eapply ss_mono; [|intros x y H; exact H|apply ss_advance, inv_sfx]; intros x [H _]; exact H|]. intros ?.
    eapply ss_bind; [apply ss_advance, inv_sfx|]. intros ?. apply ss_skip. exact Ha.
Qed.

(** ** Fields of declared types *)
Definition fine (f : field) : Prop := exists n s, e_sch E n = Some s /\ In f (body_fields (s_body s)).
Lemma fine_ty : forall f, fine f -> ty_all ok (f_ty f) = true.
Proof. intros f (n & s & Es & Hf). exact (all_fields _ s f (Hall n s Es) Hf). Qed.
Lemma fine_ok : forall f, fine f -> field_ok f = true.
Proof.
  intros f (n & s & Es & Hf). pose proof (we_sch _ W _ _ Es) as (_ & _ & Wb). destruct (s_body s) as [fs|vs]; cbn [body_fields] in Hf.
  - rewrite forallb_forall in Wb. auto.
  - destruct Wb as (_ & Wb & _). apply in_flat_map in Hf. destruct Hf as (v & Hv & Hf). rewrite Forall_forall in Wb.
    specialize (Wb v Hv). rewrite forallb_forall in Wb. auto.
Qed.
Lemma fine_default : forall f r x, fine f -> f_default f r = Panic x -> P x.
Proof.
  intros f r x (n & s & Es & Hf) H. destruct (Huser n s Es) as [U1 _]. refine (proj1 (U1 f r x _) H).
  destruct (s_body s) as [fs|vs]; cbn [body_fields] in Hf; [exact Hf|]. apply in_flat_map in Hf. exact Hf.
Qed.
Lemma mode_safe : forall d f, fine f -> safe P d any (de_mode E (de_ref E d) (mode_opt f) (f_ty f)).
Proof.
  intros d f Hf. pose proof (safe_ref E P ok W Hmem Hok Hall Htime Hover Huser d) as HR.
  pose proof (fine_ty f Hf) as Ht. pose proof (fine_ok f Hf) as Ho.
  destruct Hover as [HN|HN].
  - refine (safe_mode P d E Hmem (de_ref E d) HR ok Hok Htime
      (fun g => (ty_all ok (f_ty g) && field_ok g) && match f_idx g with IMap => false | _ => true end) _ (or_introl _) f _ _ (or_intror (or_introl eq_refl))).
    + intros g H. apply andb_prop in H. destruct H as [H _]. apply andb_prop in H. exact H.
    + intros g H Hi. rewrite Hi, andb_false_r in H. discriminate.
    + rewrite Ht, Ho. cbn [andb]. destruct Hf as (n & s & Es & Hf). exact (all_fields _ s f (HN n s Es) Hf).
  - refine (safe_mode P d E Hmem (de_ref E d) HR ok Hok Htime
      (fun g => ty_all ok (f_ty g) && field_ok g) _ (or_intror HN) f _ _ (or_intror (or_introl eq_refl))).
    + intros g H. apply andb_prop in H. exact H.
    + rewrite Ht, Ho. reflexivity.
Qed.
Lemma ss_mode : forall d f, fine f -> ssafe (inv d) (fun _ b => inv d b) (sr_run (de_mode E (de_ref E d) (mode_opt f) (f_ty f))).
Proof. intros d f Hf. eapply ss_prog; [apply inv_sfx|apply inv_len|apply mode_safe; exact Hf]. Qed.
Lemma ss_skip_idx : forall d f, fine f -> is_idx f = true -> ssafe (inv d) (fun _ b => inv d b) (skip_idx E d (f_ty f)).
Proof.
  intros d f Hf Hi. pose proof (fine_ty f Hf) as Ht. pose proof (fine_ok f Hf) as Ho. unfold field_ok in Ho. apply andb_prop in Ho. destruct Ho as [_ Ho].
  unfold mode_opt in Ho. unfold is_idx in Hi. unfold skip_idx.
  destruct (f_idx f); try discriminate; destruct (f_ty f); try discriminate Ho; cbn [ty_all] in Ht; repeat (apply andb_prop in Ht; destruct Ht as [? Ht]);
    first [apply ss_skip_map|apply ss_skip_seq]; assumption.
Qed.
Lemma ss_wire_skip : forall d f, fine f -> ssafe (inv d) (fun _ b => inv d b) (wire_skip E d f).
Proof.
  intros d f Hf. unfold wire_skip. destruct (is_idx f) eqn:Hi; [apply ss_skip_idx; assumption|apply ss_skip, fine_ty; exact Hf].
Qed.

(** ** Walkers *)
Definition srepr_ok (d : nat) (s : schema) (r : srepr) : Prop :=
  match r with
  | SWire _ => True
  | SIndexed b _ => (length b < d)%nat /\ P PSlice
  | SOwned b c => has_convert s = true /\ c <= len b /\ P PStack
  end.
Definition erepr_ok (d : nat) (r : erepr) : Prop :=
  match r with
  | EWire _ _ => True
  | EBorrowed b _ => (length b < d)%nat
  | EOwned b c _ => c <= len b /\ P PStack
  end.
Definition ctx_ok (d : nat) (c : ctx) (k : walker) : Prop :=
  match c, k with
  | CPos t, WPos t' | COpt t _, WOpt t' | CSeq t _, WSeq t' => t = t' /\ ty_all ok t = true
  | CRes a b _, WRes a' b' | CMap a b _, WMap a' b' => a = a' /\ b = b' /\ ty_all ok a = true /\ ty_all ok b = true
  | CStruct r _ fs, WStruct s fs' => fs = fs' /\ Forall fine fs /\ srepr_ok d s r
  | CEnum r s vs, WEnum s' vs' => s = s' /\ vs = vs' /\ (forall v f, In v vs -> In f (v_fields v) -> fine f) /\ (d + U <= D)%nat /\ erepr_ok d r
  | _, _ => False
  end.

Lemma owned_dec : forall (I : bytes -> Prop) t b c, ty_all ok t = true -> P PStack -> c <= len b ->
  ssafe I (fun q x => I x /\ snd q <= len b) (on_slice (deserialize E D t) b c).
Proof.
  intros I t b c Ht HS Hc. set (k := (D + S (length b))%nat).
  apply (ss_slice_shallow P _ I k _ (deserialize E k t)); [exact HS|apply depth_agree; unfold k; lia|exact Hc|unfold k; lia|apply dec_safe; exact Ht].
Qed.
Lemma owned_skip : forall (I : bytes -> Prop) t b c, ty_all ok t = true -> P PStack -> c <= len b ->
  ssafe I (fun q x => I x /\ snd q <= len b) (on_slice (skip E D t) b c).
Proof.
  intros I t b c Ht HS Hc. set (k := (D + S (length b))%nat).
  apply (ss_slice_shallow P _ I k _ (skip E k t)); [exact HS|apply skip_depth; unfold k; lia|exact Hc|unfold k; lia|apply skip_safe; exact Ht].
Qed.
Lemma slice_panic : forall b x y z, slice_of b x y = Panic z -> z = PSlice.
Proof. intros b x y z H. unfold slice_of in H. destruct (_ && _); [discriminate|]. congruence. Qed.
Lemma slice_length : forall b x y z, slice_of b x y = Ok z -> (length z <= length b)%nat.
Proof.
  intros b x y z H. unfold slice_of in H. destruct (_ && _); [|discriminate]. apply Ok_inj in H. subst z.
  rewrite firstn_length, skipn_length. lia.
Qed.
Lemma indexed_panic : forall b fc i z, indexed_field b fc i = Panic z -> z = PSlice.
Proof.
  intros b fc i z H. unfold indexed_field in H. destruct (slice_of b (i * 4) (i * 4 + 4)) as [x|e|w] eqn:E1; cbn [rbind] in H; try discriminate.
  - destruct (if i + 1 <? fc then rmap le_val (slice_of b (i * 4 + 4) (i * 4 + 8)) else Ok (len b)) as [y|e|w] eqn:E2; cbn [rbind] in H; try discriminate.
    + apply slice_panic in H. exact H.
    + destruct (i + 1 <? fc); [|discriminate]. destruct (slice_of b (i * 4 + 4) (i * 4 + 8)) as [|e|v] eqn:E3; try discriminate. cbn [rmap] in E2.
      apply slice_panic in E3. congruence.
  - apply slice_panic in E1. congruence.
Qed.
Lemma indexed_length : forall b fc i x, indexed_field b fc i = Ok x -> (length x <= length b)%nat.
Proof.
  intros b fc i x H. unfold indexed_field in H. destruct (slice_of b (i * 4) (i * 4 + 4)) as [x'|e|w]; cbn [rbind] in H; try discriminate.
  destruct (if i + 1 <? fc then rmap le_val (slice_of b (i * 4 + 4) (i * 4 + 8)) else Ok (len b)) as [y|e|w]; cbn [rbind] in H; try discriminate.
  apply slice_length in H. exact H.
Qed.
Lemma ss_field_decode : forall d s r i f, fine f -> srepr_ok d s r ->
  ssafe (inv d) (fun p b => inv d b /\ srepr_ok d s (snd p)) (field_decode E D d r i f).
Proof.
  intros d s r i f Hf Hr. unfold field_decode. destruct r as [rev|b fc|b c].
  - destruct (f_start f <=? rev).
    + eapply ss_map; [apply ss_mode; exact Hf|]. intros v b Hb. split; [exact Hb|exact Logic.I].
    + eapply ss_map; [apply ss_res with (R := fun _ b => inv d b); [auto|]|].
      * intros x Hx. exact (fine_default f rev x Hf Hx).
      * intros v b Hb. split; [exact Hb|exact Logic.I].
  - destruct Hr as [Hl HS]. eapply ss_bind; [apply ss_res with (R := fun x b' => inv d b' /\ (length x < d)%nat)|].
    + intros x b' Hx Hb'. split; [exact Hb'|]. apply indexed_length in Hx. lia.
    + intros x Hx. apply indexed_panic in Hx. subst x. exact HS.
    + intros x. apply ss_with. intros Hx.
      eapply ss_map; [apply ss_slice with (k := d); [lia|exact Hx|apply dec_safe, fine_ty; exact Hf]|].
      intros q b' [Hb' _]. split; [exact Hb'|]. cbn [snd]. split; assumption.
  - destruct Hr as (Hc1 & Hc2 & HS). eapply ss_map; [apply (owned_dec (inv d)); [apply fine_ty; exact Hf|exact HS|exact Hc2]|].
    intros q b' [Hb' Hq]. split; [exact Hb'|]. cbn [snd srepr_ok]. auto.
Qed.
Lemma ss_field_skip : forall d s r f, fine f -> srepr_ok d s r ->
  ssafe (inv d) (fun p b => inv d b /\ srepr_ok d s (snd p)) (field_skip E D d r f).
Proof.
  intros d s r f Hf Hr. unfold field_skip. destruct r as [rev|b fc|b c].
  - destruct (f_start f <=? rev).
    + eapply ss_map; [apply ss_wire_skip; exact Hf|]. intros v b Hb. split; [exact Hb|exact Logic.I].
    + apply ss_ret. intros b Hb. split; [exact Hb|exact Logic.I].
  - apply ss_ret. intros b' Hb. split; [exact Hb|exact Hr].
  - destruct Hr as (Hc1 & Hc2 & HS). eapply ss_map; [apply (owned_skip (inv d)); [apply fine_ty; exact Hf|exact HS|exact Hc2]|].
    intros q b' [Hb' Hq]. split; [exact Hb'|]. cbn [snd srepr_ok]. auto.
Qed.
Lemma ss_field_view : forall d s r i f, fine f -> is_idx f = true -> has_convert s = false -> srepr_ok d s r ->
  ssafe (inv d) (fun p b => inv d b /\ srepr_ok d s (snd p)) (field_view E D d r i f).
Proof.
  intros d s r i f Hf Hi Hs Hr. unfold field_view. destruct r as [rev|b fc|b c].
  - eapply ss_map; [apply ss_consumed, ss_skip_idx; assumption|]. intros v b Hb. split; [exact Hb|exact Logic.I].
  - pose proof Hr as [Hl HS]. eapply ss_map; [apply ss_res with (R := fun _ b => inv d b); [auto|]|].
    + intros x Hx. apply indexed_panic in Hx. subst x. exact HS.
    + intros x b' Hb'. split; [exact Hb'|exact Hr].
  - destruct Hr as (Hc1 & _). congruence.
Qed.
Lemma ss_skip_fields : forall d s fs r, Forall fine fs -> srepr_ok d s r -> ssafe (inv d) (fun _ b => inv d b) (skip_fields E D d r fs).
Proof.
  intros d s fs. induction fs as [|f fs IH]; intros r Hf Hr; cbn [skip_fields]; [apply ss_ret; auto|].
  inversion Hf as [|? ? Hf1 Hf2]; subst. eapply ss_bind; [exact (ss_field_skip d s r f Hf1 Hr)|].
  intros p. apply ss_with. intros Hp. exact (IH (snd p) Hf2 Hp).
Qed.

(** ** Opening a walker *)
Lemma body_safe : forall d n s r, e_sch E n = Some s -> safe P d any (de_body E (de_ref E d) s r).
Proof.
  intros d n s r Es. pose proof (safe_ref E P ok W Hmem Hok Hall Htime Hover Huser d) as HR.
  destruct (Huser n s Es) as [U1 U2].
  assert (HF : fields_all (fun g => ty_all ok (f_ty g) && field_ok g) s = true).
  { assert (G : forall f, In f (body_fields (s_body s)) -> ty_all ok (f_ty f) && field_ok f = true).
    { intros f Hf. assert (Hg : fine f) by (exists n, s; auto). rewrite (fine_ty f Hg), (fine_ok f Hg). reflexivity. }
    unfold fields_all. destruct (s_body s) as [fs|vs]; cbn [body_fields] in G; apply forallb_forall; [exact G|].
    intros v Hv. apply forallb_forall. intros f Hf. apply G. apply in_flat_map. eauto. }
  destruct Hover as [HN|HN].
  - assert (HF' : fields_all (fun g => (ty_all ok (f_ty g) && field_ok g) && match f_idx g with IMap => false | _ => true end) s = true).
    { specialize (HN n s Es). unfold fields_all in *. destruct (s_body s) as [fs|vs]; rewrite forallb_forall in *.
      - intros f Hf. rewrite HF, HN by assumption. reflexivity.
      - intros v Hv. specialize (HF v Hv). specialize (HN v Hv). rewrite forallb_forall in *. intros f Hf. rewrite HF, HN by assumption. reflexivity. }
    refine (safe_body P d E Hmem (de_ref E d) HR ok Hok Htime _ _ (or_introl _) s (we_sch _ W _ _ Es) HF' U1 U2 r).
    + intros g H. apply andb_prop in H. destruct H as [H _]. apply andb_prop in H. exact H.
    + intros g H Hi. rewrite Hi, andb_false_r in H. discriminate.
  - refine (safe_body P d E Hmem (de_ref E d) HR ok Hok Htime _ _ (or_intror HN) s (we_sch _ W _ _ Es) HF U1 U2 r).
    intros g H. apply andb_prop in H. exact H.
Qed.
Lemma reencode : forall d t bs v rest x, (d + U <= D)%nat -> wfb bs -> 16 * (len bs + 1) <= 2 ^ e_ub E ->
  run (deserialize E d t) bs = Ok (v, rest) -> to_vec E D t v = Panic x -> P x.
Proof.
  intros d t bs v rest x Hd Hb Hl H Hx.
  assert (HU' : users_typed E (fun _ _ => True) (D - d)) by (intros n s d' r h Es Eh Hd'; apply (HU n s d' r h Es Eh); lia).
  pose proof (C10_decoded_is_well_typed E (D - d) d t bs v rest W HU' HX HO Hb Hl H) as Hw.
  replace (d + (D - d))%nat with D in Hw by lia.
  destruct (C45_panics_listed E D t v x W Hw Hx) as (-> & H1 & H2). exact (Hsz H1 H2).
Qed.
Lemma to_vec_derived : forall n s v, e_sch E n = Some s -> ser_bytes (ser_derived E (ser_ref E D) s v) = to_vec E (S D) (TRef n) v.
Proof. intros n s v Es. unfold to_vec, to_writer. cbn [ser_ty ser_ref]. rewrite Es. reflexivity. Qed.

(** After the u16: the bytes it was read from. *)
Definition at_body (d : nat) (rev : N) (b : bytes) : Prop := exists bs, inv (S d) bs /\ run (de_u16 (e_fw E)) bs = Ok (rev, b).
Lemma at_body_inv : forall d rev b, at_body d rev b -> inv d b /\ (d + U <= D)%nat.
Proof.
  intros d rev b (bs & Hi & Hr). pose proof (u16_consumes _ _ _ _ Hr) as Hl. apply run_suffix in Hr. destruct Hr as (u & -> & _).
  pose proof (inv_sfx (S d) u b Hi) as (H1 & H2 & H3 & H4). destruct Hi as (H5 & _). split; [|lia]. split; [lia|]. split; [lia|]. auto.
Qed.
Lemma ss_materialise : forall n s d rev, e_sch E n = Some s -> has_convert s = true ->
  ssafe (at_body d rev) (fun p b => inv d b /\ (d + U <= D)%nat /\ snd p <= len (fst p)) (materialise E D d s rev).
Proof.
  intros n s d rev Es Hc. destruct (Hcv n s Es Hc) as [HS HM].
  intros s0 Hs0. destruct (at_body_inv d rev _ Hs0) as [Hi Hd]. destruct Hs0 as (bs & Hbs & Hr).
  unfold materialise. unfold sm_bind at 1. rewrite sr_run_run.
  pose proof (body_safe d n s rev Es (sr_inner s0) (inv_len _ _ Hi)) as Hsf.
  destruct (run (de_body E (de_ref E d) s rev) (sr_inner s0)) as [[v rest]|e|x] eqn:Eb; cbn [with_orig]; [|exact Logic.I|exact Hsf].
  assert (Hv : run (deserialize E (S d) (TRef n)) bs = Ok (v, rest)).
  { unfold deserialize. cbn [de_ty de_ref]. rewrite Es. unfold de_derived. rewrite run_bind, Hr. exact Eb. }
  apply run_suffix in Eb. destruct Eb as (u & Eb & _). rewrite Eb in *.
  assert (Hi' : inv d rest) by exact (inv_sfx _ _ _ Hi).
  destruct Hbs as (_ & _ & Hw & Hl).
  set (s1 := mkSR rest (sr_orig s0)).
  assert (G : ssafe (fun b => b = rest) (fun p b => inv d b /\ (d + U <= D)%nat /\ snd p <= len (fst p))
    (sm_bind (sm_res (ser_bytes (ser_derived E (ser_ref E D) s v))) (fun buf =>
     if len buf <? 2 ^ e_ub E then sm_bind (on_slice (de_u16 (e_fw E)) buf 0) (fun p => sm_ret (buf, snd p)) else sm_panic PMem))).
  { eapply ss_bind with (R := fun _ b => b = rest).
    - apply ss_res; [auto|]. intros x Hx. rewrite (to_vec_derived n s v Es) in Hx.
      assert (HU' : users_typed E (fun _ _ => True) (D - d)) by (intros n' s' d' r h Es' Eh Hd'; apply (HU n' s' d' r h Es' Eh); lia).
      pose proof (C10_decoded_is_well_typed E (D - d) (S d) (TRef n) bs v rest W HU' HX HO Hw Hl Hv) as Hwt.
      replace (S d + (D - d))%nat with (S D) in Hwt by lia.
      destruct (C45_panics_listed E (S D) (TRef n) v x W Hwt Hx) as (-> & H1 & H2). exact (Hsz H1 H2).
    - intros buf. destruct (len buf <? 2 ^ e_ub E); [|apply ss_panic; exact HM].
      eapply ss_bind; [apply ss_slice with (k := S (length buf)); [lia|lia|apply safe_u16]|].
      intros q. apply ss_ret. intros b [-> Hq]. cbn [fst snd]. auto. }
  specialize (G s1 eq_refl). unfold s1 in G. cbv beta in G.
  match goal with |- match ?X with _ => _ end => match type of G with match ?Y with _ => _ end => change X with Y end end.
  match type of G with match ?Y with _ => _ end => destruct Y as [[p s']|e|x]; auto end.
  destruct G as (G1 & (u' & G2) & G3). cbn [sr_inner sr_orig] in *. split; [exact G1|]. split; [exists (u ++ u'); rewrite G2, app_assoc; reflexivity|exact G3].
Qed.
Lemma fine_alive : forall n s fs r, e_sch E n = Some s -> s_body s = SStruct fs -> Forall fine (filter (falive r) fs).
Proof.
  intros n s fs r Es Eb. apply Forall_forall. intros f Hf. apply filter_In in Hf. exists n, s. split; [exact Es|]. rewrite Eb. apply Hf.
Qed.
Lemma fine_variant : forall n s vs v f, e_sch E n = Some s -> s_body s = SEnum vs -> In v vs -> In f (v_fields v) -> fine f.
Proof. intros n s vs v f Es Eb Hv Hf. exists n, s. split; [exact Es|]. rewrite Eb. cbn [body_fields]. apply in_flat_map. eauto. Qed.
Definition opens_to (k : walker) (p : nat * ctx) (b : bytes) : Prop := inv (fst p) b /\ ctx_ok (fst p) (snd p) k.
Lemma at_wire : forall A d rev (R : A -> bytes -> Prop) m, ((d + U <= D)%nat -> ssafe (inv d) R m) -> ssafe (at_body d rev) R m.
Proof.
  intros A d rev R m H s0 Hs0. destruct (at_body_inv d rev _ Hs0) as [Hi Hd]. exact (H Hd s0 Hi).
Qed.
Lemma ss_enter_struct : forall n s fs d rev, e_sch E n = Some s -> s_body s = SStruct fs ->
  ssafe (at_body d rev) (fun c b => inv d b /\ ctx_ok d c (WStruct s (filter (falive (scur s)) fs))) (enter_struct E D d s fs rev).
Proof.
  intros n s fs d rev Es Eb. pose proof (fine_alive n s fs (scur s) Es Eb) as HF. unfold enter_struct.
  destruct (has_convert s && negb (rev =? scur s)) eqn:Ec.
  - apply andb_prop in Ec. destruct Ec as [Ec _]. eapply ss_bind; [apply (ss_materialise n); assumption|]. intros p.
    apply ss_ret. intros b (H1 & H2 & H3). split; [exact H1|]. split; [reflexivity|]. split; [exact HF|]. cbn [srepr_ok].
    split; [exact Ec|]. split; [exact H3|]. exact (proj1 (Hcv n s Es Ec)).
  - apply at_wire. intros Hd. destruct (sent s rev) as [h|] eqn:Eh; [|apply ss_err]. destruct (h_opt h) eqn:Eo.
    + destruct (h_idx h) eqn:Ei.
      * eapply ss_bind; [eapply ss_prog; [apply inv_sfx|apply inv_len|apply safe_varlen]|]. intros m.
        eapply ss_bind; [apply ss_borrow, inv_sfx|]. intros p. apply ss_ret. intros b [H1 H2]. split; [exact H1|].
        split; [reflexivity|]. split; [exact HF|]. cbn [srepr_ok]. split.
        -- apply inv_len in H2. rewrite app_length in H2. lia.
        -- exact (Hidx n s rev h fs Es Eb Eh Eo Ei).
      * eapply ss_bind; [eapply ss_prog; [apply inv_sfx|apply inv_len|apply safe_varlen]|]. intros m.
        apply ss_ret. intros b H1. split; [exact H1|]. split; [reflexivity|]. split; [exact HF|exact Logic.I].
    + apply ss_ret. intros b H1. split; [exact H1|]. split; [reflexivity|]. split; [exact HF|exact Logic.I].
Qed.
Lemma ss_enter_enum : forall n s vs d rev, e_sch E n = Some s -> s_body s = SEnum vs ->
  ssafe (at_body d rev) (fun c b => inv d b /\ ctx_ok d c (WEnum s vs)) (enter_enum E D d s vs rev).
Proof.
  intros n s vs d rev Es Eb. pose proof (fun v f => fine_variant n s vs v f Es Eb) as HF. unfold enter_enum.
  destruct (has_convert s && negb (rev =? scur s)) eqn:Ec.
  - apply andb_prop in Ec. destruct Ec as [Ec _]. eapply ss_bind; [apply (ss_materialise n); assumption|]. intros p.
    apply ss_with. intros [H2 H3].
    assert (HS : P PStack) by (exact (proj1 (Hcv n s Es Ec))).
    eapply ss_bind; [apply ss_slice with (k := S (length (fst p))); [exact H3|lia|apply safe_u32]|].
    intros q. apply ss_ret. intros b [H4 H5]. split; [exact H4|]. split; [reflexivity|]. split; [reflexivity|]. split; [exact HF|].
    split; [exact H2|]. cbn [erepr_ok]. auto.
  - apply at_wire. intros Hd. destruct (sent s rev) as [h|] eqn:Eh; [|apply ss_err].
    destruct (we_sch _ W _ _ Es) as (_ & _ & Hb). rewrite Eb in Hb. destruct Hb as (_ & _ & Hr). destruct (Hr _ _ Eh) as (ds & Hds & _ & _).
    destruct (h_opt h) eqn:Eo.
    + rewrite Hds. eapply ss_bind; [eapply ss_prog; [apply inv_sfx|apply inv_len|]|].
      { unfold read_tag. apply safe_read_byte. }
      intros tag. eapply ss_bind; [apply ss_res with (R := fun _ b => inv d b); [auto|]|].
      { intros x Hx. unfold size_class in Hx. destruct (from_bits _); discriminate. }
      intros c. cbv beta. destruct (class_at ds (variant_id tag)) as [c'|]; [|apply ss_err]. destruct (sclass_eqb c c'); [|apply ss_err].
      apply ss_bind with (R := fun x b => inv d b /\ (length x < d)%nat).
      * assert (HB : forall m, ssafe (inv d) (fun x b => inv d b /\ (length x < d)%nat) (sm_op (sr_borrow m))).
        { intros m. eapply ss_mono; [intros b Hb; exact Hb| |apply ss_borrow, inv_sfx]. intros x b [H1 H2]. split; [exact H1|].
          apply inv_len in H2. rewrite app_length in H2. lia. }
        destruct c.
        -- apply ss_ret. intros b Hb. split; [exact Hb|]. apply inv_len in Hb. cbn [length]. lia.
        -- destruct (size_table_some ds tag) as [m ->]. apply HB.
        -- eapply ss_bind; [eapply ss_prog; [apply inv_sfx|apply inv_len|apply safe_varlen]|]. intros m. apply HB.
      * intros p. apply ss_ret. intros b [H1 H2]. split; [exact H1|]. split; [reflexivity|]. split; [reflexivity|]. split; [exact HF|].
        split; [exact Hd|exact H2].
    + eapply ss_bind; [eapply ss_prog; [apply inv_sfx|apply inv_len|apply safe_u32]|]. intros k. apply ss_ret. intros b H1.
      split; [exact H1|]. split; [reflexivity|]. split; [reflexivity|]. split; [exact HF|]. split; [exact Hd|exact Logic.I].
Qed.
Lemma ss_enter : forall t d, ty_all ok t = true -> ssafe (inv d) (opens_to (walker_of E t)) (enter E D d t).
Proof.
  intros t d Ht. pose proof (all_ok t Ht) as Hot.
  assert (LF : forall u, ty_all ok u = true -> ssafe (inv d) (opens_to (WPos u)) (sm_ret (d, CPos u))).
  { intros u Hu. apply ss_ret. intros b Hb. split; [exact Hb|]. cbn [fst snd ctx_ok]. auto. }
  induction t; cbn [enter walker_of]; try (apply LF; exact Ht); pose proof Ht as Ht0; cbn [ty_all] in Ht;
    try (apply andb_prop in Ht; destruct Ht as [_ Ht]).
  - destruct (vec_uses_bulk E t); [apply ss_err|]. eapply ss_bind; [apply ss_len|]. intros n. apply ss_ret. intros b Hb. split; [exact Hb|]. cbn. auto.
  - eapply ss_bind; [apply ss_len|]. intros n. apply ss_ret. intros b Hb. split; [exact Hb|]. cbn. auto.
  - eapply ss_bind; [eapply ss_prog; [apply inv_sfx|apply inv_len|apply safe_read_byte]|]. intros tag. cbv beta.
    destruct ((tag =? 0) || (tag =? 1)); [|apply ss_err]. apply ss_ret. intros b Hb. split; [exact Hb|]. cbn. auto.
  - apply andb_prop in Ht. destruct Ht as [Ha Hb']. eapply ss_bind; [eapply ss_prog; [apply inv_sfx|apply inv_len|apply safe_u32]|]. intros tag. cbv beta.
    destruct ((tag =? 0) || (tag =? 1)); [|apply ss_err]. apply ss_ret. intros b Hb. split; [exact Hb|]. cbn. auto.
  - apply andb_prop in Ht. destruct Ht as [Ha Hb']. eapply ss_bind; [apply ss_len|]. intros n. apply ss_ret. intros b Hb. split; [exact Hb|]. cbn. auto.
  - eapply ss_bind; [apply ss_len|]. intros n. apply ss_ret. intros b Hb. split; [exact Hb|]. cbn. auto.
  - eapply ss_bind; [apply ss_len|]. intros n. apply ss_ret. intros b Hb. split; [exact Hb|]. cbn. auto.
  - apply IHt; [exact Ht|apply all_ok; exact Ht].
  - destruct mirror; [apply LF; exact Ht0|]. destruct t; try (apply LF; exact Ht0); apply LF; exact Ht.
  - destruct d as [|d]; [intros s (H & _); lia|]. apply Hok in Hot. cbn in Hot. destruct (e_sch E n) as [s|] eqn:Es; [|discriminate].
    apply ss_map with (R := fun c b => inv d b /\ ctx_ok d c (match s_body s with SStruct fs => WStruct s (filter (falive (scur s)) fs) | SEnum vs => WEnum s vs end));
      [|intros c b H; exact H].
    unfold enter_derived. apply ss_bind with (R := fun rev => at_body d rev).
    + intros s0 Hs0. rewrite sr_run_run. pose proof (safe_u16 P (S d) E (sr_inner s0) (inv_len _ _ Hs0)) as Hsf.
      destruct (run (de_u16 (e_fw E)) (sr_inner s0)) as [[rev r]|e|x] eqn:Er; cbn [with_orig]; auto. cbn [sr_inner sr_orig].
      split; [exists (sr_inner s0); auto|]. apply run_suffix in Er. destruct Er as (u & Er & _). split; [exists u; exact Er|reflexivity].
    + intros rev. destruct ((rev =? 0) || (scur s <? rev)); [apply ss_err|]. destruct (s_body s) as [fs|vs] eqn:Eb;
        [apply (ss_enter_struct n)|apply (ss_enter_enum n)]; assumption.
Qed.

(** ** Scripts *)
Lemma here_fine : forall s vs k fs, (forall v f, In v vs -> In f (v_fields v) -> fine f) -> variant_here s vs k = Some fs -> Forall fine fs.
Proof.
  intros s vs k fs H Hk. unfold variant_here in Hk. destruct (find _ vs) as [v|] eqn:Ev; [|discriminate]. injection Hk as <-.
  apply find_some in Ev. destruct Ev as [Ev _]. apply Forall_forall. intros f Hf. apply filter_In in Hf. apply (H v f Ev). apply Hf.
Qed.
Lemma ss_variant_slice : forall d r, erepr_ok d r -> match r with EWire _ _ => False | _ => True end ->
  ssafe (inv d) (fun x b => inv d b /\ (length x < d \/ P PStack)%nat) (variant_slice r).
Proof.
  intros d r Hr Hn. destruct r as [rev k|b k|b c k]; [contradiction| |]; cbn [variant_slice erepr_ok] in *.
  - apply ss_ret. auto.
  - destruct Hr as [Hc HS]. destruct (split_at c b) as [[x y]|] eqn:Es; [apply ss_ret; auto|]. apply split_at_none in Es. lia.
Qed.
Lemma ss_variant_decode : forall d r s vs k, (forall v f, In v vs -> In f (v_fields v) -> fine f) -> erepr_ok d r ->
  (exists fs, variant_here s vs k = Some fs /\ (length fs <= 1)%nat) -> ssafe (inv d) (fun _ b => inv d b) (variant_decode E D d r s vs k).
Proof.
  intros d r s vs k HF Hr (fs & Hk & Hl). pose proof (here_fine s vs k fs HF Hk) as Hf. unfold variant_decode. change (cur_variant s vs k) with (variant_here s vs k). rewrite Hk.
  destruct fs as [|f [|f' fs]]; [| |cbn [length] in Hl; lia].
  - destruct (is_variant r s vs k); [apply ss_ret; auto|apply ss_err].
  - destruct (is_variant r s vs k); [|apply ss_err]. inversion Hf as [|? ? Hf1 _]; subst. pose proof (fine_ty f Hf1) as Ht.
    destruct r as [rev x|b x|b c x].
    + eapply ss_map; [apply ss_dec; exact Ht|]. auto.
    + eapply ss_bind with (R := fun y b' => inv d b' /\ y = b); [apply ss_ret; auto|]. intros y. apply ss_with. intros ->. cbn [slice_depth].
      eapply ss_map; [apply ss_slice with (k := d); [lia|exact Hr|apply dec_safe; exact Ht]|]. intros q b' [Hb' _]. exact Hb'.
    + destruct Hr as [Hc HS]. eapply ss_bind with (R := fun y b' => inv d b').
      * cbn [variant_slice]. destruct (split_at c b) as [[y z]|] eqn:Es; [apply ss_ret; auto|]. apply split_at_none in Es. lia.
      * intros y. cbn [slice_depth]. eapply ss_map; [apply (owned_dec (inv d)); [exact Ht|exact HS|lia]|]. intros q b' [Hb' _]. exact Hb'.
Qed.
Lemma ss_variant_view : forall d r s vs k, (forall v f, In v vs -> In f (v_fields v) -> fine f) -> (d + U <= D)%nat -> erepr_ok d r ->
  (exists f fs, variant_here s vs k = Some (f :: fs)) -> ssafe (inv d) (fun _ b => inv d b) (variant_view E D d r s vs k).
Proof.
  intros d r s vs k HF Hd Hr (f & fs & Hk). pose proof (here_fine s vs k _ HF Hk) as Hf. unfold variant_view. change (cur_variant s vs k) with (variant_here s vs k). rewrite Hk.
  assert (HV : match r with EWire _ _ => False | _ => True end -> ssafe (inv d) (fun _ b => inv d b) (sm_map OBytes (variant_slice r))).
  { intros Hn. eapply ss_map; [apply ss_variant_slice; assumption|]. intros x b [Hb _]. exact Hb. }
  destruct fs as [|f' fs]; (destruct (is_variant r s vs k); [|apply ss_err]).
  - inversion Hf as [|? ? Hf1 _]; subst. pose proof (fine_ty f Hf1) as Ht. destruct r as [rev x|b x|b c x]; [|apply HV; exact Logic.I|apply HV; exact Logic.I].
    intros s0 Hs0. unfold sm_bind. pose proof (ss_dec d (f_ty f) Ht s0 Hs0) as HD. rewrite sr_run_run in *.
    destruct (run (deserialize E d (f_ty f)) (sr_inner s0)) as [[v rest]|e|z] eqn:Er; cbn [with_orig] in *; [|exact Logic.I|exact HD].
    destruct HD as (H1 & (u & H2) & H3). cbn [sr_inner sr_orig] in *.
    assert (HR : forall z, to_vec E D (f_ty f) v = Panic z -> P z).
    { intros z Hz. destruct Hs0 as (_ & _ & Hw & Hl). exact (reencode d (f_ty f) _ v rest z Hd Hw Hl Er Hz). }
    unfold sm_map, sm_bind, sm_res. change (ser_bytes (ser_ty E (ser_ref E D) (f_ty f) v)) with (to_vec E D (f_ty f) v).
    destruct (to_vec E D (f_ty f) v) as [y|e|z]; cbn [rmap]; [|exact Logic.I|apply HR; reflexivity]. unfold sm_ret. cbn [sr_inner sr_orig].
    split; [exact H1|]. split; [exists u; exact H2|reflexivity].
  - destruct r as [rev x|b x|b c x]; [apply ss_err|apply HV; exact Logic.I|apply HV; exact Logic.I].
Qed.

Lemma ss_act : forall a d c k, ctx_ok d c k -> accepted E k a -> no_owned_view E k a -> ssafe (inv d) (fun _ b => inv d b) (act_on E D d c a).
Proof.
  assert (HE : forall d t w (IH : forall d c k, ctx_ok d c k -> accepted E k w -> no_owned_view E k w -> ssafe (inv d) (fun _ b => inv d b) (act_on E D d c w)),
    ty_all ok t = true -> accepted E (walker_of E t) w -> no_owned_view E (walker_of E t) w ->
    ssafe (inv d) (fun _ b => True) (sm_bind (enter E D d t) (fun p => act_on E D (fst p) (snd p) w))).
  { intros d t w IH Ht Ha Hv. eapply ss_bind; [apply ss_enter; exact Ht|]. intros p. apply ss_with. intros Hp.
    eapply ss_mono; [intros b Hb; exact Hb| |apply (IH _ _ _ Hp Ha Hv)]. auto. }
  (* the unread bytes still satisfy the invariant of the outer depth, being a suffix *)
  assert (SF : forall A d (m : sm A), ssafe (inv d) (fun _ _ => True) m -> ssafe (inv d) (fun _ b => inv d b) m).
  { intros A d m H s0 Hs0. specialize (H s0 Hs0). destruct (m s0) as [[x s']|e|z]; auto. destruct H as (_ & (u & H2) & H3).
    split; [|split; [exists u; exact H2|exact H3]]. rewrite H2 in Hs0. exact (inv_sfx _ _ _ Hs0). }
  induction a as [ | | |w IHw|w0 IH0 w1 IH1|k0 w IHw|x IHx w IHw|x IHx y IHy w IHw| |x IHx w IHw| |k0 w0 IH0 w1 IH1|k0 w IHw|k0|k0];
    intros d c k Hc Ha Hv; destruct c, k; try contradiction Hc; try contradiction Ha;
    try (match type of Ha with accepted _ (WStruct _ ?l) _ => destruct l; solve [contradiction] end); cbn [act_on].
  (* Decode *)
  - destruct Hc as [<- Ht]. eapply ss_map; [apply ss_dec; exact Ht|]. auto.
  - destruct Hc as [<- Ht]. destruct (tag =? 0); [apply ss_ret; auto|]. eapply ss_map; [apply ss_dec; exact Ht|]. auto.
  - destruct Hc as (<- & <- & H1 & H2). destruct (tag =? 0); (eapply ss_map; [apply ss_dec; assumption|]; auto).
  (* Skip *)
  - destruct Hc as [<- Ht]. eapply ss_map; [apply ss_skip; exact Ht|]. auto.
  - destruct Hc as [<- Ht]. destruct (tag =? 1); [|apply ss_ret; auto]. eapply ss_map; [apply ss_skip; exact Ht|]. auto.
  - destruct Hc as (<- & <- & H1 & H2). eapply ss_map; [apply ss_skip; destruct (tag =? 0); assumption|]; auto.
  (* Bytes *)
  - destruct Hc as [<- Ht]. cbn [accepted] in Ha. rewrite Ha. eapply ss_map; [apply ss_with_bytes|]. auto.
  (* Walk *)
  - destruct Hc as [<- Ht]. apply SF, HE; assumption.
  (* Case *)
  - destruct Ha as [Ha0 Ha1], Hv as [Hv0 Hv1]. destruct (tag =? 0); [apply (IH0 d (COpt t tag) (WOpt t0))|apply (IH1 d (COpt t tag) (WOpt t0))]; assumption.
  - destruct Ha as [Ha0 Ha1], Hv as [Hv0 Hv1]. destruct (tag =? 0); [apply (IH0 d (CRes a b tag) (WRes a0 b0))|apply (IH1 d (CRes a b tag) (WRes a0 b0))]; assumption.
  (* Into *)
  - destruct Hc as [<- Ht]. destruct k0 as [|[| |]]; try contradiction Ha. destruct (tag =? 0); [apply ss_err|]. apply SF, HE; assumption.
  - destruct Hc as (<- & <- & H1 & H2). destruct k0 as [|[| |]]; try contradiction Ha.
    + destruct (tag =? 0); [|apply ss_err]. apply SF, HE; assumption.
    + destruct (tag =? 0); [apply ss_err|]. apply SF, HE; assumption.
  (* Item *)
  - destruct Hc as [<- Ht], Ha as [Ha1 Ha2], Hv as [Hv1 Hv2]. destruct (n =? 0); [apply ss_ret; auto|].
    eapply ss_bind; [apply (IHx d (CPos t) (WPos t)); cbn [ctx_ok]; auto|]. intros o.
    eapply ss_map; [apply (IHw d (CSeq t (n - 1)) (WSeq t)); cbn [ctx_ok]; auto|]. auto.
  (* Entry *)
  - destruct Hc as (<- & <- & H1 & H2), Ha as (Ha1 & Ha2 & Ha3), Hv as (Hv1 & Hv2 & Hv3). destruct (n =? 0); [apply ss_ret; auto|].
    assert (G : ssafe (inv d) (fun _ b => inv d b) (sm_bind (act_on E D d (CPos a) x) (fun o => sm_bind (act_on E D d (CPos b) y) (fun o' =>
                sm_map (OCons (OCons o o')) (act_on E D d (CMap a b (n - 1)) w))))).
    { eapply ss_bind; [apply (IHx d (CPos a) (WPos a)); [cbn [ctx_ok]; auto|destruct x; try contradiction; exact Ha1|exact Hv1]|]. intros o.
      eapply ss_bind; [apply (IHy d (CPos b) (WPos b)); cbn [ctx_ok]; auto|]. intros o'.
      eapply ss_map; [apply (IHw d (CMap a b (n - 1)) (WMap a b)); cbn [ctx_ok]; auto|]. auto. }
    destruct x; try exact G. contradiction.
  (* Rest *)
  - destruct Hc as [<- Ht]. eapply ss_map; [apply ss_rep, ss_skip; exact Ht|]. auto.
  - destruct Hc as (<- & <- & H1 & H2). eapply ss_map; [apply ss_rep; eapply ss_bind; [apply ss_skip; exact H1|intros ?; apply ss_skip; exact H2]|]. auto.
  - destruct Hc as (<- & Hf & Hr).
    assert (G : ssafe (inv d) (fun _ b => inv d b) (sm_map (fun _ => ODone) (skip_fields E D d r fs))).
    { eapply ss_map; [apply (ss_skip_fields d s); assumption|]. auto. }
    destruct fs; exact G.
  (* Field *)
  - destruct Hc as (<- & Hf & Hr). destruct fs as [|f fs]; [apply ss_ret; auto|]. inversion Hf as [|? ? Hf1 Hf2]; subst.
    destruct Ha as [Ha1 Ha2], Hv as (Hv0 & Hv1 & Hv2).
    assert (NX : forall (m : sm (obs * srepr)), ssafe (inv d) (fun p b => inv d b /\ srepr_ok d s (snd p)) m ->
              ssafe (inv d) (fun _ b => inv d b) (sm_bind m (fun p => sm_map (OCons (fst p)) (act_on E D d (CStruct (snd p) (i + 1) fs) w)))).
    { intros m Hm. eapply ss_bind; [exact Hm|]. intros p. apply ss_with. intros Hp.
      eapply ss_map; [apply (IHw d (CStruct (snd p) (i + 1) fs) (WStruct s fs)); [cbn [ctx_ok]; auto|exact Ha2|exact Hv2]|]. auto. }
    destruct x; try contradiction Ha1.
    + apply NX, ss_field_decode; assumption.
    + apply NX, ss_field_skip; assumption.
    + destruct Ha1 as [Hi Ha1]. rewrite Hi. destruct r as [rev| |]; [|apply ss_err|apply ss_err]. destruct (f_start f <=? rev); [|apply ss_err].
      assert (G : ssafe (inv d) (fun _ b => inv d b) (act_on E D d (CPos (f_ty f)) (Walk x))).
      { apply (IHx d (CPos (f_ty f)) (WPos (f_ty f))); [cbn [ctx_ok]; split; [reflexivity|apply fine_ty; exact Hf1]|exact Ha1|exact Hv1]. }
      cbn [act_on] in G. intros s0 Hs0. specialize (G s0 Hs0). unfold sm_bind in G. unfold sm_bind at 1.
      destruct (enter E D d (f_ty f) s0) as [[p s1]|e|z]; [|exact Logic.I|exact G]. unfold sm_bind at 1.
      destruct (act_on E D (fst p) (snd p) x s1) as [[o s2]|e|z]; [|exact Logic.I|exact G]. destruct G as (G1 & (u & G2) & G3).
      assert (N : ssafe (inv d) (fun _ b => inv d b) (sm_map (OCons o) (act_on E D d (CStruct (SWire rev) (i + 1) fs) w))).
      { eapply ss_map; [apply (IHw d (CStruct (SWire rev) (i + 1) fs) (WStruct s fs)); [cbn [ctx_ok srepr_ok]; auto|exact Ha2|exact Hv2]|]. auto. }
      specialize (N s2 G1). destruct (sm_map (OCons o) (act_on E D d (CStruct (SWire rev) (i + 1) fs) w) s2) as [[q s3]|e|z]; auto.
      destruct N as (N1 & (u' & N2) & N3). split; [exact N1|]. split; [exists (u ++ u'); rewrite G2, N2, app_assoc; reflexivity|congruence].
    + cbn in Ha1. rewrite Ha1. apply NX, ss_field_view; auto.
  (* Is *)
  - pose proof Hc as Hc0. destruct Hc as (<- & <- & _). destruct Ha as (Ha & Ha0 & Ha1), Hv as [Hv0 Hv1].
    change (cur_variant s vs k0) with (variant_here s vs k0). destruct (variant_here s vs k0) as [fs|]; [|congruence].
    destruct (is_variant r s vs k0); [apply (IH0 d (CEnum r s vs) (WEnum s vs))|apply (IH1 d (CEnum r s vs) (WEnum s vs))]; assumption.
  (* IntoVar *)
  - destruct Hc as (<- & <- & HF & Hd & Hr). destruct Ha as (f & Hk & Ha). change (cur_variant s vs k0) with (variant_here s vs k0).
    pose proof (here_fine s vs k0 _ HF Hk) as Hf. specialize (Hv f Hk). rewrite Hk. destruct (is_variant r s vs k0); [|apply ss_err].
    inversion Hf as [|? ? Hf1 _]; subst. destruct r; try apply ss_err. apply SF, HE; auto. apply fine_ty. exact Hf1.
  - destruct Hc as (<- & <- & HF & Hd & Hr). apply ss_variant_decode; assumption.
  - destruct Hc as (<- & <- & HF & Hd & Hr). apply ss_variant_view; assumption.
Qed.

Lemma ss_walk : forall d t a, ty_all ok t = true -> accepted E (walker_of E t) a -> no_owned_view E (walker_of E t) a ->
  ssafe (inv d) (fun _ _ => True) (walk_with E D d t a).
Proof.
  intros d t a Ht Ha Hv. eapply ss_bind; [apply ss_enter; exact Ht|]. intros p. apply ss_with. intros Hp.
  eapply ss_mono; [intros b Hb; exact Hb| |apply (ss_act a _ _ _ Hp Ha Hv)]. auto.
Qed.

(** ** The other calls *)
Lemma ss_keep : forall A d (m : sm A), ssafe (inv d) (fun _ _ => True) m -> ssafe (inv d) (fun _ b => inv d b) m.
Proof.
  intros A d m H s0 Hs0. specialize (H s0 Hs0). destruct (m s0) as [[x s']|e|z]; auto. destruct H as (_ & (u & H2) & H3).
  split; [|split; [exists u; exact H2|exact H3]]. rewrite H2 in Hs0. exact (inv_sfx _ _ _ Hs0).
Qed.
Lemma ss_find : forall d a b p n, ty_all ok a = true -> ty_all ok b = true -> ssafe (inv d) (fun _ x => inv d x) (find_loop E d a b p n).
Proof.
  intros d a b p n Ha Hb. induction n as [|n IH]; cbn [find_loop]; [apply ss_ret; auto|].
  eapply ss_bind; [apply ss_dec; exact Ha|]. intros k. cbv beta. destruct (p k).
  - apply ss_ret. auto.
  - eapply ss_bind; [apply ss_skip; exact Hb|]. intros ?. exact IH.
  - eapply ss_bind; [apply ss_skip; exact Hb|]. intros ?.
    eapply ss_bind; [apply ss_rep; eapply ss_bind; [apply ss_skip; exact Ha|intros ?; apply ss_skip; exact Hb]|]. intros ?. apply ss_ret. auto.
Qed.
Lemma ss_find_bytes : forall d a b p n, ty_all ok a = true -> ty_all ok b = true -> ssafe (inv d) (fun _ x => inv d x) (find_bytes_loop E d a b p n).
Proof.
  intros d a b p n Ha Hb. induction n as [|n IH]; cbn [find_bytes_loop]; [apply ss_ret; auto|].
  eapply ss_bind; [apply ss_len|]. intros m. eapply ss_bind; [apply ss_peek|]. intros x.
  eapply ss_bind; [eapply ss_mono; [|intros ? ? H; exact H|apply ss_advance, inv_sfx]; intros ? [H _]; exact H|]. intros ?. cbv beta. destruct (p x).
  - apply ss_ret. auto.
  - eapply ss_bind; [apply ss_skip; exact Hb|]. intros ?. exact IH.
  - eapply ss_bind; [apply ss_skip; exact Hb|]. intros ?.
    eapply ss_bind; [apply ss_rep; eapply ss_bind; [apply ss_skip; exact Ha|intros ?; apply ss_skip; exact Hb]|]. intros ?. apply ss_ret. auto.
Qed.
Lemma ss_map_find : forall d a b p w, ty_all ok a = true -> ty_all ok b = true -> accepted E (WPos b) w -> no_owned_view E (WPos b) w ->
  ssafe (inv d) (fun _ _ => True) (map_find E D d a b p w) .
Proof.
  intros d a b p w Ha Hb Hw Hv. unfold map_find. eapply ss_bind; [apply ss_len|]. intros n.
  eapply ss_bind; [apply ss_find; assumption|]. intros hit. destruct hit; [|apply ss_ret; auto].
  eapply ss_map; [apply (ss_act w d (CPos b) (WPos b)); [cbn [ctx_ok]; auto|exact Hw|exact Hv]|]. auto.
Qed.
Lemma ss_map_find_bytes : forall d a b p w, ty_all ok a = true -> ty_all ok b = true -> accepted E (WPos b) w -> no_owned_view E (WPos b) w ->
  ssafe (inv d) (fun _ _ => True) (map_find_bytes E D d a b p w) .
Proof.
  intros d a b p w Ha Hb Hw Hv. unfold map_find_bytes. eapply ss_bind; [apply ss_len|]. intros n.
  eapply ss_bind; [apply ss_find_bytes; assumption|]. intros hit. destruct hit; [|apply ss_ret; auto].
  eapply ss_map; [apply (ss_act w d (CPos b) (WPos b)); [cbn [ctx_ok]; auto|exact Hw|exact Hv]|]. auto.
Qed.
Lemma checked_panic : forall b fc i z, indexed_field_checked b fc i <> Panic z.
Proof.
  intros b fc i z H. unfold indexed_field_checked in H.
  assert (G : forall x y, x <= y -> y <= len b -> slice_of b x y = Ok (firstn (N.to_nat (y - x)) (skipn (N.to_nat x) b))).
  { intros x y H1 H2. unfold slice_of. destruct (N.leb_spec x y); [|lia]. destruct (N.leb_spec y (len b)); [|lia]. reflexivity. }
  destruct (i + 1 <? fc); destruct (N.ltb_spec (len b) (i * 4 + 8)) as [Hl|Hl]; try discriminate H.
  - rewrite (G (i * 4) (i * 4 + 4)) in H by lia. cbn [rbind] in H. rewrite (G (i * 4 + 4) (i * 4 + 8)) in H by lia. cbn [rmap rbind] in H.
    match type of H with (if (?y <? ?x) || _ then _ else _) = _ => destruct (N.ltb_spec y x); [discriminate H|]; destruct (N.ltb_spec (len b) y); [discriminate H|] end.
    cbn [orb] in H. rewrite G in H by lia. discriminate H.
  - destruct (N.ltb_spec (len b) (i * 4 + 4)); [discriminate H|]. rewrite (G (i * 4) (i * 4 + 4)) in H by lia. cbn [rbind] in H.
    set (x := le_val _) in H. destruct (N.ltb_spec (len b) x); [discriminate H|]. destruct (N.ltb_spec (len b) (len b)); [lia|]. cbn [orb] in H. rewrite G in H by lia. discriminate H.
  - destruct (N.ltb_spec (len b) (i * 4 + 4)); [discriminate H|]. rewrite (G (i * 4) (i * 4 + 4)) in H by lia. cbn [rbind] in H.
    set (x := le_val _) in H. destruct (N.ltb_spec (len b) x); [discriminate H|]. destruct (N.ltb_spec (len b) (len b)); [lia|]. cbn [orb] in H. rewrite G in H by lia. discriminate H.
Qed.
Lemma ss_into_bytes : forall d s fs r i cs, Forall fine fs -> has_convert s = false -> srepr_ok d s r -> (length cs < length fs)%nat ->
  ssafe (inv d) (fun _ _ => True) (into_bytes_after E D d r i fs cs).
Proof.
  intros d s fs. induction fs as [|f fs IH]; intros r i cs Hf Hs Hr Hl; [cbn [length] in Hl; lia|]. inversion Hf as [|? ? Hf1 Hf2]; subst.
  destruct cs as [|c cs]; cbn [into_bytes_after].
  - unfold field_bytes. destruct r as [rev|b fc|b c].
    + destruct (f_start f <=? rev); [|apply ss_err]. eapply ss_map; [apply ss_consumed, ss_wire_skip; exact Hf1|]. auto.
    + eapply ss_map; [apply ss_res with (R := fun _ _ => True); [auto|]|auto]. intros x Hx. elim (checked_panic _ _ _ _ Hx).
    + destruct Hr as [Hr _]. congruence.
  - cbn [length] in Hl. eapply ss_bind with (R := fun p b => inv d b /\ srepr_ok d s (snd p)).
    + destruct c; [apply ss_field_decode|apply ss_field_skip]; assumption.
    + intros p. apply ss_with. intros Hp. apply IH; auto. lia.
Qed.
Lemma ss_walk_into_bytes : forall d n s fs cs, e_sch E n = Some s -> s_body s = SStruct fs -> has_convert s = false ->
  (length cs < length (filter (falive (scur s)) fs))%nat -> ssafe (inv d) (fun _ _ => True) (walk_into_bytes E D d (TRef n) cs).
Proof.
  intros d n s fs cs Es Eb Hs Hl. unfold walk_into_bytes.
  assert (Ht : ssafe (inv d) (opens_to (walker_of E (TRef n))) (enter E D d (TRef n))).
  { cbn [enter walker_of]. rewrite Es, Eb. destruct d as [|d]; [intros s0 (H & _); lia|].
    apply ss_map with (R := fun c b => inv d b /\ ctx_ok d c (WStruct s (filter (falive (scur s)) fs))); [|intros c b H; exact H].
    unfold enter_derived. apply ss_bind with (R := fun rev => at_body d rev).
    + intros s0 Hs0. rewrite sr_run_run. pose proof (safe_u16 P (S d) E (sr_inner s0) (inv_len _ _ Hs0)) as Hsf.
      destruct (run (de_u16 (e_fw E)) (sr_inner s0)) as [[rev r]|e|x] eqn:Er; cbn [with_orig]; auto. cbn [sr_inner sr_orig].
      split; [exists (sr_inner s0); auto|]. apply run_suffix in Er. destruct Er as (u & Er & _). split; [exists u; exact Er|reflexivity].
    + intros rev. destruct ((rev =? 0) || (scur s <? rev)); [apply ss_err|]. rewrite Eb. apply (ss_enter_struct n); assumption. }
  eapply ss_bind; [exact Ht|]. intros p. apply ss_with. intros Hp. cbn [walker_of] in Hp. rewrite Es, Eb in Hp.
  destruct (snd p) as [| | | | |r i l|]; try contradiction Hp. destruct Hp as (-> & Hf & Hr). exact (ss_into_bytes (fst p) s _ r i cs Hf Hs Hr Hl).
Qed.
End W.
