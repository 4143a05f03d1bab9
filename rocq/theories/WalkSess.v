(** Map walkers: sessions and searches.  Proof part. *)

From Verif Require Import Base BaseL Prog ProgL Prim PrimL Tag Ty Ser De Typed SortL DiscL RtL RtSch Agree SliceReader Skip SkipIdx SkipL Yield Walk WalkSpec PropSlice WalkL.
From Coq Require Import List NArith ZArith Bool Lia Sorted.
Import ListNotations.
Open Scope N_scope.

Section G.
Variable E : env.
Variable D : nat.
Variable opened : ty -> val -> view -> Prop.
Variable may : schema -> Prop.
Variable P : nat -> ty -> val -> bytes -> bytes -> Prop.
Variable M : N.
Hypothesis HM : M <= 2 ^ e_ub E.
Hypothesis SB : spec_built E.
Hypothesis HP : forall d t v bs rest, P d t v bs rest -> wfb bs -> len bs < M -> run (deserialize E d t) bs = Ok (v, rest).
Hypothesis HE : forall t d bs v rest o, P d t v bs rest -> wfb bs -> len bs < M -> opens E may t ->
  if refused E t then enter E D d t (mkSR bs o) = Err (EDeserialize MBulkVec) else open_at E D opened P M d t v bs rest o.
Notation exp := (expect E D opened).
Notation entries := (entries P).

Lemma pos_ok : forall x d t v bs rest o, P d t v bs rest -> wfb bs -> len bs < M -> covered E may (HPos t) x ->
  exists r, exp (PPos t v) x r /\ act_on E D d (CPos t) x (mkSR bs o) = fin r rest o.
Proof.
  intros x d t v bs rest o H Hb Hl Hc. apply (agree_all E D opened may P M HM SB HP HE x d bs rest (CPos t) (HPos t) (PPos t v) o); [apply r_pos; exact H|exact Hb|exact Hl|exact Hc].
Qed.
Lemma P_wf : forall d t v bs r, P d t v bs r -> wfb bs -> len bs < M -> wfb r /\ len r < M.
Proof. intros. eapply (P_wf2 E D opened may P M HM HP HE); eassumption. Qed.

(** ** Sessions *)
Definition ops_covered (b : ty) (ops : list mop) : Prop := Forall (fun o => match o with WalkValue w => covered E may (HPos b) (Walk w) | _ => True end) ops.
(** The state of a session with the entries [l] to come. *)
Definition at_entry (d : nat) (a b : ty) (l : list val) (cur : option bool) (bs rest : bytes) : Prop :=
  match cur, l with
  | Some true, e :: l' => exists r2, P d b (pval e) bs r2 /\ entries d a b r2 l' rest
  | Some _, [] => False
  | _, _ => entries d a b bs l rest
  end.
Lemma side_covered : forall b o x, match o with WalkValue w => covered E may (HPos b) (Walk w) | _ => True end ->
  (side o = OnKey x -> forall a, covered E may (HPos a) x) /\ (side o = OnValue x -> covered E may (HPos b) x).
Proof. intros b o x H. destruct o; cbn [side]; split; intros He; try discriminate; inversion He; subst; try exact I; try (intros; exact I). exact H. Qed.

Lemma session_ok : forall d a b rest o ops l cur bs, at_entry d a b l cur bs rest -> wfb bs -> len bs < M -> ops_covered b ops ->
  exists rs m last, ms_run E D d a b ops (mkMS (mkSR bs o) (len l) cur) = (rs, m) /\ session E D opened a b l cur ops rs last
    /\ (last = Some ([], None) -> m = Some (mkMS (mkSR rest o) 0 None)).
Proof.
  intros d a b rest o ops. induction ops as [|op ops IH]; intros l cur bs Hat Hb Hl Hc; [exists [], (Some (mkMS (mkSR bs o) (len l) cur)), (Some (l, cur)); split; [reflexivity|]; split; [split; reflexivity|]; intros He; inversion He; subst; cbn [at_entry] in Hat; inversion Hat; subst; reflexivity|].
  inversion Hc as [|? ? Hop Hc']; subst. cbn [ms_run].
  assert (Hnext : forall m' r l' cur' bs', ms_step E D d a b op (mkMS (mkSR bs o) (len l) cur) = (r, Some m') -> m' = mkMS (mkSR bs' o) (len l') cur' ->
            at_entry d a b l' cur' bs' rest -> wfb bs' -> len bs' < M ->
            (forall rs last, session E D opened a b l' cur' ops rs last -> session E D opened a b l cur (op :: ops) (r :: rs) last) ->
            exists rs m last, (let (x, o0) := ms_step E D d a b op (mkMS (mkSR bs o) (len l) cur) in match o0 with Some m' => let (xs, m'') := ms_run E D d a b ops m' in (x :: xs, m'') | None => ([x], None) end) = (rs, m) /\ session E D opened a b l cur (op :: ops) rs last
              /\ (last = Some ([], None) -> m = Some (mkMS (mkSR rest o) 0 None))).
  { intros m' r l' cur' bs' Hst -> Hat' Hb' Hl' Hs. rewrite Hst. destruct (IH l' cur' bs' Hat' Hb' Hl' Hc') as (rs & m & last & Hr & Hss & Hla). rewrite Hr. exists (r :: rs), m, last. auto. }
  assert (Hlast : forall r, ms_step E D d a b op (mkMS (mkSR bs o) (len l) cur) = (r, None) -> session E D opened a b l cur (op :: ops) [r] None ->
            exists rs m last, (let (x, o0) := ms_step E D d a b op (mkMS (mkSR bs o) (len l) cur) in match o0 with Some m' => let (xs, m'') := ms_run E D d a b ops m' in (x :: xs, m'') | None => ([x], None) end) = (rs, m) /\ session E D opened a b l cur (op :: ops) rs last
              /\ (last = Some ([], None) -> m = Some (mkMS (mkSR rest o) 0 None))).
  { intros r Hst Hs. rewrite Hst. exists [r], None, None. split; [reflexivity|]. split; [exact Hs|discriminate]. }
  assert (Hlen : forall e (l' : list val), len (e :: l') =? 0 = false) by (intros; apply N.eqb_neq; unfold len; cbn [length]; lia).
  destruct (side op) as [|x|x] eqn:Es.
  - (* on the walker *)
    destruct cur as [[|]|].
    { destruct (ms_step E D d a b op (mkMS (mkSR bs o) (len l) (Some true))) as [x [m'|]]; [destruct (ms_run E D d a b ops m') as [xs m'']|]; do 2 eexists; exists None; (split; [reflexivity|]); (split; [|discriminate]); cbn [session]; rewrite Es; exact I. }
    + destruct l as [|e l]; [destruct Hat|]. destruct op; try discriminate Es.
      * eapply (Hnext _ _ (e :: l) None bs); [reflexivity|reflexivity|exact Hat|exact Hb|exact Hl|]. intros rs last Hrs. cbn [session side]. split; [reflexivity|exact Hrs].
      * eapply (Hnext _ _ (e :: l) (Some false) bs); [unfold ms_step; cbn [side ms_remaining]; rewrite Hlen; reflexivity|reflexivity|exact Hat|exact Hb|exact Hl|].
        intros rs last Hrs. cbn [session side]. split; [reflexivity|exact Hrs].
    + destruct op; try discriminate Es.
      * eapply (Hnext _ _ l None bs); [reflexivity|reflexivity|exact Hat|exact Hb|exact Hl|]. intros rs last Hrs. cbn [session side]. split; [reflexivity|exact Hrs].
      * destruct l as [|e l].
        -- eapply (Hnext _ _ [] None bs); [reflexivity|reflexivity|exact Hat|exact Hb|exact Hl|]. intros rs last Hrs. cbn [session side]. split; [reflexivity|exact Hrs].
        -- eapply (Hnext _ _ (e :: l) (Some false) bs); [unfold ms_step; cbn [side ms_remaining]; rewrite Hlen; reflexivity|reflexivity|exact Hat|exact Hb|exact Hl|].
           intros rs last Hrs. cbn [session side]. split; [reflexivity|exact Hrs].
  - (* the key *)
    destruct cur as [[|]|].
    + eapply (Hnext _ _ l (Some true) bs); [unfold ms_step; cbn [ms_entry]; rewrite Es; reflexivity|reflexivity|exact Hat|exact Hb|exact Hl|].
      intros rs last Hrs. cbn [session]. rewrite Es. split; [reflexivity|exact Hrs].
    + destruct l as [|e l]; [destruct Hat|]. cbn [at_entry] in Hat. inversion Hat as [|? k v r1 r2 ? ? Hk Hv Hen]; subst.
      destruct (pos_ok x d a k bs r1 o Hk Hb Hl (proj1 (side_covered b op x Hop) Es a)) as (r & Hx & Ha). destruct (P_wf _ _ _ _ _ Hk Hb Hl) as [Hb1 Hl1].
      assert (Hst : ms_step E D d a b op (mkMS (mkSR bs o) (len (VPair k v :: l)) (Some false))
                    = match r with Ok y => (Ok y, Some (mkMS (mkSR r1 o) (len (VPair k v :: l)) (Some true))) | Err e => (Err e, None) | Panic p => (Panic p, None) end).
      { unfold ms_step. cbn [ms_entry ms_reader ms_remaining]. rewrite Es. unfold after. rewrite Ha. destruct r; reflexivity. }
      destruct r as [y|e|p]; [|apply (Hlast _ Hst)|apply (Hlast _ Hst)]; [|cbn [session]; rewrite Es; auto|cbn [session]; rewrite Es; auto].
      eapply (Hnext _ _ (VPair k v :: l) (Some true) r1 Hst); [reflexivity|exists r2; auto|exact Hb1|exact Hl1|]. intros rs last Hrs. cbn [session]. rewrite Es. split; [exact Hx|exact Hrs].
    + apply (Hlast (Panic PType)); [unfold ms_step; cbn [ms_entry]; rewrite Es; reflexivity|]. cbn [session]. rewrite Es. auto.
  - (* the value *)
    destruct cur as [[|]|].
    + destruct l as [|e l]; [destruct Hat|]. cbn [at_entry] in Hat. destruct Hat as (r2 & Hv & Hen).
      destruct (pos_ok x d b (pval e) bs r2 o Hv Hb Hl (proj2 (side_covered b op x Hop) Es)) as (r & Hx & Ha). destruct (P_wf _ _ _ _ _ Hv Hb Hl) as [Hb1 Hl1].
      assert (Hst : ms_step E D d a b op (mkMS (mkSR bs o) (len (e :: l)) (Some true))
                    = match r with Ok y => (Ok y, Some (mkMS (mkSR r2 o) (len l) None)) | Err e => (Err e, None) | Panic p => (Panic p, None) end).
      { unfold ms_step. cbn [ms_entry ms_reader ms_remaining]. rewrite Es. rewrite Hlen. unfold after. rewrite Ha. replace (len (e :: l) - 1) with (len l) by (unfold len; cbn [length]; lia). destruct r; reflexivity. }
      destruct r as [y|e'|p]; [|apply (Hlast _ Hst)|apply (Hlast _ Hst)]; [|cbn [session]; rewrite Es; auto|cbn [session]; rewrite Es; auto].
      eapply (Hnext _ _ l None r2 Hst); [reflexivity|exact Hen|exact Hb1|exact Hl1|]. intros rs last Hrs. cbn [session]. rewrite Es. split; [exact Hx|exact Hrs].
    + eapply (Hnext _ _ l None bs); [unfold ms_step; cbn [ms_entry ms_reader ms_remaining]; rewrite Es; reflexivity|reflexivity|destruct l; [destruct Hat|exact Hat]|exact Hb|exact Hl|].
      intros rs last Hrs. cbn [session]. rewrite Es. split; [reflexivity|exact Hrs].
    + apply (Hlast (Panic PType)); [unfold ms_step; cbn [ms_entry]; rewrite Es; reflexivity|]. cbn [session]. rewrite Es. auto.
Qed.

(** A map walker. *)
Hypothesis opened_map : forall k a b v p, opened (TMap k a b) v p -> exists l, p = PMap a b l.
Lemma map_at : forall k d a b v bs rest o, P d (TMap k a b) v bs rest -> wfb bs -> len bs < M ->
  exists l body, opened (TMap k a b) v (PMap a b l) /\ sr_run (de_len E) (mkSR bs o) = Ok (len l, mkSR body o) /\ entries d a b body l rest /\ wfb body /\ len body < M.
Proof.
  intros k d a b v bs rest o H Hb Hl. pose proof (HE (TMap k a b) d bs v rest o H Hb Hl I) as He. cbn [refused] in He.
  destruct He as [(d' & c & p & bs' & He & Hr & Ho & (hd & ->))|(x & _ & Ho)]; [|destruct (opened_map _ _ _ _ _ Ho); discriminate].
  destruct (opened_map _ _ _ _ _ Ho) as [l ->]. cbn [kind_of] in Hr. cbn [enter] in He. unfold sm_bind in He.
  destruct (sr_run (de_len E) (mkSR (hd ++ bs') o)) as [[n s']| |]; [|discriminate|discriminate]. inversion He; subst. inversion Hr; subst. exists l, bs'. apply wfb_app in Hb. rewrite len_app in Hl.
  split; [exact Ho|]. split; [reflexivity|]. split; [assumption|]. split; [apply Hb|lia].
Qed.
Lemma map_session_ok : forall k d a b v bs rest o ops, P d (TMap k a b) v bs rest -> wfb bs -> len bs < M -> ops_covered b ops ->
  exists l rs m last, opened (TMap k a b) v (PMap a b l) /\ map_session E D d a b ops (mkSR bs o) = Ok (rs, m) /\ session E D opened a b l None ops rs last
    /\ (last = Some ([], None) -> m = Some (mkMS (mkSR rest o) 0 None)).
Proof.
  intros k d a b v bs rest o ops H Hb Hl Hc. destruct (map_at k d a b v bs rest o H Hb Hl) as (l & body & Ho & Hn & Hen & Hb1 & Hl1).
  destruct (session_ok d a b rest o ops l None body Hen Hb1 Hl1 Hc) as (rs & m & last & Hr & Hs & Hla). exists l, rs, m, last. split; [exact Ho|]. split; [|auto].
  unfold map_session. rewrite Hn. cbn [rmap fst snd]. rewrite Hr. reflexivity.
Qed.

(** ** Bytes of a field *)
Lemma into_ok : forall d t v bs rest o cs, P d t v bs rest -> wfb bs -> len bs < M -> opens E may t -> way_covered (kind_of E t) cs ->
  if refused E t then walk_into_bytes E D d t cs (mkSR bs o) = Err (EDeserialize MBulkVec)
  else exists c x s, opened t v c /\ into_shown E D c cs x
    /\ walk_into_bytes E D d t cs (mkSR bs o) = match x with Ok y => Ok (y, s) | Err e => Err e | Panic p => Panic p end.
Proof.
  intros d t v bs rest o cs H Hb Hl Ho Hc. pose proof (HE t d bs v rest o H Hb Hl Ho) as He. unfold walk_into_bytes, sm_bind. destruct (refused E t); [rewrite He; reflexivity|].
  destruct He as [(d' & c & p & bs' & He & Hr & Hop & (hd & ->))|(x & He & Hop)].
  - rewrite He. cbn [fst snd]. apply wfb_app in Hb. rewrite len_app in Hl.
    destruct Hr as [t' v' Hv|t' Hv|t' v' Hv|t1 t2 v' Hv|t1 t2 v' Hv|t' l m Hm Hv|t1 t2 l m Hm Hv|sr i fs l Hv|er s vs kn l fs His Hhere Hv];
      try (eexists; exists (Panic PType), (mkSR bs' o); split; [exact Hop|split; reflexivity]).
    destruct (chain_into E D opened may P M HM SB HP HE d' cs fs sr i l bs' rest o Hv (proj2 Hb) ltac:(lia) Hc) as (x & s & Hx & Hr). eauto 6.
  - exists (PFail x), x, (mkSR rest o). split; [exact Hop|]. split; [reflexivity|]. specialize (He (fun q => match snd q with CStruct r i fs => into_bytes_after E D (fst q) r i fs cs | _ => sm_panic PType end)).
    unfold sm_bind in He. rewrite He. destruct x; reflexivity.
Qed.
(** ** The variant test *)
Lemma is_ok : forall d n v bs rest o s vs k l k' w0 w1, P d (TRef n) v bs rest -> wfb bs -> len bs < M -> opens E may (TRef n) ->
  e_sch E n = Some s -> s_body s = SEnum vs -> v = VVar k l -> variant_here s vs k' <> None ->
  (forall p, opened (TRef n) v p -> (exists x, p = PFail x) \/ exists det, p = PEnum det s vs k l) ->
  walk_with E D d (TRef n) (Is k' w0 w1) (mkSR bs o) = walk_with E D d (TRef n) (if k =? k' then w0 else w1) (mkSR bs o).
Proof.
  intros d n v bs rest o s vs k l k' w0 w1 H Hb Hl Ho Es Ebd Hv Hk Hop. pose proof (HE (TRef n) d bs v rest o H Hb Hl Ho) as He. cbn [refused] in He. unfold walk_with.
  destruct He as [(d' & c & p & bs' & He & Hr & Hopp & _)|(x & He & _)]; [|rewrite !He; reflexivity]. unfold sm_bind. rewrite He. cbn [fst snd].
  destruct (Hop p Hopp) as [(x & ->)|(det & ->)]; [inversion Hr|]. inversion Hr as [| | | | | | | |er s' vs' kn l' fs His Hhere Hu]; subst. cbn [act_on].
  rewrite cur_here, (His k' Hk). destruct (variant_here s vs k'); [|contradiction]. reflexivity.
Qed.

(** ** Searches *)
Fixpoint first_hit (p : val -> comparison) (l : list val) : option (val * list val) :=
  match l with
  | [] => None
  | e :: l' => match p (pkey e) with Lt => first_hit p l' | Eq => Some (pval e, l') | Gt => None end
  end.
Lemma skip_P : forall d t v bs r, P d t v bs r -> wfb bs -> len bs < M -> run (skip E d t) bs = Ok (tt, r).
Proof. intros d t v bs r H Hb Hl. exact (skip_ok E D opened may P M HM SB HP HE d t bs v r Hl (HP d t v bs r H Hb Hl)). Qed.
Lemma find_loop_ok : forall p d a b bs l rest o, entries d a b bs l rest -> wfb bs -> len bs < M ->
  match first_hit p l with
  | Some (v, l') => exists bs' r2, find_loop E d a b p (length l) (mkSR bs o) = Ok (true, mkSR bs' o) /\ P d b v bs' r2 /\ entries d a b r2 l' rest /\ wfb bs' /\ len bs' < M
  | None => find_loop E d a b p (length l) (mkSR bs o) = Ok (false, mkSR rest o)
  end.
Proof.
  intros p d a b bs l rest o H. induction H as [bs|bs k v r1 r2 l rest Hk Hv H IH]; intros Hb Hl; [reflexivity|]. cbn [length find_loop first_hit pkey pval].
  destruct (P_wf _ _ _ _ _ Hk Hb Hl) as [Hb1 Hl1]. destruct (P_wf _ _ _ _ _ Hv Hb1 Hl1) as [Hb2 Hl2]. pose proof (HP _ _ _ _ _ Hk Hb Hl) as Hkd. pose proof (skip_P _ _ _ _ _ Hv Hb1 Hl1) as Hvs.
  specialize (IH Hb2 Hl2). destruct (p k) eqn:Ep.
  - exists r1, r2. rewrite (sm_bind_run _ _ _ _ _ _ _ _ Hkd), Ep. auto.
  - destruct (first_hit p l) as [[v' l']|]; [destruct IH as (bs' & r2' & Hf & Hrest); exists bs', r2'; split; [|exact Hrest]|];
      rewrite (sm_bind_run _ _ _ _ _ _ _ _ Hkd), Ep, (sm_bind_run _ _ _ _ _ _ _ _ Hvs); [exact Hf|exact IH].
  - rewrite (sm_bind_run _ _ _ _ _ _ _ _ Hkd), Ep, (sm_bind_run _ _ _ _ _ _ _ _ Hvs). unfold sm_bind at 1. rewrite (entries_skip E D opened may P M HM SB HP HE d a b r2 l rest o H Hb2 Hl2). reflexivity.
Qed.
(** The keys as bytes. *)
Lemma find_bytes_loop_ok : forall p d a b bs l rest o, length_prefixed a = true -> entries d a b bs l rest -> wfb bs -> len bs < M ->
  match first_hit (fun k => p (contents k)) l with
  | Some (v, l') => exists bs' r2, find_bytes_loop E d a b p (length l) (mkSR bs o) = Ok (true, mkSR bs' o) /\ P d b v bs' r2 /\ entries d a b r2 l' rest /\ wfb bs' /\ len bs' < M
  | None => find_bytes_loop E d a b p (length l) (mkSR bs o) = Ok (false, mkSR rest o)
  end.
Proof.
  intros p d a b bs l rest o Ha H. induction H as [bs|bs k v r1 r2 l rest Hk Hv H IH]; intros Hb Hl; [reflexivity|]. cbn [length find_bytes_loop first_hit pkey pval].
  destruct (P_wf _ _ _ _ _ Hk Hb Hl) as [Hb1 Hl1]. destruct (P_wf _ _ _ _ _ Hv Hb1 Hl1) as [Hb2 Hl2]. pose proof (skip_P _ _ _ _ _ Hv Hb1 Hl1) as Hvs.
  assert (Hkb : with_bytes E (mkSR bs o) = Ok (contents k, mkSR r1 o)).
  { destruct (pos_ok Bytes d a k bs r1 o Hk Hb Hl I) as (r & Hr & Hx). cbn [expect] in Hr. rewrite Ha in Hr. subst r. cbn [act_on] in Hx. rewrite Ha in Hx. unfold sm_map, sm_bind at 1 in Hx.
    destruct (with_bytes E (mkSR bs o)) as [[y s']| |]; [|discriminate|discriminate]. cbn in Hx. inversion Hx; subst. reflexivity. }
  assert (Hstep : forall B (f : bytes -> sm B), sm_bind (sr_run (de_len E)) (fun m => sm_bind (fun s => rmap (fun x => (x, s)) (sr_peek m s)) (fun x => sm_bind (sm_op (sr_advance m)) (fun _ => f x))) (mkSR bs o) = f (contents k) (mkSR r1 o)).
  { intros B f. unfold with_bytes in Hkb. unfold sm_bind in *. destruct (sr_run (de_len E) (mkSR bs o)) as [[m s1]| |]; [|discriminate|discriminate].
    destruct (rmap (fun x => (x, s1)) (sr_peek m s1)) as [[x s2]| |]; [|discriminate|discriminate]. destruct (sm_op (sr_advance m) s2) as [[u s3]| |]; [|discriminate|discriminate]. cbn in Hkb. inversion Hkb; subst. reflexivity. }
  specialize (IH Hb2 Hl2). destruct (p (contents k)) eqn:Ep.
  - exists r1, r2. rewrite Hstep, Ep. auto.
  - destruct (first_hit _ l) as [[v' l']|]; [destruct IH as (bs' & r2' & Hf & Hrest); exists bs', r2'; split; [|exact Hrest]|];
      rewrite Hstep, Ep, (sm_bind_run _ _ _ _ _ _ _ _ Hvs); [exact Hf|exact IH].
  - rewrite Hstep, Ep, (sm_bind_run _ _ _ _ _ _ _ _ Hvs). unfold sm_bind at 1. rewrite (entries_skip E D opened may P M HM SB HP HE d a b r2 l rest o H Hb2 Hl2). reflexivity.
Qed.

(** What the ordering of the keys gives. *)
Lemma hit_none : forall p l, (forall e, In e l -> p (pkey e) <> Eq) -> first_hit p l = None.
Proof.
  intros p l. induction l as [|e l IH]; intros H; [reflexivity|]. cbn [first_hit]. pose proof (H e (or_introl eq_refl)). destruct (p (pkey e)); [contradiction| |reflexivity]. apply IH. intros e' He. apply H. right. exact He.
Qed.
Lemma hit_some : forall p l e, ascending p l -> In e l -> p (pkey e) = Eq -> exists l1 l2, l = l1 ++ e :: l2 /\ first_hit p l = Some (pval e, l2).
Proof.
  intros p l. induction l as [|e0 l IH]; intros e Ha Hin He; [contradiction Hin|]. destruct Ha as [Ha1 Ha2]. cbn [first_hit]. destruct Hin as [->|Hin].
  - rewrite He. exists [], l. auto.
  - destruct (p (pkey e0)) eqn:E0; [rewrite (Ha1 ltac:(discriminate) e Hin) in He; discriminate| |rewrite (Ha1 ltac:(discriminate) e Hin) in He; discriminate].
    destruct (IH e Ha2 Hin He) as (l1 & l2 & -> & Hf). exists (e0 :: l1), l2. auto.
Qed.

Lemma map_find_ok : forall p d a b bs body l rest o w, run (de_len E) bs = Ok (len l, body) -> entries d a b body l rest -> wfb bs -> len bs < M ->
  covered E may (HPos b) w ->
  match first_hit p l with
  | Some (v, l') => exists r tail, exp (PPos b v) w r /\ entries d a b tail l' rest
                      /\ map_find E D d a b p w (mkSR bs o) = rmap (fun q => (Some (fst q), snd q)) (fin r tail o)
  | None => map_find E D d a b p w (mkSR bs o) = Ok (None, mkSR rest o)
  end.
Proof.
  intros p d a b bs body l rest o w Hn H Hb Hl Hc. destruct (run_wf2 E D opened may P M HM HP HE _ _ _ _ _ Hb Hl Hn) as [Hb1 Hl1]. pose proof (find_loop_ok p d a b body l rest o H Hb1 Hl1) as Hf.
  unfold map_find. rewrite (sm_bind_run _ _ _ _ _ _ _ _ Hn). replace (N.to_nat (len l)) with (length l) by (unfold len; lia).
  destruct (first_hit p l) as [[v l']|].
  - destruct Hf as (bs' & r2 & Hf & Hv & Hen & Hb2 & Hl2). destruct (pos_ok w d b v bs' r2 o Hv Hb2 Hl2 Hc) as (r & Hr & Hx). exists r, r2. split; [exact Hr|]. split; [exact Hen|].
    unfold sm_bind. rewrite Hf. unfold sm_map, sm_bind. rewrite Hx. destruct r; reflexivity.
  - unfold sm_bind. rewrite Hf. reflexivity.
Qed.
Lemma map_find_bytes_ok : forall p d a b bs body l rest o w, length_prefixed a = true -> run (de_len E) bs = Ok (len l, body) -> entries d a b body l rest -> wfb bs -> len bs < M ->
  covered E may (HPos b) w ->
  match first_hit (fun k => p (contents k)) l with
  | Some (v, l') => exists r tail, exp (PPos b v) w r /\ entries d a b tail l' rest
                      /\ map_find_bytes E D d a b p w (mkSR bs o) = rmap (fun q => (Some (fst q), snd q)) (fin r tail o)
  | None => map_find_bytes E D d a b p w (mkSR bs o) = Ok (None, mkSR rest o)
  end.
Proof.
  intros p d a b bs body l rest o w Ha Hn H Hb Hl Hc. destruct (run_wf2 E D opened may P M HM HP HE _ _ _ _ _ Hb Hl Hn) as [Hb1 Hl1]. pose proof (find_bytes_loop_ok p d a b body l rest o Ha H Hb1 Hl1) as Hf.
  unfold map_find_bytes. rewrite (sm_bind_run _ _ _ _ _ _ _ _ Hn). replace (N.to_nat (len l)) with (length l) by (unfold len; lia).
  destruct (first_hit _ l) as [[v l']|].
  - destruct Hf as (bs' & r2 & Hf & Hv & Hen & Hb2 & Hl2). destruct (pos_ok w d b v bs' r2 o Hv Hb2 Hl2 Hc) as (r & Hr & Hx). exists r, r2. split; [exact Hr|]. split; [exact Hen|].
    unfold sm_bind. rewrite Hf. unfold sm_map, sm_bind. rewrite Hx. destruct r; reflexivity.
  - unfold sm_bind. rewrite Hf. reflexivity.
Qed.
End G.

(** ** Visits *)
Lemma visit_fields_shows : forall E D opened det cs fs (pres : field -> bool) l r, length fs = length l ->
  expect E D opened (PFields det (combine (map (fun f => (f, pres f)) fs) l)) (visit_fields cs) r -> r = Ok (visited cs l).
Proof.
  intros E D opened det cs. induction cs as [|c cs IH]; intros fs pres l r Hl H.
  - cbn [visit_fields visited] in *. destruct (combine _ l) as [|[[f p] v] l']; exact H.
  - destruct fs as [|f fs]; destruct l as [|v l]; try discriminate Hl; cbn [visit_fields visited map combine expect] in *; [exact H|].
    destruct c; destruct H as (r2 & H & ->); apply (IH fs pres l r2 ltac:(cbn [length] in Hl; lia)) in H; subst r2; reflexivity.
Qed.
Lemma visit_items_shows : forall E D opened t cs l r, expect E D opened (PSeq t l) (visit_items cs) r -> r = Ok (visited cs l).
Proof.
  intros E D opened t cs. induction cs as [|c cs IH]; intros l r H; [exact H|]. destruct l as [|v l]; cbn [visit_items visited expect] in *; [exact H|].
  destruct c; destruct H as (r1 & Hr1 & H); cbn in Hr1; subst r1; destruct H as (r2 & H & ->); apply IH in H; subst r2; reflexivity.
Qed.
Lemma visit_entries_shows : forall E D opened a b cs l r, expect E D opened (PMap a b l) (visit_entries cs) r -> r = Ok (visited_entries cs l).
Proof.
  intros E D opened a b cs. induction cs as [|[c c'] cs IH]; intros l r H; [exact H|]. destruct l as [|v l]; cbn [visit_entries visited_entries expect] in *; [exact H|].
  destruct c; destruct H as (r1 & Hr1 & H); cbn in Hr1; subst r1; destruct H as (r2 & Hr2 & H); destruct c'; cbn in Hr2; subst r2; destruct H as (r3 & H & ->); apply IH in H; subst r3; reflexivity.
Qed.
Lemma visit_items_covered : forall E may t cs, covered E may (HSeq t) (visit_items cs).
Proof. intros E may t cs. induction cs as [|c cs IH]; [exact I|]. split; [destruct c; exact I|exact IH]. Qed.
Lemma visit_entries_covered : forall E may a b cs, covered E may (HMap a b) (visit_entries cs).
Proof. intros E may a b cs. induction cs as [|[c c'] cs IH]; [exact I|]. split; [destruct c; exact I|]. split; [destruct c'; exact I|exact IH]. Qed.
Lemma visit_fields_covered : forall E may ix fs cs, way_covered (HFields ix fs) cs -> covered E may (HFields ix fs) (visit_fields cs).
Proof.
  intros E may ix fs cs. revert fs. induction cs as [|c cs IH]; intros fs H; [destruct fs; exact I|]. destruct fs as [|f fs]; [exact I|]. destruct H as [H1 H2]. cbn [visit_fields covered].
  split; [|apply IH, H2]. destruct c; [apply H1; reflexivity|exact I].
Qed.
Lemma way_plain : forall fs cs, way_covered (HFields false fs) cs.
Proof. induction fs as [|f fs IH]; intros cs; destruct cs; cbn; auto. Qed.

(** Keys in order: the comparisons with any probe ascend. *)
Lemma ascending_sorted : forall cmp probe l, lawful cmp -> StronglySorted (fun p q => cmp (pkey p) (pkey q) = Lt) l -> ascending (fun k => cmp k probe) l.
Proof.
  intros cmp probe l Hl Hs. induction Hs as [|e l Hs IH Hf]; [exact I|]. split; [|exact IH]. intros Hne e' Hin. pose proof (proj1 (Forall_forall _ _) Hf e' Hin) as Hlt.
  apply lawful_order in Hl. apply (o_gt _ _ Hl). apply (o_le_lt _ _ Hl) with (pkey e); [|exact Hlt]. rewrite (o_sym _ Hl (pkey e) probe). destruct (cmp (pkey e) probe); cbn; congruence.
Qed.
