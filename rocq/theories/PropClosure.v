(** C77: what lookups cost, and lookups with closures that have a state. *)

From Verif Require Import Base BaseL Prog ProgL Prim Tag Ty Ser De Typed Mig Spec Ex SliceReader Skip SkipL SkipIdx IdxWalk IdxWalkL Effort EffortL PrimL Closure Borrowed PropView PropEnc PropSkip PropBorrowed PropEffort PropIdx PropWire.
From Coq Require Import List NArith ZArith Bool Lia.
Import ListNotations.
Open Scope N_scope.

(** ** Closures without a state *)

(** A closure whose answers depend on the key only gives what the lookups of C30, C31, C34 and C35 give. *)
Definition plain (f : bytes -> comparison) (pred : closure) : Prop := forall shown key, pred shown key = f key.
Lemma bsearch_plain : forall f pred, plain f pred -> forall fuel p n lo hi shown,
  fst (bsearch_mut fuel p n lo hi pred shown) = bsearch fuel p n lo hi f.
Proof.
  intros f pred H fuel p n. induction fuel as [|fuel IH]; intros lo hi shown; cbn [bsearch_mut bsearch]; destruct (lo <? hi); try reflexivity.
  cbv zeta. destruct (n <=? lo + (hi - lo) / 2); [reflexivity|]. destruct (entry_ranges p n (lo + (hi - lo) / 2)) as [r|e|x]; cbn [rbind]; try reflexivity.
  destruct (get (mp_keys p) (fst (fst r)) (snd (fst r))) as [key|]; [|reflexivity]. rewrite H. destruct (f key); [|apply IH|apply IH].
  destruct (get (mp_vals p) (fst (snd r)) (snd (snd r))); reflexivity.
Qed.
Theorem C77_stateless : forall w f pred hint, plain f pred ->
  fst (find_mut w pred) = find_value_bytes w f /\ fst (find_hint_mut w hint pred) = find_value_bytes_with_hint w hint f.
Proof.
  intros w f pred hint H. unfold find_mut, find_hint_mut, find_value_bytes, find_value_bytes_with_hint. destruct (mw_pro w) as [p|]; [|split; reflexivity].
  assert (HB : forall shown, fst (bsearch_mut (N.to_nat (mw_len w)) p (mw_len w) 0 (mw_len w) pred shown) = bsearch (N.to_nat (mw_len w)) p (mw_len w) 0 (mw_len w) f).
  { intros shown. apply bsearch_plain. exact H. }
  split.
  - specialize (HB []). destruct (bsearch_mut _ _ _ _ _ _ _) as [r l]. cbn [fst] in *. rewrite HB. reflexivity.
  - assert (HP : match hint with Some h => fst (probe_mut p (mw_len w) h pred) = probe_hint p (mw_len w) h f | None => True end).
    { destruct hint as [h|]; [|exact I]. unfold probe_mut, probe_hint. destruct (mw_len w <=? h); [reflexivity|].
      destruct (entry_ranges p (mw_len w) h) as [r|e|x]; cbn [rbind]; try reflexivity. destruct (get (mp_keys p) _ _) as [key|]; [|reflexivity].
      cbn [fst]. rewrite H. reflexivity. }
    destruct hint as [h|].
    + destruct (probe_mut p (mw_len w) h pred) as [o shown]. cbn [fst] in HP. rewrite <- HP. destruct o as [[v|]|e|x]; cbn [rbind fst]; try reflexivity.
      specialize (HB shown). destruct (bsearch_mut _ _ _ _ _ _ _) as [r l]. cbn [fst] in *. rewrite HB. reflexivity.
    + cbn [rbind]. specialize (HB []). destruct (bsearch_mut _ _ _ _ _ _ _) as [r l]. cbn [fst] in *. rewrite HB. reflexivity.
Qed.

(** ** Any closure *)

(** Number of probes of a binary search among [n] entries: the number of binary digits of [n]. *)
Definition probes (n : N) : N := if n =? 0 then 0 else N.log2 n + 1.
Lemma probes_half : forall n m, 0 < n -> m <= n / 2 -> 1 + probes m <= probes n.
Proof.
  intros n m Hn Hm. unfold probes. destruct (N.eqb_spec n 0); [lia|]. destruct (N.eqb_spec m 0); [lia|].
  assert (m * 2 <= n) by (pose proof (N.div_mod n 2 ltac:(lia)); lia).
  pose proof (N.log2_le_mono (2 * m) n ltac:(lia)) as HL. rewrite N.log2_double in HL by lia. lia.
Qed.
Lemma bsearch_mut_ok : forall fuel p n pred lo hi shown, len (mp_table p) = 8 * n -> hi <= n -> hi - lo <= N.of_nat fuel ->
  (match fst (bsearch_mut fuel p n lo hi pred shown) with
   | Ok (Some (v, m)) => inside v (mp_vals p)
   | Ok None => True
   | Err e => exists a b, e = EOffsetRange a b
   | Panic _ => False
   end)
  /\ exists new, snd (bsearch_mut fuel p n lo hi pred shown) = new ++ shown /\ len new <= probes (hi - lo) /\ Forall (fun k => inside k (mp_keys p)) new.
Proof.
  intros fuel p n pred. induction fuel as [|fuel IH]; intros lo hi shown L Hn Hf; cbn [bsearch_mut].
  - destruct (N.ltb_spec lo hi); [lia|]. split; [exact I|]. exists []. split; [reflexivity|]. split; [rewrite len_nil; lia|constructor].
  - destruct (N.ltb_spec lo hi) as [H|H]; [|split; [exact I|exists []; split; [reflexivity|split; [rewrite len_nil; lia|constructor]]]].
    pose proof (half lo hi H) as Hm.
    assert (HA : hi - (lo + (hi - lo) / 2 + 1) <= (hi - lo) / 2) by (pose proof (N.div_mod (hi - lo) 2 ltac:(lia)); pose proof (N.mod_lt (hi - lo) 2 ltac:(lia)); lia).
    assert (HB : lo + (hi - lo) / 2 - lo <= (hi - lo) / 2) by lia.
    pose proof (probes_half (hi - lo) _ ltac:(lia) HA) as PA. pose proof (probes_half (hi - lo) _ ltac:(lia) HB) as PB.
    set (mid := lo + (hi - lo) / 2) in *. clearbody mid. cbv zeta.
    destruct (N.leb_spec n mid); [lia|]. rewrite entry_ranges_in by (try exact L; lia). cbn [fst snd].
    assert (P0 : 0 <= probes (hi - lo)) by lia.
    destruct (get (mp_keys p) _ _) as [key|] eqn:GK; [|split; [eexists; eexists; reflexivity|exists []; split; [reflexivity|split; [rewrite len_nil; lia|constructor]]]].
    assert (IK : inside key (mp_keys p)).
    { apply get_some in GK. destruct GK as (G1 & G2 & ->). destruct (cutout_split _ _ _ G1 G2) as (x & y & Hx & _). exists x, y. exact Hx. }
    destruct (pred shown key).
    + destruct (get (mp_vals p) _ _) as [v|] eqn:G.
      * split; [|exists [key]; split; [reflexivity|split; [rewrite len_cons, len_nil; lia|constructor; [exact IK|constructor]]]].
        cbn [fst]. apply get_some in G. destruct G as (G1 & G2 & ->). destruct (cutout_split _ _ _ G1 G2) as (x & y & Hx & _). exists x, y. exact Hx.
      * split; [eexists; eexists; reflexivity|]. exists [key]. split; [reflexivity|]. split; [rewrite len_cons, len_nil; lia|constructor; [exact IK|constructor]].
    + destruct (IH (mid + 1) hi (key :: shown) L Hn ltac:(lia)) as (H1 & new & H2 & H3 & H4). split; [exact H1|]. exists (new ++ [key]).
      split; [rewrite H2, <- app_assoc; reflexivity|]. split; [rewrite len_app, len_cons, len_nil; lia|]. apply Forall_app. split; [exact H4|]. constructor; [exact IK|constructor].
    + destruct (IH lo mid (key :: shown) L ltac:(lia) ltac:(lia)) as (H1 & new & H2 & H3 & H4). split; [exact H1|]. exists (new ++ [key]).
      split; [rewrite H2, <- app_assoc; reflexivity|]. split; [rewrite len_app, len_cons, len_nil; lia|]. apply Forall_app. split; [exact H4|]. constructor; [exact IK|constructor].
Qed.
(** Whatever the closure answers, and whatever the payload, which need not have been validated: a lookup does not
    panic, gives out bytes of the payload only, shows the closure bytes of the payload only, and calls it no more
    often than there are binary digits in the number of entries; a hint costs one more call. *)
Theorem C77_any_closure : forall E v b w pred hint, wf_env E -> payload_bounds E b -> map_open E v b = Ok w ->
  (match fst (find_mut w pred) with Ok (Some x) => inside x b | Panic _ => False | _ => True end)
  /\ (match fst (find_hint_mut w hint pred) with Ok (Some x, _) => inside x b | Panic _ => False | _ => True end)
  /\ len (snd (find_mut w pred)) <= probes (mw_len w)
  /\ len (snd (find_hint_mut w hint pred)) <= probes (mw_len w) + (match hint with Some h => if h <? mw_len w then 1 else 0 | None => 0 end)
  /\ (forall k, In k (snd (find_mut w pred)) \/ In k (snd (find_hint_mut w hint pred)) -> inside k b).
Proof.
  intros E v b w pred hint W P H. apply (map_parts_of E v b w W P) in H. destruct H as [_ H].
  unfold find_mut, find_hint_mut. destruct (mw_pro w) as [p|] eqn:Hp; [|cbn [fst snd]; split; [exact I|split; [exact I|split; [rewrite len_nil; lia|split; [rewrite len_nil; lia|intros k [[]|[]]]]]]].
  destruct (H p eq_refl) as (hd & lens & tl & Hb & L1 & _ & _ & Lt & _).
  assert (Ik : inside (mp_keys p) b) by (exists (hd ++ mp_table p ++ lens), (mp_vals p ++ tl); rewrite <- !app_assoc; exact Hb).
  assert (Iv : inside (mp_vals p) b) by (exists (hd ++ mp_table p ++ lens ++ mp_keys p), tl; rewrite <- !app_assoc; exact Hb).
  assert (BS : forall shown, (match fst (bsearch_mut (N.to_nat (mw_len w)) p (mw_len w) 0 (mw_len w) pred shown) with Ok (Some (x, _)) => inside x b | Panic _ => False | _ => True end)
     /\ exists new, snd (bsearch_mut (N.to_nat (mw_len w)) p (mw_len w) 0 (mw_len w) pred shown) = new ++ shown /\ len new <= probes (mw_len w) /\ Forall (fun k => inside k b) new).
  { intros shown. destruct (bsearch_mut_ok (N.to_nat (mw_len w)) p (mw_len w) pred 0 (mw_len w) shown Lt ltac:(lia) ltac:(lia)) as (H1 & new & H2 & H3 & H4). rewrite N.sub_0_r in H3.
    split.
    - destruct (fst (bsearch_mut _ _ _ _ _ _ _)) as [[[x m]|]|e|q]; try exact I; [|exact H1]. exact (inside_trans _ _ _ H1 Iv).
    - exists new. split; [exact H2|]. split; [exact H3|]. eapply Forall_impl; [|exact H4]. intros k Hk. exact (inside_trans _ _ _ Hk Ik). }
  assert (F1 : let r := (let (r, shown) := bsearch_mut (N.to_nat (mw_len w)) p (mw_len w) 0 (mw_len w) pred [] in (rmap (option_map fst) r, shown)) in
     (match fst r with Ok (Some x) => inside x b | Panic _ => False | _ => True end) /\ len (snd r) <= probes (mw_len w) /\ Forall (fun k => inside k b) (snd r)).
  { cbv zeta. destruct (BS []) as (H1 & new & H2 & H3 & H4). destruct (bsearch_mut _ _ _ _ _ _ _) as [r shown]. cbn [fst snd] in *. rewrite app_nil_r in H2. subst shown.
    split; [destruct r as [[[x m]|]|e|q]; cbn [rmap rbind option_map fst]; exact H1|]. split; [exact H3|exact H4]. }
  assert (F2 : forall shown, Forall (fun k => inside k b) shown ->
     let r := (let (r, shown') := bsearch_mut (N.to_nat (mw_len w)) p (mw_len w) 0 (mw_len w) pred shown in
               (rmap (fun r => match r with Some (value, i) => (Some value, Some i) | None => (None, hint) end) r, shown')) in
     (match fst r with Ok (Some x, _) => inside x b | Panic _ => False | _ => True end) /\ len (snd r) <= probes (mw_len w) + len shown /\ Forall (fun k => inside k b) (snd r)).
  { intros shown Hs. cbv zeta. destruct (BS shown) as (H1 & new & H2 & H3 & H4). destruct (bsearch_mut _ _ _ _ _ pred shown) as [r shown'] eqn:HE. cbn [fst snd] in H1, H2 |- *. rewrite H2. clear HE.
    split; [destruct r as [[[x m]|]|e|q]; cbn [rmap rbind fst]; exact H1|]. split; [rewrite len_app; lia|]. apply Forall_app. split; assumption. }
  assert (F3 : let r := match (match hint with Some h => probe_mut p (mw_len w) h pred | None => (Ok None, []) end) with
      | (Ok (Some value), shown) => (Ok (Some value, hint), shown)
      | (Ok None, shown) =>
          let (r, shown') := bsearch_mut (N.to_nat (mw_len w)) p (mw_len w) 0 (mw_len w) pred shown in
          (rmap (fun r => match r with Some (value, i) => (Some value, Some i) | None => (None, hint) end) r, shown')
      | (Err e, shown) => (Err e, shown)
      | (Panic x, shown) => (Panic x, shown)
      end in
     (match fst r with Ok (Some x, _) => inside x b | Panic _ => False | _ => True end)
     /\ len (snd r) <= probes (mw_len w) + (match hint with Some h => if h <? mw_len w then 1 else 0 | None => 0 end) /\ Forall (fun k => inside k b) (snd r)).
  { cbv zeta. destruct hint as [h|].
    - unfold probe_mut. destruct (N.leb_spec (mw_len w) h) as [Hh|Hh].
      + destruct (N.ltb_spec h (mw_len w)); [lia|]. destruct (F2 [] ltac:(constructor)) as (G1 & G2 & G3). rewrite len_nil in G2. split; [exact G1|]. split; [exact G2|exact G3].
      + destruct (N.ltb_spec h (mw_len w)); [|lia]. rewrite entry_ranges_in by assumption. cbn [fst snd].
        destruct (get (mp_keys p) _ _) as [key|] eqn:GK.
        2:{ destruct (F2 [] ltac:(constructor)) as (G1 & G2 & G3). rewrite len_nil in G2. split; [exact G1|]. split; [lia|exact G3]. }
        assert (IK : inside key b).
        { apply get_some in GK. destruct GK as (G1 & G2 & ->). destruct (cutout_split _ _ _ G1 G2) as (x & y & Hx & _). apply (inside_trans _ (mp_keys p)); [exists x, y; exact Hx|exact Ik]. }
        assert (HK : Forall (fun k => inside k b) [key]) by (constructor; [exact IK|constructor]).
        assert (FK := F2 [key] HK). rewrite len_cons, len_nil in FK.
        destruct (pred [] key); try exact FK. destruct (get (mp_vals p) _ _) as [x|] eqn:G; [|exact FK]. cbn [fst snd]. split.
        * apply get_some in G. destruct G as (G1 & G2 & ->). destruct (cutout_split _ _ _ G1 G2) as (x & y & Hx & _). apply (inside_trans _ (mp_vals p)); [exists x, y; exact Hx|exact Iv].
        * split; [rewrite len_cons, len_nil; lia|exact HK].
    - destruct (F2 [] ltac:(constructor)) as (G1 & G2 & G3). rewrite len_nil in G2. split; [exact G1|]. split; [exact G2|exact G3]. }
  destruct F1 as (A1 & A2 & A3). destruct F3 as (B1 & B2 & B3). split; [exact A1|]. split; [exact B1|]. split; [exact A2|]. split; [exact B2|].
  intros k [Hk|Hk]; [exact (proj1 (Forall_forall _ _) A3 k Hk)|exact (proj1 (Forall_forall _ _) B3 k Hk)].
Qed.

(** ** Validated payloads *)

(** What a lookup in the entries [es] may end with, if [shown] are the keys shown to the closure, the latest first:
    the keys of entries only; the value of the last of them, if to that one the closure answered "equal" and to none
    before it; or nothing, if it answered so to none. *)
Fixpoint unanswered (pred : closure) (shown : list bytes) : Prop :=
  match shown with [] => True | k :: before => pred before k <> Eq /\ unanswered pred before end.
Definition fair_end (pred : closure) (es : list (bytes * bytes)) (shown : list bytes) (r : option (bytes * N)) : Prop :=
  (forall k, In k shown -> exists v, In (k, v) es)
  /\ match r with
     | Some (v, i) => exists k before, shown = k :: before /\ pred before k = Eq /\ unanswered pred before /\ nth_error es (N.to_nat i) = Some (k, v)
     | None => unanswered pred shown
     end.
Lemma bsearch_mut_content : forall p n kf vf pred, n <= 2 ^ 32 -> content p n kf vf -> forall fuel lo hi shown, hi <= n -> hi - lo <= N.of_nat fuel ->
  (forall k, In k shown -> exists v, In (k, v) (listed n kf vf)) -> unanswered pred shown ->
  exists r shown', bsearch_mut fuel p n lo hi pred shown = (Ok r, shown') /\ fair_end pred (listed n kf vf) shown' r.
Proof.
  intros p n kf vf pred Hn C. induction fuel as [|fuel IH]; intros lo hi shown Hh Hf Hs Hu; cbn [bsearch_mut].
  - destruct (N.ltb_spec lo hi); [lia|]. exists None, shown. split; [reflexivity|]. split; assumption.
  - destruct (N.ltb_spec lo hi) as [H|H]; [|exists None, shown; split; [reflexivity|split; assumption]].
    pose proof (half lo hi H) as Hm. cbv zeta. set (mid := lo + (hi - lo) / 2) in *. clearbody mid.
    destruct (N.leb_spec n mid); [lia|]. destruct (C mid ltac:(lia)) as (a & b & c & d & E1 & E2 & E3). rewrite E1. cbn [fst snd]. rewrite E2, E3.
    assert (HI : In (kf mid, vf mid) (listed n kf vf)) by (apply in_listed; exists mid; repeat split; lia).
    assert (Hs' : forall k, In k (kf mid :: shown) -> exists v, In (k, v) (listed n kf vf)).
    { intros k [<-|Hk]; [exists (vf mid); exact HI|exact (Hs k Hk)]. }
    destruct (pred shown (kf mid)) eqn:Hp.
    + eexists. eexists. split; [reflexivity|]. split; [exact Hs'|]. exists (kf mid), shown. split; [reflexivity|]. split; [exact Hp|]. split; [exact Hu|].
      rewrite N.mod_small by lia. apply nth_listed. lia.
    + apply IH; try lia; [exact Hs'|]. split; [rewrite Hp; discriminate|exact Hu].
    + apply IH; try lia; [exact Hs'|]. split; [rewrite Hp; discriminate|exact Hu].
Qed.
Theorem C77_validated : forall E b w es pred hint, wf_env E -> payload_bounds E b -> map_open E true b = Ok w -> entries w = Some (Ok es) -> len es <= 2 ^ 32 ->
  (exists r shown, find_mut w pred = (Ok (option_map fst r), shown) /\ fair_end pred es shown r)
  /\ (exists r shown, find_hint_mut w hint pred = (Ok (match r with Some (v, i) => (Some v, Some i) | None => (None, hint) end), shown) /\ fair_end pred es shown r)
  /\ (forall h key v, hint = Some h -> nth_error es (N.to_nat h) = Some (key, v) -> pred [] key = Eq -> find_hint_mut w hint pred = (Ok (Some v, Some h), [key])).
Proof.
  intros E b w es pred hint W P H He Hl. apply (map_parts_of E true b w W P) in H. destruct H as [_ H].
  destruct (mw_pro w) as [p|] eqn:Hp; [|unfold entries in He; rewrite Hp in He; discriminate].
  destruct (H p eq_refl) as (hd & lens & tl & Hb & L1 & _ & _ & Lt & Ho). destruct (Ho eq_refl) as (O1 & O2 & Ha).
  pose proof (content_in p _ Lt O1 O2) as C. rewrite (entries_listed w p _ _ Hp Lt C) in He.
  remember (piece (mp_table p) 0 8 (mw_len w) (mp_keys p)) as kf eqn:Hkf. remember (piece (mp_table p) 4 8 (mw_len w) (mp_vals p)) as vf eqn:Hvf. clear Hkf Hvf.
  assert (es = listed (mw_len w) kf vf) by congruence. subst es. clear He.
  assert (Hn : mw_len w <= 2 ^ 32) by (revert Hl; unfold len, listed; rewrite map_length, seq_length, N2Nat.id; auto).
  pose proof (bsearch_mut_content p (mw_len w) kf vf pred Hn C (N.to_nat (mw_len w)) 0 (mw_len w)) as B.
  assert (B0 : exists r shown', bsearch_mut (N.to_nat (mw_len w)) p (mw_len w) 0 (mw_len w) pred [] = (Ok r, shown') /\ fair_end pred (listed (mw_len w) kf vf) shown' r).
  { apply B; [lia|lia|intros k []|exact I]. }
  assert (HP : forall h, match hint with Some h' => h' = h | None => False end ->
     (h < mw_len w /\ probe_mut p (mw_len w) h pred = (match pred [] (kf h) with Eq => Ok (Some (vf h)) | _ => Ok None end, [kf h]))
     \/ (mw_len w <= h /\ probe_mut p (mw_len w) h pred = (Ok None, []))).
  { intros h _. unfold probe_mut. destruct (N.leb_spec (mw_len w) h) as [Hh|Hh]; [right; split; [exact Hh|reflexivity]|]. left. split; [exact Hh|].
    destruct (C h Hh) as (x & y & z & u & E1 & E2 & E3). rewrite E1. cbn [fst snd]. rewrite E2, E3. reflexivity. }
  unfold find_mut, find_hint_mut. rewrite Hp. split; [|split].
  - destruct B0 as (r & shown & -> & Hf). exists r, shown. split; [reflexivity|exact Hf].
  - destruct hint as [h|].
    + destruct (HP h eq_refl) as [[Hh ->]|[Hh ->]].
      * assert (HI : forall k, In k [kf h] -> exists v, In (k, v) (listed (mw_len w) kf vf)).
        { intros k [<-|[]]. exists (vf h). apply in_listed. exists h. repeat split; assumption. }
        destruct (pred [] (kf h)) eqn:Hq.
        -- exists (Some (vf h, h)), [kf h]. split; [reflexivity|]. split; [exact HI|]. exists (kf h), []. split; [reflexivity|]. split; [exact Hq|]. split; [exact I|]. apply nth_listed. exact Hh.
        -- destruct (B [kf h]) as (r & shown & -> & Hf); [lia|lia|exact HI|split; [rewrite Hq; discriminate|exact I]|]. exists r, shown. split; [|exact Hf]. destruct r as [[v i]|]; reflexivity.
        -- destruct (B [kf h]) as (r & shown & -> & Hf); [lia|lia|exact HI|split; [rewrite Hq; discriminate|exact I]|]. exists r, shown. split; [|exact Hf]. destruct r as [[v i]|]; reflexivity.
      * destruct B0 as (r & shown & -> & Hf). exists r, shown. split; [|exact Hf]. destruct r as [[v i]|]; reflexivity.
    + destruct B0 as (r & shown & -> & Hf). exists r, shown. split; [|exact Hf]. destruct r as [[v i]|]; reflexivity.
  - intros h key v -> Hnth Hq. destruct (HP h eq_refl) as [[Hh ->]|[Hh _]].
    + rewrite nth_listed in Hnth by exact Hh. inversion Hnth; subst. rewrite Hq. reflexivity.
    + exfalso. assert (HS : nth_error (listed (mw_len w) kf vf) (N.to_nat h) <> None) by congruence. apply nth_error_Some in HS. unfold listed in HS. rewrite map_length, seq_length in HS. lia.
Qed.

(** ** Skipping *)

(** The calls a generic function makes to its reader, the failing one included. *)
Fixpoint bcalls {St A} (R : breader St) (p : bprog A) (s : St) : N :=
  match p with
  | BRet _ | BFail _ | BCrash _ => 0
  | BRead n _ k => 1 + match br_exact R n s with Some (x, s') => bcalls R (k x) s' | None => 0 end
  | BPeek n k => 1 + match br_peek R n s with Ok x => bcalls R (k x) s | _ => 0 end
  | BAdvance n k => 1 + match br_advance R n s with (Ok _, s') => bcalls R k s' | _ => 0 end
  | BRemaining k => 1 + match br_remaining R s with Ok x => bcalls R (k x) s | _ => 0 end
  end.
Lemma bcalls_bind : forall St (R : breader St) A B (p : bprog A) (f : A -> bprog B) s,
  bcalls R (bbind p f) s = bcalls R p s + match brun R p s with Ok (a, s') => bcalls R (f a) s' | _ => 0 end.
Proof.
  intros St R A B p f. induction p as [a|e|x|n e k IH|n k IH|n k IH|k IH]; intros s; cbn [bbind bcalls brun]; try lia.
  - destruct (br_exact R n s) as [[x s']|]; [rewrite IH|]; lia.
  - destruct (br_peek R n s) as [x|e|q]; cbn [rbind]; [rewrite IH|..]; lia.
  - destruct (br_advance R n s) as [[x|e|q] s']; [rewrite IH|..]; lia.
  - destruct (br_remaining R s) as [x|e|q]; cbn [rbind]; [rewrite IH|..]; lia.
Qed.
Lemma bcalls_varint : forall St (R : breader St) E s, bcalls R (bread (read_varint E)) s <= 2.
Proof.
  intros St R E s. unfold read_varint, read_byte, read_n. cbn [bind bread bcalls]. destruct (br_exact R 1 s) as [[x s']|]; [|lia].
  destruct (hd 0 x =? 251); [|destruct (hd 0 x =? 252); [|destruct (hd 0 x =? 253); [|destruct (253 <? hd 0 x)]]]; cbn [bind bread bcalls]; try lia.
  - destruct (br_exact R 2 s') as [[y s2]|]; cbn [bcalls]; lia.
  - destruct (br_exact R 4 s') as [[y s2]|]; cbn [bcalls]; lia.
  - destruct (br_exact R 8 s') as [[y s2]|]; [|lia]. destruct (le_val y <? 2 ^ e_ub E); cbn [bread bcalls]; lia.
Qed.
(** Indexed collections are skipped with at most six calls to the reader, whatever the reader and however many entries
    there are, and sequences with at most these and those of one element, the last one. *)
Theorem C77_skip_indexed : forall St (R : breader St) E d s x s', br_exact R 1 s = Some (x, s') -> N.land (hd 0 x) 1 <> 0 ->
  (forall a b, bcalls R (b_skip_map E d a b) s <= 6)
  /\ (forall a, exists s2, bcalls R (b_skip_seq E d a) s <= 6 + bcalls R (bread (skip E d a)) s2).
Proof.
  intros St R E d s x s' Hx Hf. split.
  - intros a b. unfold b_skip_map. rewrite bcalls_bind. unfold read_byte at 1 2. cbn [bread bcalls brun]. rewrite Hx. cbn [brun bcalls]. rewrite bcalls_bind.
    pose proof (bcalls_varint _ R E s') as HV. destruct (brun R (bread (read_varint E)) s') as [[n s2]|e|q]; try lia.
    destruct (N.eqb_spec (N.land (hd 0 x) 1) 0); [contradiction|]. destruct (n * 8 <? 2 ^ e_ub E); [|cbn [bcalls]; lia]. cbn [bcalls].
    destruct (br_advance R (n * 8) s2) as [[u|e|q] s3]; try lia. rewrite bcalls_bind. unfold read_n at 1 2. cbn [bread bcalls brun].
    destruct (br_exact R 8 s3) as [[y s4]|]; [|lia]. cbn [brun]. destruct (_ <? 2 ^ e_ub E); cbn [bcalls]; [|lia].
    destruct (br_advance R _ s4) as [[u'|e|q] s5]; lia.
  - intros a. unfold b_skip_seq. rewrite bcalls_bind. unfold read_byte at 1 2. cbn [bread bcalls brun]. rewrite Hx. cbn [brun bcalls]. rewrite bcalls_bind.
    pose proof (bcalls_varint _ R E s') as HV. destruct (brun R (bread (read_varint E)) s') as [[n s2]|e|q]; try (exists s; lia).
    destruct (N.eqb_spec (N.land (hd 0 x) 1) 0); [contradiction|]. destruct (n =? 0); [exists s; cbn [bcalls]; lia|].
    destruct (n * 4 <? 2 ^ e_ub E); [|exists s; cbn [bcalls]; lia]. cbn [bcalls].
    destruct (br_peek R (n * 4) s2) as [table|e|q]; try (exists s; lia). destruct (n * 4 <=? len table); [|exists s; cbn [bcalls]; lia]. cbn [bcalls].
    destruct (br_advance R (n * 4) s2) as [[u|e|q] s3]; try (exists s; lia).
    destruct (br_advance R _ s3) as [[u'|e|q] s4]; try (exists s; lia). exists s4. lia.
Qed.
(** An optimised body is passed over with at most five calls and one for each 4096 bytes of input, whatever the types of
    its fields and the values in it. *)
Lemma calls_advance : forall n bs, calls (advance_read n) bs <= len bs / 4096 + 1.
Proof.
  intros n bs. unfold advance_read. generalize (N.to_nat ((n + 4095) / 4096)) as fuel. intros fuel. revert n bs. induction fuel as [|f IH]; intros n bs; cbn [adv_loop]; [cbn [calls]; lia|].
  destruct (N.eqb_spec n 0) as [->|Hz]; [cbn [calls]; lia|]. cbv zeta. rewrite calls_bind. cbn [calls read_n run].
  destruct (split_at (N.min n 4096) bs) as [[x y]|] eqn:Es; [|lia]. apply split_at_some in Es. destruct Es as [-> Hx]. cbn [calls].
  destruct (N.le_gt_cases n 4096) as [Hn|Hn].
  - rewrite N.min_l in * by exact Hn. rewrite N.sub_diag. destruct f as [|f]; cbn [adv_loop]; [cbn [calls]; lia|]. cbn [N.eqb calls]. lia.
  - rewrite N.min_r in * by lia. specialize (IH (n - 4096) y). rewrite len_app, Hx. replace (4096 + len y) with (len y + 1 * 4096) by lia. rewrite N.div_add by discriminate. lia.
Qed.
Theorem C77_skip_optimised : forall E d i s r h body, e_sch E i = Some s -> r < 2 ^ 16 -> sent s r = Some h -> h_opt h = true ->
  calls (skip E (S d) (TRef i)) (ser_u16 (e_fw E) r ++ body) <= len body / 4096 + 5.
Proof.
  intros E d i s r h body Hs Hr Hh Ho. unfold skip. cbn [sk_ty sk_ref]. rewrite Hs. unfold sk_derived. rewrite calls_bind, rt_u16 by exact Hr.
  assert (H2 : calls (de_u16 (e_fw E)) (ser_u16 (e_fw E) r ++ body) <= 2).
  { unfold de_u16. destruct (e_fw E).
    - rewrite calls_bind. cbn [read_n calls run]. destruct (split_at 2 _) as [[x y]|]; cbn [calls]; lia.
    - rewrite calls_bind. generalize (ser_u16 false r ++ body). intros bs.
      assert (HN : forall x r', calls (narrowU 16 x) r' = 0) by (intros x r'; unfold narrowU; destruct (x <? 2 ^ 16); reflexivity).
      assert (HD : calls decode_u64 bs <= 2); [|destruct (run decode_u64 bs) as [[x r']|e|q]; [rewrite HN|..]; lia].
      unfold decode_u64, read_byte, read_n. cbn [bind calls]. destruct (split_at 1 bs) as [[x y]|]; [|lia].
      destruct (hd 0 x =? 251); [|destruct (hd 0 x =? 252); [|destruct (hd 0 x =? 253); [|destruct (hd 0 x =? 254); [|destruct (hd 0 x =? 255)]]]]; cbn [bind calls]; try lia;
        destruct (split_at _ y) as [[z t]|]; cbn [calls]; lia. }
  enough (calls (sk_body E (sk_ref E d) (de_ref E d) s r) body <= len body / 4096 + 3) by lia.
  assert (HL : forall bs, calls (n <- read_varlen_len ;; advance_read n) bs <= len bs / 4096 + 2).
  { intros bs. rewrite calls_bind. unfold read_varlen_len at 1 2. rewrite calls_bind, run_bind. cbn [read_n calls run]. destruct (split_at 4 bs) as [[x y]|] eqn:Es; [|lia].
    cbn [calls run]. apply split_at_some in Es. destruct Es as [-> Hx]. pose proof (calls_advance (le_val x) y). pose proof (N.div_le_mono (len y) (len (x ++ y)) 4096 ltac:(discriminate) ltac:(rewrite len_app; lia)). lia. }
  unfold sk_body. rewrite Hh. destruct (s_body s) as [fs|vs]; rewrite Ho.
  - unfold sk_struct_opt. specialize (HL body). lia.
  - unfold sk_enum_opt. destruct (calc_disc r vs) as [ds|]; [|cbn [calls]; lia]. rewrite calls_bind. unfold read_tag, read_byte. cbn [calls run].
    destruct (split_at 1 body) as [[x y]|] eqn:Es; [|lia]. cbn [calls run]. rewrite calls_bind, calls_of_res.
    apply split_at_some in Es. destruct Es as [-> Hx]. pose proof (N.div_le_mono (len y) (len (x ++ y)) 4096 ltac:(discriminate) ltac:(rewrite len_app; lia)) as Hmono.
    destruct (size_class (hd 0 x)) as [c|e|q]; cbn [of_res run]; try lia. destruct c.
    + cbn [calls]. lia.
    + destruct (nth_error _ _) as [n|]; [|cbn [calls]; lia]. pose proof (calls_advance n y). lia.
    + specialize (HL y). lia.
Qed.

(** ** Cases *)

(** A map of nine entries, its keys the strings "0" to "8".  A closure that answers "less" three times and then
    "equal": without a hint the search is over before; with the hint 2 it sees the keys at 2, 4, 7 and 8 and
    gets the last of these. *)
Definition patient : closure := fun shown _ => if len shown <? 3 then Lt else Eq.
Example C77_case : exists w es, map_open new true scores_bytes = Ok w /\ entries w = Some (Ok es) /\ len es = 9 /\ payload_bounds new scores_bytes /\ wf_env new
  /\ probes (mw_len w) = 4
  /\ find_mut w (fun _ _ => Gt) = (Ok None, [[1; 48]; [1; 49]; [1; 50]; [1; 52]])
  /\ find_mut w patient = (Ok None, [[1; 56]; [1; 55]; [1; 52]])
  /\ find_hint_mut w (Some 2) patient = (Ok (Some [64], Some 8), [[1; 56]; [1; 55]; [1; 52]; [1; 50]])
  /\ find_hint_mut w (Some 2) (fun _ _ => Eq) = (Ok (Some [4], Some 2), [[1; 50]]).
Proof.
  eexists. eexists. split; [vm_compute; reflexivity|]. split; [vm_compute; reflexivity|]. split; [vm_compute; reflexivity|]. split; [exact bounds_scores|].
  split; [exact wf_new|]. repeat split; vm_compute; reflexivity.
Qed.
Example C77_stateless_case : plain (fun k => bcmp k [1; 50]) (fun _ k => bcmp k [1; 50]).
Proof. intros shown key. reflexivity. Qed.
(** A map of thirty entries is skipped with five calls, a struct of 180 bytes on the wire with three. *)
Example C77_skip_case : exists bs x s', encode_field new 0 MIdxMap (TMap KOrd (TInt U8) TUnit) flags = Ok bs
  /\ br_exact br_slice 1 bs = Some (x, s') /\ N.land (hd 0 x) 1 = 1
  /\ bcalls br_slice (b_skip_map new 0 (TInt U8) TUnit) bs = 5
  /\ u_new_bytes = ser_u16 (e_fw new) 3 ++ tl u_new_bytes /\ calls (skip new 2 (TRef 1)) u_new_bytes = 3.
Proof. do 3 eexists. split; [vm_compute; reflexivity|]. repeat split; vm_compute; reflexivity. Qed.

Print Assumptions C77_stateless.
Print Assumptions C77_any_closure.
Print Assumptions C77_validated.
Print Assumptions C77_skip_indexed.
Print Assumptions C77_skip_optimised.
