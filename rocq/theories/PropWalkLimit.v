(** C92: walking on machines with a memory limit.  Also C37, C57, C66, C67 on such machines. *)

From Verif Require Import Base BaseL Prog ProgL Prim PrimL Utf8 Tag Ty Ser De Typed Mig Evol EvolL DiscL RtL RtDer Agree Spec SliceReader Skip SkipIdx SkipL SkipFormL Ex Walk WalkSpec WalkL Cross Calls Hand WalkRef PropWire PropVal PropMig PropLimit PropCalls PropHand PropOwned PropReject WalkMem.
From Coq Require Import List NArith ZArith Bool Lia.
Import ListNotations.
Open Scope N_scope.

(** ** Specification *)

(** The results of a sequence of calls that ends early because an allocation is refused. *)
Definition cut_short {A} (xs xs' : list (res A)) : Prop := exists before behind, xs' = before ++ behind /\ behind <> [] /\ xs = before ++ [Panic PMem].

(** ** Proofs *)
Lemma rm_oom : forall E A (f : env -> res A), rm (f E) (f (set_mem None E)) -> or_oom E (f E) (f (set_mem None E)).
Proof.
  intros E A f H. destruct (e_mem E) as [m|] eqn:Em.
  - destruct H as [H|H]; [left; exact H|right]. split; [rewrite Em; discriminate|exact H].
  - left. exact (drop_mem E _ f Em).
Qed.
Lemma calls_mem : forall E D d fs cs r s, calls E D d fs cs r s = calls (set_mem None E) D d fs cs r s
  \/ (snd (calls E D d fs cs r s) = None /\ cut_short (fst (calls E D d fs cs r s)) (fst (calls (set_mem None E) D d fs cs r s))).
Proof.
  intros E D d fs. induction cs as [|c cs IH]; intros r s; [left; reflexivity|]. cbn [calls].
  destruct (wm_call E D d fs c r s) as [->|K].
  - destruct (call (set_mem None E) D d fs c r s) as [[[o r'] s']|e|p]; [| |left; reflexivity].
    + destruct (IH r' s') as [->|(K1 & b & h & K2 & K3 & K4)]; [left; reflexivity|right]. cbn [fst snd]. split; [exact K1|].
      exists (Ok o :: b), h. rewrite K2, K4. auto.
    + destruct r as [rev|payload fc|b0 c0]; [left; reflexivity| |left; reflexivity].
      destruct (IH (SIndexed payload fc) s) as [->|(K1 & b & h & K2 & K3 & K4)]; [left; reflexivity|right]. cbn [fst snd]. split; [exact K1|].
      exists (Err e :: b), h. rewrite K2, K4. auto.
  - rewrite K. right. cbn [fst snd]. split; [reflexivity|]. eexists [], _. split; [reflexivity|]. split; [|reflexivity].
    cbn [fst]. destruct (call (set_mem None E) D d fs c r s) as [[[o r'] s']|e|p]; [discriminate|destruct r; discriminate|discriminate].
Qed.

(** ** C92 *)

(** Every walk gives what it gives without a limit, or an allocation is refused. *)
Theorem C92_walk : forall E D d t a s, or_oom E (walk_with E D d t a s) (walk_with (set_mem None E) D d t a s).
Proof. intros E D d t a s. apply (rm_oom E _ (fun E => walk_with E D d t a s)), wm_walk. Qed.
Theorem C92_find : forall E D d a b s,
  (forall p w, or_oom E (map_find E D d a b p w s) (map_find (set_mem None E) D d a b p w s))
  /\ (forall p w, or_oom E (map_find_bytes E D d a b p w s) (map_find_bytes (set_mem None E) D d a b p w s)).
Proof.
  intros E D d a b s. split; intros p w; [apply (rm_oom E _ (fun E => map_find E D d a b p w s)), wm_map_find|apply (rm_oom E _ (fun E => map_find_bytes E D d a b p w s)), wm_map_find_bytes].
Qed.
Theorem C92_into_bytes : forall E D d t cs s, or_oom E (walk_into_bytes E D d t cs s) (walk_into_bytes (set_mem None E) D d t cs s).
Proof. intros E D d t cs s. apply (rm_oom E _ (fun E => walk_into_bytes E D d t cs s)), wm_walk_into_bytes. Qed.
Theorem C92_by_hand : forall E D d s,
  (forall choose, or_oom E (struct_by_hand E D d choose s) (struct_by_hand (set_mem None E) D d choose s))
  /\ (forall choose, or_oom E (enum_by_hand E D d choose s) (enum_by_hand (set_mem None E) D d choose s)).
Proof.
  intros E D d s. split; intros choose; [apply (rm_oom E _ (fun E => struct_by_hand E D d choose s)), wm_struct_by_hand|apply (rm_oom E _ (fun E => enum_by_hand E D d choose s)), wm_enum_by_hand].
Qed.
(** A sequence of calls on a struct walker: opening it is refused, or the calls show the same, or the same up to the one refused. *)
Theorem C92_calls : forall E D d t cs s,
  or_oom E (with_calls E D d t cs s) (with_calls (set_mem None E) D d t cs s)
  \/ exists xs xs' st, e_mem E <> None /\ with_calls E D d t cs s = Ok (xs, None) /\ with_calls (set_mem None E) D d t cs s = Ok (xs', st) /\ cut_short xs xs'.
Proof.
  intros E D d t cs s. destruct (e_mem E) as [m|] eqn:Em; [|left; left; exact (drop_mem E _ (fun E => with_calls E D d t cs s) Em)].
  unfold with_calls. destruct (wm_enter E D t d s) as [->|K].
  - destruct (enter (set_mem None E) D d t s) as [[[d' c] s']|e|p]; [|left; left; reflexivity..].
    destruct c; match goal with |- or_oom _ ?x ?x \/ _ => left; left; reflexivity | |- _ => idtac end. destruct (calls_mem E D d' fs cs r s') as [->|[K1 K2]]; [left; left; reflexivity|right].
    destruct (calls E D d' fs cs r s') as [xs st]. destruct (calls (set_mem None E) D d' fs cs r s') as [xs' st']. cbn [fst snd] in *. subst st.
    exists xs, xs', st'. split; [discriminate|]. auto.
  - rewrite K. left. right. split; [rewrite Em; discriminate|reflexivity].
Qed.

(** ** C37, C57, C66 with a limit *)
Lemma oom_of : forall E A (r r0 x : res A), or_oom E r r0 -> r0 = x -> or_oom E r x.
Proof. intros E A r r0 x H <-. exact H. Qed.
Lemma looked_mem : forall E m D cs fs l o, looked_at E D fs l cs o -> looked_at (set_mem m E) D fs l cs o.
Proof.
  intros E m D. induction cs as [|c cs IH]; intros fs l o H; [exact H|]. destruct fs as [|f fs]; [exact H|]. destruct l as [|v l]; [exact H|].
  cbn [looked_at] in *. destruct H as (x & o' & H1 & H2 & H3). exists x, o'. split; [exact H1|]. split; [exact (IH fs l o' H2)|]. destruct c; exact H3.
Qed.
Lemma touched_mem : forall E E' D d d' ops ts l xs, touched E E' D d d' ops ts l xs -> touched E (set_mem None E') D d d' ops ts l xs.
Proof.
  intros E E' D d d' ops ts l xs H. induction H as [|t v v' ops ts l xs H1 H IH|t v v' ops ts l xs H1 H IH|t w v b x ops ts l xs H1 H2 H IH].
  - constructor.
  - constructor; [rewrite migrate_set_mem; exact H1|exact IH].
  - apply (t_skip _ _ _ _ _ t v v'); [rewrite migrate_set_mem; exact H1|exact IH].
  - apply (t_walk _ _ _ _ _ t w v b x); [exact H1| |exact IH]. intros rest o Hw Hl.
    destruct (wm_walk E' D d' t w (mkSR (b ++ rest) o)) as [K|K]; rewrite (H2 rest o Hw Hl) in K; [symmetry; exact K|discriminate K].
Qed.
Theorem C37_converted_limited : forall E D d n s fs h rev x l b bs rest o cs ob,
  wf_env E -> sizes_honest E -> spec_built E ->
  e_sch E n = Some s -> s_body s = SStruct fs -> has_convert s = true ->
  sent s (scur s) = Some h -> h_opt h = false -> (forall f, In f fs -> f_fixed f = false) ->
  run (de_u16 (e_fw E)) bs = Ok (rev, x) -> 1 <= rev < scur s ->
  run (deserialize E (S d) (TRef n)) bs = Ok (VSeq l, rest) -> wt E (S D) (TRef n) (VSeq l) ->
  to_vec E (S D) (TRef n) (VSeq l) = Ok b -> len b < 2 ^ e_ub E ->
  looked_at E D (filter (falive (scur s)) fs) l cs ob ->
  or_oom E (walk_with E D (S d) (TRef n) (look_script cs) (mkSR bs o)) (Ok (ob, mkSR rest o)).
Proof.
  intros E D d n s fs h rev x l b bs rest o cs ob W Hh SB Es Eb Hc Eh Ho Hfx Er Hr H Hw Et Hlb Hlk.
  rewrite <- (unlimited_same _ _ _ bs (mem_agree E (S d) (TRef n))) in H by (rewrite H; discriminate).
  exact (oom_of _ _ _ _ _ (C92_walk E D (S d) (TRef n) (look_script cs) (mkSR bs o))
    (C37_converted (set_mem None E) D d n s fs h rev x l b bs rest o cs ob (wf_set_mem None E W) (honest_mem E None Hh) eq_refl SB Es Eb Hc Eh Ho Hfx Er Hr H Hw Et Hlb (looked_mem E None D cs _ _ _ Hlk))).
Qed.
Theorem C57_struct_limited : forall E E' D d d' n s s' h fs l b rest o choose ts xs,
  wf_env E -> wf_env E' -> later E E' -> opt_safe E E' -> sizes_honest E -> spec_built E' ->
  wt E (S d) (TRef n) (VSeq l) -> to_vec E (S d) (TRef n) (VSeq l) = Ok b -> (d <= d')%nat ->
  e_sch E n = Some s -> s_body s = SStruct fs -> sent s (scur s) = Some h -> h_opt h = false -> plain_fields (scur s) fs -> e_sch E' n = Some s' ->
  wfb (b ++ rest) -> len (b ++ rest) < 2 ^ e_ub E' -> len l < 2 ^ 32 ->
  listed_types s' (scur s) ts -> touched E E' D d d' (choose (scur s)) ts l xs ->
  or_oom E' (struct_by_hand E' D d' choose (mkSR (b ++ rest) o)) (Ok ((xs, mkHand (scur s) (len l)), mkSR rest o)).
Proof.
  intros E E' D d d' n s s' h fs l b rest o choose ts xs W W' L O Hh SB Hw Hs Hd H1 H2 H3 H4 H5 H6 H7 H8 H9 Hl Ht.
  exact (oom_of _ _ _ _ _ (proj1 (C92_by_hand E' D d' (mkSR (b ++ rest) o)) choose)
    (C57_struct_by_hand E (set_mem None E') D d d' n s s' h fs l b rest o choose ts xs W (wf_set_mem None E' W') (later_mem E E' None L) O Hh eq_refl SB Hw Hs Hd H1 H2 H3 H4 H5 H6 H7 H8 H9 Hl (touched_mem _ _ _ _ _ _ _ _ _ Ht))).
Qed.
Theorem C57_enum_limited : forall E E' D d d' n s s' vs vs' h k l b rest o choose,
  wf_env E -> wf_env E' -> later E E' -> opt_safe E E' -> sizes_honest E -> spec_built E' ->
  wt E (S d) (TRef n) (VVar k l) -> to_vec E (S d) (TRef n) (VVar k l) = Ok b -> (d <= d')%nat ->
  e_sch E n = Some s -> s_body s = SEnum vs -> sent s (scur s) = Some h -> h_opt h = false -> (forall vr, In vr vs -> plain_fields (scur s) (v_fields vr)) ->
  e_sch E' n = Some s' -> s_body s' = SEnum vs' ->
  wfb (b ++ rest) -> len (b ++ rest) < 2 ^ e_ub E' -> len l < 2 ^ 32 ->
  exists x, variant_name s' (scur s) x = Some k
    /\ forall ts xs, named_types s' (scur s) x ts -> touched E E' D d d' (choose (scur s) x) ts l xs ->
       or_oom E' (enum_by_hand E' D d' choose (mkSR (b ++ rest) o)) (Ok ((scur s, x, xs), mkSR rest o)).
Proof.
  intros E E' D d d' n s s' vs vs' h k l b rest o choose W W' L O Hh SB Hw Hs Hd H1 H2 H3 H4 H5 H6 H7 H8 H9 H10.
  destruct (C57_enum_by_hand E (set_mem None E') D d d' n s s' vs vs' h k l b rest o choose W (wf_set_mem None E' W') (later_mem E E' None L) O Hh eq_refl SB Hw Hs Hd H1 H2 H3 H4 H5 H6 H7 H8 H9 H10) as (x & K1 & K2).
  exists x. split; [exact K1|]. intros ts xs Hn Ht.
  exact (oom_of _ _ _ _ _ (proj2 (C92_by_hand E' D d' (mkSR (b ++ rest) o)) choose) (K2 ts xs Hn (touched_mem _ _ _ _ _ _ _ _ _ Ht))).
Qed.
(** Walking item by item refuses what decoding refuses, unless one of the two runs out of memory. *)
Theorem C66_items_limited : forall E D d t t' bs o, t = TVec t' /\ refused E t = false \/ t = TImVec t' \/ (exists k, t = TSet k t') \/ t = THeap t' ->
  run (deserialize E d t) bs <> Panic PMem ->
  exists n, forall k, (n <= k)%nat -> walk_with E D d t (visit_items (repeat true k)) (mkSR bs o) <> Panic PMem ->
  failure (walk_with E D d t (visit_items (repeat true k)) (mkSR bs o)) = failure (run (deserialize E d t) bs).
Proof.
  intros E D d t t' bs o Ht HP.
  assert (Ht0 : t = TVec t' /\ refused (set_mem None E) t = false \/ t = TImVec t' \/ (exists k, t = TSet k t') \/ t = THeap t').
  { destruct Ht as [[-> Ht]|Ht]; [left; split; [reflexivity|exact Ht]|right; exact Ht]. }
  destruct (C66_items (set_mem None E) D d t t' bs o eq_refl Ht0) as (n & K). exists n. intros k Hk HW.
  rewrite <- (unlimited_same _ _ _ bs (mem_agree E d t) HP), <- (K k Hk). destruct (C92_walk E D d t (visit_items (repeat true k)) (mkSR bs o)) as [->|[_ Q]]; [reflexivity|contradiction].
Qed.
Theorem C66_entries_limited : forall E D d c a b bs o, run (deserialize E d (TMap c a b)) bs <> Panic PMem ->
  exists n, forall k, (n <= k)%nat -> walk_with E D d (TMap c a b) (visit_entries (repeat (true, true) k)) (mkSR bs o) <> Panic PMem ->
  failure (walk_with E D d (TMap c a b) (visit_entries (repeat (true, true) k)) (mkSR bs o)) = failure (run (deserialize E d (TMap c a b)) bs).
Proof.
  intros E D d c a b bs o HP. destruct (C66_entries (set_mem None E) D d c a b bs o eq_refl) as (n & K). exists n. intros k Hk HW.
  rewrite <- (unlimited_same _ _ _ bs (mem_agree E d (TMap c a b)) HP), <- (K k Hk).
  destruct (C92_walk E D d (TMap c a b) (visit_entries (repeat (true, true) k)) (mkSR bs o)) as [->|[_ Q]]; [reflexivity|contradiction].
Qed.
Theorem C66_variants_limited : forall E D d n s vs h ks w bs y o, wf_env E -> e_sch E n = Some s -> s_body s = SEnum vs ->
  sent s (scur s) = Some h -> h_opt h = true -> run (de_u16 (e_fw E)) bs = Ok (scur s, y) ->
  (forall k, In k ks -> exists l, variant_here s vs k = Some l /\ (length l <= 1)%nat) ->
  run (deserialize E d (TRef n)) bs <> Panic PMem -> walk_with E D d (TRef n) (visit_variants ks w) (mkSR bs o) <> Panic PMem ->
  failure (walk_with E D d (TRef n) (visit_variants ks w) (mkSR bs o)) = failure (run (deserialize E d (TRef n)) bs)
  \/ (or_oom E (walk_with E D d (TRef n) w (mkSR bs o)) (walk_with E D d (TRef n) (visit_variants ks w) (mkSR bs o))
      /\ (forall k l rest, run (deserialize E d (TRef n)) bs = Ok (VVar k l, rest) -> ~ In k ks)
      /\ exists k, variant_here s vs k <> None /\ ~ In k ks).
Proof.
  intros E D d n s vs h ks w bs y o W Hs Eb Eh Ho Hrev Hks HP HW.
  rewrite <- (unlimited_same _ _ _ bs (mem_agree E d (TRef n)) HP).
  destruct (C92_walk E D d (TRef n) (visit_variants ks w) (mkSR bs o)) as [->|[_ Q]]; [|contradiction].
  destruct (C66_variants_optimised (set_mem None E) D d n s vs h ks w bs y o (wf_set_mem None E W) eq_refl Hs Eb Eh Ho Hrev Hks) as [K|(K1 & K2)]; [left; exact K|right].
  split; [|exact K2]. rewrite K1. apply C92_walk.
Qed.

(** ** C67 with a limit: the answers, up to a refused allocation. *)
Theorem C67_any_order_limited : forall E D d n s fs h l b rest o cs, wf_env E -> sizes_honest E -> spec_built E ->
  e_sch E n = Some s -> s_body s = SStruct fs -> sent s (scur s) = Some h -> h_opt h = true -> h_idx h = true ->
  wt E (S d) (TRef n) (VSeq l) -> to_vec E (S d) (TRef n) (VSeq l) = Ok b -> Forall (allowed (filter (falive (scur s)) fs)) cs ->
  exists rs r, Forall2 (answers E (filter (falive (scur s)) fs) l) cs rs
    /\ (or_oom E (with_calls E D (S d) (TRef n) cs (mkSR (b ++ rest) o)) (Ok (rs, Some (r, mkSR rest o)))
        \/ exists xs, e_mem E <> None /\ with_calls E D (S d) (TRef n) cs (mkSR (b ++ rest) o) = Ok (xs, None) /\ cut_short xs rs).
Proof.
  intros E D d n s fs h l b rest o cs W Hh SB Es Eb Eh Ho Hi Hw Hs Hc.
  destruct (C67_any_order (set_mem None E) D d n s fs h l b rest o cs (wf_set_mem None E W) (honest_mem E None Hh) eq_refl SB Es Eb Eh Ho Hi Hw Hs Hc) as (rs & r & K1 & K2).
  exists rs, r. split; [exact K2|]. destruct (C92_calls E D (S d) (TRef n) cs (mkSR (b ++ rest) o)) as [K|(xs & xs' & st & Q0 & Q1 & Q2 & Q3)].
  - left. rewrite K1 in K. exact K.
  - right. exists xs. rewrite K1 in Q2. injection Q2 as <- <-. auto.
Qed.

Theorem C67_last_limited : forall E D d n s fs h l b rest o cs c, wf_env E -> sizes_honest E -> spec_built E ->
  e_sch E n = Some s -> s_body s = SStruct fs -> sent s (scur s) = Some h -> h_opt h = true -> h_idx h = true ->
  wt E (S d) (TRef n) (VSeq l) -> to_vec E (S d) (TRef n) (VSeq l) = Ok b ->
  Forall (allowed (filter (falive (scur s)) fs)) cs -> allowed_last (filter (falive (scur s)) fs) c ->
  exists rs r, Forall2 (answers E (filter (falive (scur s)) fs) l) cs rs /\ answers_last (set_mem None E) d (filter (falive (scur s)) fs) l c r
    /\ (or_oom E (calls_then E D (S d) (TRef n) cs c (mkSR (b ++ rest) o)) (Ok (rs, Some (rmap (fun x => (x, mkSR rest o)) r)))
        \/ (e_mem E <> None /\ calls_then E D (S d) (TRef n) cs c (mkSR (b ++ rest) o) = Ok (rs, Some (Panic PMem)))
        \/ exists xs, e_mem E <> None /\ calls_then E D (S d) (TRef n) cs c (mkSR (b ++ rest) o) = Ok (xs, None) /\ cut_short xs rs).
Proof.
  intros E D d n s fs h l b rest o cs c W Hh SB Es Eb Eh Ho Hi Hw Hs Hc Hl.
  destruct (C67_last (set_mem None E) D d n s fs h l b rest o cs c (wf_set_mem None E W) (honest_mem E None Hh) eq_refl SB Es Eb Eh Ho Hi Hw Hs Hc Hl) as (rs & r & K1 & K2 & K3).
  exists rs, r. split; [exact K2|]. split; [exact K3|]. clear K2 K3 Hw Hs.
  destruct (e_mem E) as [m|] eqn:Em.
  2: { left. left. rewrite <- K1. exact (drop_mem E _ (fun E => calls_then E D (S d) (TRef n) cs c (mkSR (b ++ rest) o)) Em). }
  unfold calls_then in *. destruct (wm_enter E D (TRef n) (S d) (mkSR (b ++ rest) o)) as [->|K].
  - destruct (enter (set_mem None E) D (S d) (TRef n) (mkSR (b ++ rest) o)) as [[[d' x] s']|e|p]; try discriminate K1.
    destruct x; try discriminate K1. apply Ok_inj in K1.
    destruct (calls_mem E D d' fs0 cs r0 s') as [->|[Q1 Q2]].
    + destruct (calls (set_mem None E) D d' fs0 cs r0 s') as [xs [[r1 s1]|]]; cbn [fst snd] in *; [|discriminate K1].
      injection K1 as -> K1. rewrite <- K1. destruct (wm_last E D d' fs0 c r1 s1) as [->| ->]; [left; left; reflexivity|right; left].
      split; [discriminate|reflexivity].
    + right. right. exists (fst (calls E D d' fs0 cs r0 s')). rewrite Q1. split; [discriminate|]. split; [reflexivity|].
      replace rs with (fst (calls (set_mem None E) D d' fs0 cs r0 s')) by congruence. exact Q2.
  - rewrite K. left. right. split; [rewrite Em; discriminate|reflexivity].
Qed.

(** ** Examples *)

(** A machine that can allocate one byte at a time: a list of short texts can be walked text by text, but neither decoded at
    once nor its longer text decoded. *)
Definition tight : env := set_mem (Some 1) (ex_env (fun _ => None)).
Definition two_texts : bytes := [2; 1; 97; 2; 98; 99].
Example C92_case :
  walk_with tight 1 1 (TVec TStr) (Item Decode (Item Skip Rest)) (sr_new two_texts) = walk_with (set_mem None tight) 1 1 (TVec TStr) (Item Decode (Item Skip Rest)) (sr_new two_texts)
  /\ walk_with tight 1 1 (TVec TStr) (Item Decode (Item Skip Rest)) (sr_new two_texts) <> Panic PMem
  /\ walk_with tight 1 1 (TVec TStr) (Item Skip (Item Decode Rest)) (sr_new two_texts) = Panic PMem
  /\ (exists x, walk_with (set_mem None tight) 1 1 (TVec TStr) (Item Skip (Item Decode Rest)) (sr_new two_texts) = Ok x).
Proof. repeat split; try (vm_compute; reflexivity); [vm_compute; discriminate|]. eexists. vm_compute. reflexivity. Qed.

(** The fields of C67_case with room for one byte: the number and the truths are decoded, the text is not. *)
Definition four_bytes : bytes := [1; 26; 0; 0; 0; 16; 0; 0; 0; 19; 0; 0; 0; 20; 0; 0; 0; 24; 0; 0; 0; 2; 97; 97; 7; 0; 1; 1; 98; 1; 1].
Example C92_cut_short : let E := set_mem (Some 1) (only four) in exists xs st, to_vec E 1 (TRef 1) (VSeq (a_str [97; 97] :: tl four_val)) = Ok four_bytes
  /\ with_calls E 1 1 (TRef 1) [FDecode 1; FDecode 0; FSkip 2] (sr_new four_bytes) = Ok ([Ok (OVal (VInt 7)); Panic PMem], None)
  /\ with_calls (set_mem None E) 1 1 (TRef 1) [FDecode 1; FDecode 0; FSkip 2] (sr_new four_bytes) = Ok (xs, st)
  /\ cut_short [Ok (OVal (VInt 7)); Panic PMem] xs.
Proof.
  exists [Ok (OVal (VInt 7)); Ok (OVal (a_str [97; 97])); Ok ODone]. eexists. split; [vm_compute; reflexivity|]. split; [vm_compute; reflexivity|]. split; [vm_compute; reflexivity|].
  exists [Ok (OVal (VInt 7))], [Ok (OVal (a_str [97; 97])); Ok ODone]. repeat split; discriminate.
Qed.

Print Assumptions C92_walk.
Print Assumptions C92_find.
Print Assumptions C92_into_bytes.
Print Assumptions C92_by_hand.
Print Assumptions C92_calls.
Print Assumptions C37_converted_limited.
Print Assumptions C57_struct_limited.
Print Assumptions C57_enum_limited.
Print Assumptions C66_items_limited.
Print Assumptions C66_entries_limited.
Print Assumptions C66_variants_limited.
Print Assumptions C67_any_order_limited.
Print Assumptions C67_last_limited.
