(** C12, C24, C26, C28, C29, C44, C71, C84 on machines with a memory limit: the same answers, or the allocation is refused. *)

From Verif Require Import Base BaseL Prog ProgL Prim Tag Ty Ser De SliceReader Skip SkipIdx SkipL SkipFormL Typed Mig Agree Spec Cross Parts Evol EvolL Transp Tidy TidyL Ex PropWire PropVal PropMig PropIdx PropSkip PropTransp PropTidy PropSkipAfter PropLater PropRollSkip.
From Coq Require Import List NArith ZArith Bool Lia Relations.
Import ListNotations.
Open Scope N_scope.

Lemma limited : forall E A (p p0 : prog A) bs r, (e_mem E = None -> p = p0) -> agree (eq PMem) p p0 -> run p0 bs = r -> or_oom E (run p bs) r.
Proof.
  intros E A p p0 bs r Hn Ha <-. destruct (e_mem E) as [m|] eqn:Em.
  - destruct (Ha bs) as [H|(x & <- & H)]; [left; exact H|right; rewrite Em; split; [discriminate|exact H]].
  - left. rewrite Hn by reflexivity. reflexivity.
Qed.
Lemma drop_mem : forall E A (f : env -> A), e_mem E = None -> f E = f (set_mem None E).
Proof. intros E A f H. rewrite <- H, set_mem_same. reflexivity. Qed.
Lemma enc_mem : forall E m d fs l bs, Forall3_enc (set_mem m E) d fs l bs -> Forall3_enc E d fs l bs.
Proof. intros E m d fs l bs H. induction H; constructor; assumption. Qed.
Lemma honest_mem : forall E m, sizes_honest E -> sizes_honest (set_mem m E).
Proof.
  intros E m [H|H]; [left; exact H|right]. intros n s vs vr k d l bs H1 H2 H3 H4 H5 H6. exact (H n s vs vr k d l bs H1 H2 H3 H4 H5 (enc_mem E m _ _ _ _ H6)).
Qed.
Lemma limited_field : forall E d m t bs r, run (decode_field (set_mem None E) d m t) bs = r -> or_oom E (run (decode_field E d m t) bs) r.
Proof.
  intros E d m t bs r. apply limited; [apply (drop_mem E _ (fun E => decode_field E d m t))|].
  unfold decode_field. apply (agree_mode _ E None (e_dbg E)); [apply alloc_agree|intros; apply agree_refl|]. intros n. apply mem_de_ref.
Qed.
Lemma limited_follows : forall E (m m0 : sm unit) p p0 s r, follows m p -> follows m0 p0 -> (e_mem E = None -> p = p0) -> agree (eq PMem) p p0 ->
  m0 s = r -> or_oom E (m s) r.
Proof.
  intros E m m0 p p0 s r F F0 Hn Ha <-. rewrite (F s), (F0 s). destruct (limited E _ p p0 (sr_inner s) _ Hn Ha eq_refl) as [H|[H1 H2]].
  - left. rewrite H. reflexivity.
  - right. split; [exact H1|]. rewrite H2. reflexivity.
Qed.

(** C12. *)
Theorem C12_skip_encoding_limited : forall E d t v b rest,
  wf_env E -> sizes_honest E -> spec_built E -> wt E d t v -> len (b ++ rest) < 2 ^ e_ub E ->
  to_vec E d t v = Ok b -> or_oom E (run (skip E d t) (b ++ rest)) (Ok (tt, rest)).
Proof.
  intros E d t v b rest W Hh SB Hw Hl Hs. apply (limited E _ _ (skip (set_mem None E) d t)); [apply (drop_mem E _ (fun E => skip E d t))|apply mem_skip|].
  exact (C12_skip_encoding (set_mem None E) d t v b rest (wf_set_mem None E W) (honest_mem E None Hh) eq_refl SB Hw Hl Hs).
Qed.

(** C24. *)
Theorem C24_struct_extra_limited : forall E d n s fs r h hd p v x rest,
  e_sch E n = Some s -> s_body s = SStruct fs -> sent s r = Some h -> h_opt h = true ->
  run (deserialize E d (TInt U16)) hd = Ok (VInt (Z.of_N r), []) -> len (p ++ x) < 2 ^ 32 ->
  run (deserialize E (S d) (TRef n)) (envelope hd p) = Ok (v, []) ->
  or_oom E (run (deserialize E (S d) (TRef n)) (envelope hd (p ++ x) ++ rest)) (Ok (v, rest)).
Proof.
  intros E d n s fs r h hd p v x rest Es Eb En Eo H Hp R. apply oom_lift.
  apply (C24_struct_extra_bytes (set_mem None E) d n s fs r h hd p v x rest eq_refl Es Eb En Eo H Hp).
  destruct (mem_agree E (S d) (TRef n) (envelope hd p)) as [K|(z & _ & K)]; [rewrite <- K; exact R|congruence].
Qed.
Theorem C24_variant_extra_limited : forall E d n s vs r h hd tag p v x rest,
  e_sch E n = Some s -> s_body s = SEnum vs -> sent s r = Some h -> h_opt h = true ->
  run (deserialize E d (TInt U16)) hd = Ok (VInt (Z.of_N r), []) -> size_class tag = Ok CVarlen -> len (p ++ x) < 2 ^ 32 ->
  run (deserialize E (S d) (TRef n)) (variant_envelope hd tag p) = Ok (v, []) ->
  or_oom E (run (deserialize E (S d) (TRef n)) (variant_envelope hd tag (p ++ x) ++ rest)) (Ok (v, rest)).
Proof.
  intros E d n s vs r h hd tag p v x rest Es Eb En Eo H Hc Hp R. apply oom_lift.
  apply (C24_variant_extra_bytes (set_mem None E) d n s vs r h hd tag p v x rest eq_refl Es Eb En Eo H Hc Hp).
  destruct (mem_agree E (S d) (TRef n) (variant_envelope hd tag p)) as [K|(z & _ & K)]; [rewrite <- K; exact R|congruence].
Qed.

(** C26, C28. *)
Theorem C26_limited : forall E d k a b l bs rest,
  wf_env E -> sizes_honest E -> wt E d (TMap k a b) (VSeq l) -> len bs < 2 ^ 32 ->
  encode_field E d MIdxMap (TMap k a b) (VSeq l) = Ok bs ->
  or_oom E (run (decode_field E d MIdxMap (TMap k a b)) (bs ++ rest)) (Ok (VSeq l, rest)).
Proof.
  intros E d k a b l bs rest W Hh Hw Hl H. apply limited_field.
  exact (C26_indexed_map_round_trip (set_mem None E) d k a b l bs rest (wf_set_mem None E W) (honest_mem E None Hh) eq_refl Hw Hl H).
Qed.
Theorem C28_limited_seq : forall E d t a l bs rest,
  wf_env E -> sizes_honest E -> t = TVec a \/ t = TImVec a -> wt E d t (VSeq l) -> len bs < 2 ^ 32 ->
  encode_field E d MIdxSeq t (VSeq l) = Ok bs ->
  or_oom E (run (decode_field E d MIdxSeq t) (bs ++ rest)) (Ok (VSeq l, rest)).
Proof.
  intros E d t a l bs rest W Hh Ht Hw Hl H. apply limited_field.
  exact (C28_indexed_seq_round_trip (set_mem None E) d t a l bs rest (wf_set_mem None E W) (honest_mem E None Hh) eq_refl Ht Hw Hl H).
Qed.
Theorem C28_limited_set : forall E d k a l bs rest,
  wf_env E -> sizes_honest E -> wt E d (TSet k a) (VSeq l) -> len bs < 2 ^ 32 ->
  encode_field E d MIdxSet (TSet k a) (VSeq l) = Ok bs ->
  or_oom E (run (decode_field E d MIdxSet (TSet k a)) (bs ++ rest)) (Ok (VSeq l, rest)).
Proof.
  intros E d k a l bs rest W Hh Hw Hl H. apply limited_field.
  exact (C28_indexed_set_round_trip (set_mem None E) d k a l bs rest (wf_set_mem None E W) (honest_mem E None Hh) eq_refl Hw Hl H).
Qed.

(** C29. *)
Theorem C29_limited_seq : forall E d t a l bs rest o,
  wf_env E -> sizes_honest E -> spec_built E ->
  t = TVec a \/ t = TImVec a -> wt E d t (VSeq l) -> len bs < 2 ^ 32 -> len (bs ++ rest) < 2 ^ e_ub E ->
  encode_field E d MIdxSeq t (VSeq l) = Ok bs ->
  or_oom E (skip_indexed_seq E d a (mkSR (bs ++ rest) o)) (Ok (tt, mkSR rest o)).
Proof.
  intros E d t a l bs rest o W Hh SB Ht Hw Hl Hlr H.
  apply (limited_follows E _ (skip_indexed_seq (set_mem None E) d a) (p_idx_seq E d a) (p_idx_seq (set_mem None E) d a));
    [apply fol_idx_seq|apply fol_idx_seq|apply (drop_mem E _ (fun E => p_idx_seq E d a))|apply mem_idx_seq|].
  exact (C29_skip_indexed_seq (set_mem None E) d t a l bs rest o (wf_set_mem None E W) (honest_mem E None Hh) eq_refl SB Ht Hw Hl Hlr H).
Qed.
Theorem C29_limited_set : forall E d k a l bs rest o,
  wf_env E -> sizes_honest E -> spec_built E ->
  wt E d (TSet k a) (VSeq l) -> len bs < 2 ^ 32 -> len (bs ++ rest) < 2 ^ e_ub E ->
  encode_field E d MIdxSet (TSet k a) (VSeq l) = Ok bs ->
  or_oom E (skip_indexed_seq E d a (mkSR (bs ++ rest) o)) (Ok (tt, mkSR rest o)).
Proof.
  intros E d k a l bs rest o W Hh SB Hw Hl Hlr H.
  apply (limited_follows E _ (skip_indexed_seq (set_mem None E) d a) (p_idx_seq E d a) (p_idx_seq (set_mem None E) d a));
    [apply fol_idx_seq|apply fol_idx_seq|apply (drop_mem E _ (fun E => p_idx_seq E d a))|apply mem_idx_seq|].
  exact (C29_skip_indexed_set (set_mem None E) d k a l bs rest o (wf_set_mem None E W) (honest_mem E None Hh) eq_refl SB Hw Hl Hlr H).
Qed.
Theorem C29_limited_map : forall E d k a b l bs rest o,
  wf_env E -> sizes_honest E -> spec_built E ->
  wt E d (TMap k a b) (VSeq l) -> len bs < 2 ^ 32 -> len (bs ++ rest) < 2 ^ e_ub E ->
  encode_field E d MIdxMap (TMap k a b) (VSeq l) = Ok bs ->
  or_oom E (skip_indexed_map E d a b (mkSR (bs ++ rest) o)) (Ok (tt, mkSR rest o)).
Proof.
  intros E d k a b l bs rest o W Hh SB Hw Hl Hlr H.
  apply (limited_follows E _ (skip_indexed_map (set_mem None E) d a b) (p_idx_map E d a b) (p_idx_map (set_mem None E) d a b));
    [apply fol_idx_map|apply fol_idx_map|apply (drop_mem E _ (fun E => p_idx_map E d a b))|apply mem_idx_map|].
  exact (C29_skip_indexed_map (set_mem None E) d k a b l bs rest o (wf_set_mem None E W) (honest_mem E None Hh) eq_refl SB Hw Hl Hlr H).
Qed.

(** C44: unless memory runs out, a wrapper changes no outcome (the sizes of the elements, hence the
    requests of memory, may differ). *)
Lemma unlimited_same : forall A (p p0 : prog A) bs, agree (eq PMem) p p0 -> run p bs <> Panic PMem -> run p0 bs = run p bs.
Proof. intros A p p0 bs Ha H. destruct (Ha bs) as [K|(x & <- & K)]; [symmetry; exact K|contradiction]. Qed.
Lemma same_wire_mem : forall E m t t', same_wire E t t' -> same_wire (set_mem m E) t t'.
Proof. intros E m t t' H. induction H; constructor; assumption. Qed.
Lemma rewrapped_mem : forall E m S, rewrapped E S -> rewrapped (set_mem m E) S.
Proof.
  intros E m S H n. specialize (H n). change (e_sch (set_mem m E) n) with (e_sch E n).
  assert (F : forall f f', same_field E f f' -> same_field (set_mem m E) f f').
  { intros f f' (H1 & H2 & H3 & H4 & H5 & H6 & H7 & H8). repeat (split; [assumption|]).
    destruct H8 as [H8|(H8 & H9)]; [left; exact H8|right; split; [apply same_wire_mem; exact H8|exact H9]]. }
  assert (FF : forall l l', Forall2 (same_field E) l l' -> Forall2 (same_field (set_mem m E)) l l') by (intros l l' K; induction K; constructor; auto).
  destruct (e_sch E n) as [s|], (S n) as [s'|]; try exact H. destruct H as [H1 H2]. split; [exact H1|].
  destruct (s_body s), (s_body s'); try exact H2; [apply FF; exact H2|].
  induction H2 as [|v v' l l' (K1 & K2 & K3 & K4 & K5 & K6 & K7) _ IH]; constructor; [|exact IH]. repeat (split; [assumption|]). apply FF. exact K7.
Qed.
Theorem C44_decode_limited : forall E S d t t' bs, rewrapped E S -> same_wire E t t' ->
  run (deserialize E d t) bs <> Panic PMem ->
  or_oom E (run (deserialize (set_sch E S) d t') bs) (run (deserialize E d t) bs).
Proof.
  intros E S d t t' bs HS H HP. apply (oom_lift (set_sch E S)). rewrite <- (unlimited_same _ _ _ bs (mem_agree E d t) HP). symmetry.
  exact (C44_decode (set_mem None E) S d t t' bs eq_refl (rewrapped_mem E None S HS) (same_wire_mem E None t t' H)).
Qed.
Theorem C44_skip_limited : forall E S d t t' bs, rewrapped E S -> same_wire E t t' ->
  run (skip E d t) bs <> Panic PMem ->
  or_oom E (run (skip (set_sch E S) d t') bs) (run (skip E d t) bs).
Proof.
  intros E S d t t' bs HS H HP. apply (limited (set_sch E S) _ _ (skip (set_mem None (set_sch E S)) d t')); [apply (drop_mem (set_sch E S) _ (fun E => skip E d t'))|apply mem_skip|].
  rewrite <- (unlimited_same _ _ _ bs (mem_skip E d t) HP). symmetry. exact (C44_skip (set_mem None E) S d t t' bs eq_refl (rewrapped_mem E None S HS) (same_wire_mem E None t t' H)).
Qed.

(** C71: reading and skipping after the early history is dropped. *)
Lemma later_mem : forall W E m, later W E -> later W (set_mem m E).
Proof. intros W E m L. apply rt_step. exact (edit_program_star W E L). Qed.
Lemma kept_up_mem : forall cut W E m, wf_env E -> kept_up cut W E -> kept_up cut W (set_mem m E).
Proof. intros cut W E m WE K. apply (ku_edit cut W E); [exact K|exact WE|]. exact (edit_program_star E E (rt_refl _ _ E)). Qed.
Theorem C71_same_reading_limited : forall W E S cut d d' t v b rest,
  wf_env W -> wf_env E -> wf_env (set_sch E S) -> later W E -> opt_safe W E -> user_panics E (fun x => x <> PStack) ->
  sizes_honest W -> tidied cut (e_sch E) S -> no_older cut (e_sch W) ->
  wt W d t v -> (d <= d')%nat -> to_vec W d t v = Ok b -> run (deserialize E d' t) (b ++ rest) <> Panic PMem ->
  or_oom E (run (deserialize (set_sch E S) d' t) (b ++ rest)) (run (deserialize E d' t) (b ++ rest)).
Proof.
  intros W E S cut d d' t v b rest WW WE WS L O U Hh T N Hw Hd Hs HP. apply (oom_lift (set_sch E S)).
  rewrite <- (unlimited_same _ _ _ _ (mem_agree E d' t) HP).
  exact (C71_same_reading W (set_mem None E) S cut d d' t v b rest WW (wf_set_mem None E WE) (wf_set_mem None _ WS) (later_mem W E None L) O U Hh eq_refl T N Hw Hd Hs).
Qed.
Theorem C71_skipping_limited : forall cut W E d d' t v b rest v',
  wf_env W -> wf_env E -> kept_up cut W E -> no_older cut (e_sch W) -> opt_safe W E -> user_panics E (fun x => x <> PStack) ->
  sizes_honest W -> wt W d t v -> (d <= d')%nat -> to_vec W d t v = Ok b -> migrate W E d t v = Ok v' ->
  spec_built E -> len (b ++ rest) < 2 ^ e_ub E ->
  or_oom E (run (skip E d' t) (b ++ rest)) (Ok (tt, rest)).
Proof.
  intros cut W E d d' t v b rest v' WW WE K N O U Hh Hw Hd Hs Hm SB Hl.
  apply (limited E _ _ (skip (set_mem None E) d' t)); [apply (drop_mem E _ (fun E => skip E d' t))|apply mem_skip|].
  exact (C71_skipping cut W (set_mem None E) d d' t v b rest v' WW (wf_set_mem None E WE) (kept_up_mem cut W E None WE K) N O U Hh Hw Hd Hs Hm eq_refl SB Hl).
Qed.

(** C53, C84: from a slice. *)
Lemma slice_limited : forall E d t b rest, or_oom E (run (skip E d t) (b ++ rest)) (Ok (tt, rest)) -> or_oom E (skip_slice E d t (b ++ rest)) (Ok (len b)).
Proof.
  intros E d t b rest [H|[H1 H2]].
  - left. apply C13_skip_slice. exists rest. split; [exact H|apply len_app].
  - right. split; [exact H1|]. unfold skip_slice. rewrite (fol_skip E d t (sr_new (b ++ rest))). cbn [sr_new sr_inner]. rewrite H2. reflexivity.
Qed.
Theorem C84_old_slice_limited : forall E E' d d' t v b rest,
  wf_env E -> sizes_honest E -> spec_built E -> later E E' -> same_libraries E E' -> program_mirrors E -> foreign_mirrors t = true ->
  wt E d t v -> (d <= d')%nat -> to_vec E d t v = Ok b -> len (b ++ rest) < 2 ^ e_ub E ->
  or_oom E' (skip_slice E' d' t (b ++ rest)) (Ok (len b)).
Proof.
  intros E E' d d' t v b rest W Hh SB L S P Ht Hw Hd Hs Hl. apply slice_limited. exact (C84_old_data E E' d d' t v b rest W Hh SB L S P Ht Hw Hd Hs Hl).
Qed.
Theorem C53_skip_slice_limited : forall old new d d' t v b rest,
  wf_env old -> wf_env new -> later old new -> same_libraries new old -> program_mirrors old -> foreign_mirrors t = true -> closed old t ->
  sizes_honest new -> spec_built new -> wt new d t v -> (d <= d')%nat -> to_vec new d t v = Ok b -> len (b ++ rest) < 2 ^ e_ub new ->
  or_oom old (skip_slice old d' t (b ++ rest)) (Ok (len b)) \/ or_oom old (skip_slice old d' t (b ++ rest)) (Err (EDeserialize MInvalidRevision)).
Proof.
  intros old new d d' t v b rest W W' L S P Ht C Hh SB Hw Hd Hs Hl.
  destruct (C53_skip_data old new d d' t v b rest W W' L S P Ht C Hh SB Hw Hd Hs Hl) as [H|[H|[H1 H2]]]; [left; apply slice_limited; exact H|right; left|right; right; split; [exact H1|]];
    unfold skip_slice; rewrite (fol_skip old d' t (sr_new (b ++ rest))); cbn [sr_new sr_inner]; [rewrite H|rewrite H2]; reflexivity.
Qed.

(** ** Examples: the limits that refuse and the limits that do not. *)
Example C26_limited_case :
  run (decode_field (set_mem (Some 8) new) 0 MIdxMap (TMap KHash TStr (TInt U64))) (scores_bytes ++ [9]) = Panic PMem
  /\ run (decode_field (set_mem (Some 1000) new) 0 MIdxMap (TMap KHash TStr (TInt U64))) (scores_bytes ++ [9]) = Ok (scores, [9]).
Proof. split; vm_compute; reflexivity. Qed.
Example C28_limited_case :
  run (decode_field (set_mem (Some 1) new) 0 MIdxSet (TSet KHash (TInt U16))) ports_bytes = Panic PMem
  /\ run (decode_field (set_mem (Some 1000) new) 0 MIdxSet (TSet KHash (TInt U16))) ports_bytes = Ok (ports, []).
Proof. split; vm_compute; reflexivity. Qed.
Example C29_limited_case :
  skip_indexed_map (set_mem (Some 1000) new) 0 TStr (TInt U64) (mkSR (scores_bytes ++ [9]) 0) = Ok (tt, mkSR [9] 0)
  /\ skip_indexed_seq (set_mem (Some 1000) new) 0 (TInt U16) (mkSR (ports_bytes ++ [9]) 0) = Ok (tt, mkSR [9] 0).
Proof. split; vm_compute; reflexivity. Qed.
Example C24_limited_case :
  run (deserialize (set_mem (Some 3) new) 2 (TRef 1)) (envelope [3] (known ++ [7; 7]) ++ [9]) = Panic PMem
  /\ run (deserialize (set_mem (Some 1000) new) 2 (TRef 1)) (envelope [3] known) = Ok (u_new, [])
  /\ run (deserialize (set_mem (Some 1000) new) 2 (TRef 1)) (envelope [3] (known ++ [7; 7]) ++ [9]) = Ok (u_new, [9]).
Proof. split; [|split]; vm_compute; reflexivity. Qed.
(** A limit the extra bytes exceed and the payload does not: the refusal in C24 does occur. *)
Example C24_refusal : exists m x,
  run (deserialize (set_mem (Some m) new) 2 (TRef 1)) (envelope [3] known) = Ok (u_new, [])
  /\ run (deserialize (set_mem (Some m) new) 2 (TRef 1)) (envelope [3] (known ++ x)) = Panic PMem.
Proof. exists 1000, (repeat 0 1001). split; vm_compute; reflexivity. Qed.
Example C44_limited_case : let E := set_mem (Some 1000) new in let S := fun n => option_map boxed (e_sch E n) in
  rewrapped E S /\ same_wire E (TRef 1) (TWrap (TRef 1))
  /\ run (deserialize E 2 (TRef 1)) (u_new_bytes ++ [9]) = Ok (u_new, [9])
  /\ run (deserialize (set_sch E S) 2 (TWrap (TRef 1))) (u_new_bytes ++ [9]) = Ok (u_new, [9]).
Proof. split; [apply boxed_rewrapped|]. split; [apply sw_wrap_r, sw_refl|]. split; vm_compute; reflexivity. Qed.
Example C71_limited_case :
  run (deserialize (set_mem (Some 10) (set_sch p3 S3')) 1 (TRef 1)) ([2; 251; 44; 1; 9] ++ [7]) = Ok (VSeq [VInt 9; VInt 300], [7])
  /\ run (skip (set_mem (Some 10) (set_sch p3 S3')) 1 (TRef 1)) ([2; 251; 44; 1; 9] ++ [7]) = Ok (tt, [7]).
Proof. split; vm_compute; reflexivity. Qed.

Print Assumptions C12_skip_encoding_limited.
Print Assumptions C24_struct_extra_limited.
Print Assumptions C24_variant_extra_limited.
Print Assumptions C26_limited.
Print Assumptions C28_limited_seq.
Print Assumptions C28_limited_set.
Print Assumptions C29_limited_seq.
Print Assumptions C29_limited_set.
Print Assumptions C29_limited_map.
Print Assumptions C44_decode_limited.
Print Assumptions C44_skip_limited.
Print Assumptions C71_same_reading_limited.
Print Assumptions C71_skipping_limited.
Print Assumptions C84_old_slice_limited.
Print Assumptions C53_skip_slice_limited.
