(** C61: the skippers pass over exactly the shapes of SkipForm.v. *)

From Verif Require Import Base BaseL Prog ProgL Prim PrimL Utf8 Utf8L Tag Ty Ser De Typed RtL DiscL Agree Spec Cross Ex Format FormatL SliceReader Skip SkipIdx SkipL SkipForm SkipFormL PropWire PropFormat PropMig PropIdx.
From Verif Require PropSkip.
From Coq Require Import List NArith ZArith Bool Lia.
Import ListNotations.
Open Scope N_scope.

Lemma shape_mem : forall E d t x, shape (set_mem None E) d t x = shape E d t x.
Proof. reflexivity. Qed.

Lemma check_shape_mem : forall E d t x, check_shape (set_mem None E) d t x = check_shape E d t x.
Proof. reflexivity. Qed.
Lemma iff_of_eq : forall A B : Prop, A = B -> (A <-> B).
Proof. intros A B ->. reflexivity. Qed.

(** Skipping from a reader succeeds exactly when the input begins with such a byte string, and stops behind it. *)
Theorem C61_skips_exactly : forall E d t bs rest, wf_env E -> e_mem E = None -> wfb bs ->
  (run (skip E d t) bs = Ok (tt, rest) <-> exists x, bs = x ++ rest /\ shape E d t x).
Proof. intros E d t bs rest W Hm Hb. apply (means_run _ _ _ (passes_skip E W Hm d t) _ _ _ Hb). Qed.
(** The same from a slice. *)
Theorem C61_slice_exactly : forall E d t bs n, wf_env E -> e_mem E = None -> wfb bs ->
  (skip_slice E d t bs = Ok n <-> exists x rest, bs = x ++ rest /\ len x = n /\ shape E d t x).
Proof.
  intros E d t bs n W Hm Hb. rewrite PropSkip.C13_skip_slice. split.
  - intros (rest & R & L). apply C61_skips_exactly in R; try assumption. destruct R as (x & -> & F). exists x, rest. rewrite len_app in L. split; [reflexivity|]. split; [lia|exact F].
  - intros (x & rest & -> & L & F). exists rest. split; [apply C61_skips_exactly; eauto|]. rewrite len_app. lia.
Qed.
(** With a memory limit: what is skipped is such a string; such a string is skipped, or memory runs out. *)
Theorem C61_limited : forall E d t bs, wf_env E -> wfb bs ->
  (forall rest, run (skip E d t) bs = Ok (tt, rest) -> exists x, bs = x ++ rest /\ shape E d t x)
  /\ (forall x rest, bs = x ++ rest -> shape E d t x -> or_oom E (run (skip E d t) bs) (Ok (tt, rest))).
Proof.
  intros E d t bs W Hb. apply (passes_limited E _ (skip (set_mem None E) d t)); [|apply mem_skip| |exact Hb].
  - intros H. rewrite <- H, set_mem_same. reflexivity.
  - exact (passes_iff _ _ _ (fun x _ => iff_of_eq _ _ (shape_mem E d t x)) (passes_skip (set_mem None E) (wf_set_mem None E W) eq_refl d t)).
Qed.
(** The checking skip. *)
Theorem C61_checks_exactly : forall E d t bs rest, wf_env E -> e_mem E = None -> wfb bs ->
  (run (skip_check E d t) bs = Ok (tt, rest) <-> exists x, bs = x ++ rest /\ check_shape E d t x).
Proof. intros E d t bs rest W Hm Hb. apply (means_run _ _ _ (passes_check E W Hm d t) _ _ _ Hb). Qed.
Theorem C61_check_limited : forall E d t bs, wf_env E -> wfb bs ->
  (forall rest, run (skip_check E d t) bs = Ok (tt, rest) -> exists x, bs = x ++ rest /\ check_shape E d t x)
  /\ (forall x rest, bs = x ++ rest -> check_shape E d t x -> or_oom E (run (skip_check E d t) bs) (Ok (tt, rest))).
Proof.
  intros E d t bs W Hb. apply (passes_limited E _ (skip_check (set_mem None E) d t)); [|apply mem_skip_check| |exact Hb].
  - intros H. rewrite <- H, set_mem_same. reflexivity.
  - exact (passes_iff _ _ _ (fun x _ => iff_of_eq _ _ (check_shape_mem E d t x)) (passes_check (set_mem None E) (wf_set_mem None E W) eq_refl d t)).
Qed.
(** Fields declared [indexed_map], [indexed_seq], [indexed_set]. *)
Theorem C61_indexed_map_exactly : forall E d a b s s', wf_env E -> e_mem E = None -> wfb (sr_inner s) ->
  (skip_indexed_map E d a b s = Ok (tt, s') <-> exists x, sr_inner s = x ++ sr_inner s' /\ sr_orig s' = sr_orig s /\ idx_map_shape E d a b x).
Proof. intros E d a b s s' W Hm Hs. apply passes_follows with (p := p_idx_map E d a b); [apply fol_idx_map|apply passes_idx_map; assumption|exact Hs]. Qed.
Theorem C61_indexed_seq_exactly : forall E d a s s', wf_env E -> e_mem E = None -> wfb (sr_inner s) ->
  (skip_indexed_seq E d a s = Ok (tt, s') <-> exists x, sr_inner s = x ++ sr_inner s' /\ sr_orig s' = sr_orig s /\ idx_seq_shape E d a x).
Proof. intros E d a s s' W Hm Hs. apply passes_follows with (p := p_idx_seq E d a); [apply fol_idx_seq|apply passes_idx_seq; assumption|exact Hs]. Qed.

(** Every form of a value can be skipped. *)
Theorem C61_forms_are_skippable : forall E d t v x, wf_env E -> spec_built E -> wfb x -> len x < 2 ^ e_ub E ->
  form E d t v x -> shape E d t x.
Proof.
  intros E d t v x W Hs Hx Hl F. rewrite <- form_mem in F. rewrite <- shape_mem.
  pose proof (wf_set_mem None E W) as W0.
  assert (R : run (deserialize (set_mem None E) d t) x = Ok (v, [])) by (apply C49_decodes_exactly; [assumption|reflexivity|assumption|]; exists x; rewrite app_nil_r; auto).
  apply PropSkip.C12_skip_consumes_what_deserialize_consumes in R; [|exact Hs|exact Hl].
  apply C61_skips_exactly in R; [|assumption|reflexivity|assumption]. destruct R as (y & He & F'). rewrite app_nil_r in He. subst y. exact F'.
Qed.
(** ... and whatever passes the checking skip. *)
Theorem C61_checked_are_skippable : forall E d t x, wf_env E -> spec_built E -> wfb x -> len x < 2 ^ e_ub E ->
  check_shape E d t x -> shape E d t x.
Proof.
  intros E d t x W Hs. revert x.
  assert (D : forall u x, wfb x -> len x < 2 ^ e_ub E -> (exists v, form E d u v x) -> shape E d u x) by (intros u x Hx Hl (v & F); eapply C61_forms_are_skippable; eassumption).
  induction t; intros x Hx Hl F; cbn [check_shape] in F; try (exact (D _ x Hx Hl F)); try exact F.
  - destruct F as (y & z & -> & F1 & F2). apply wfb_app in Hx. rewrite len_app in Hl. exists y, z. split; [reflexivity|].
    split; [apply IHt1; [apply Hx|lia|exact F1]|apply IHt2; [apply Hx|lia|exact F2]].
  - destruct F as (xs & L & F & ->). exists xs. split; [exact L|]. split; [|reflexivity]. clear L. induction F as [|y xs Fy F IH]; [constructor|].
    cbn [concat] in Hx, Hl. apply wfb_app in Hx. rewrite len_app in Hl. constructor; [apply IHt; [apply Hx|lia|exact Fy]|apply IH; [lia|apply Hx]].
Qed.
(** No skippable string is the beginning of another. *)
Theorem C61_unambiguous : forall E d t x x' s s', wf_env E -> wfb (x ++ s) ->
  shape E d t x -> shape E d t x' -> x ++ s = x' ++ s' -> x = x' /\ s = s'.
Proof.
  intros E d t x x' s s' W Hb F F' He. pose proof (wf_set_mem None E W) as W0.
  assert (R : run (skip (set_mem None E) d t) (x ++ s) = Ok (tt, s)) by (apply C61_skips_exactly; [assumption|reflexivity|assumption|]; exists x; split; [reflexivity|]; rewrite shape_mem; exact F).
  assert (R' : run (skip (set_mem None E) d t) (x ++ s) = Ok (tt, s')) by (apply C61_skips_exactly; [assumption|reflexivity|assumption|]; exists x'; split; [exact He|]; rewrite shape_mem; exact F').
  rewrite R in R'. apply Ok_inj in R'. injection R' as <-. apply app_inv_tail in He. auto.
Qed.

(** Skipping is not decoding.  The tag of an optimised enum may name no variant at all: *)
Theorem C61_unknown_variant_refuted : forall E d n s vs r h ds hd id, wf_env E -> wfb hd ->
  e_sch E n = Some s -> s_body s = SEnum vs -> sent s r = Some h -> h_opt h = true ->
  calc_disc r vs = Some ds -> (forall vr, ~ In (vr, id) ds) -> id < 32 ->
  int_form E U16 (Z.of_N r) hd ->
  shape E (S d) (TRef n) (hd ++ [id]) /\ forall v, ~ form E (S d) (TRef n) v (hd ++ [id]).
Proof.
  intros E d n s vs r h ds hd id W Hw Hs Hb Hh Ho Hd Hi Hl H. split.
  - exists s. split; [exact Hs|]. exists r, h. split; [exact Hh|]. exists hd, [id]. split; [reflexivity|]. split; [exact H|].
    unfold body_shape. rewrite Hb, Ho. exists ds. split; [exact Hd|]. exists id, []. split; [reflexivity|].
    rewrite (N.div_small id 32) by exact Hl. reflexivity.
  - intros v F. pose proof (wf_set_mem None E W) as W0. rewrite <- form_mem in F.
    assert (Hx : wfb (hd ++ [id])) by (apply wfb_app; split; [exact Hw|repeat constructor; lia]).
    apply (C49_form_decodes _ _ _ _ _ [] W0 Hx (Forall_nil _)) in F. destruct F as [F|[F _]]; [|cbn in F; contradiction].
    rewrite app_nil_r in F. unfold deserialize in F. cbn [de_ty de_ref] in F. change (e_sch (set_mem None E) n) with (e_sch E n) in F. rewrite Hs in F.
    unfold de_derived in F. rewrite run_bind in F.
    assert (R : run (de_u16 (e_fw (set_mem None E))) (hd ++ [id]) = Ok (r, [id])).
    { apply (means_run _ _ _ (means_u16 (set_mem None E))); [exact Hx|]. exists hd. split; [reflexivity|exact H]. }
    rewrite R in F. unfold de_body in F. rewrite Hh, Hb, Ho in F. unfold de_enum_opt in F. rewrite Hd in F.
    rewrite run_bind in F. unfold read_optimised_tag in F. rewrite run_bind, PropSkip.run_tag, run_bind, run_of_res in F.
    destruct (size_class id) as [c|e|x]; cbn [rmap run fst snd] in F; try discriminate.
    rewrite variant_id_mod, N.mod_small in F by exact Hl.
    destruct (find_tag id c ds) as [[vr k]|] eqn:Q; [|discriminate]. apply find_some in Q. cbn [fst snd] in Q. destruct Q as [Q1 Q2].
    apply andb_prop in Q2. destruct Q2 as [Q2 _]. apply N.eqb_eq in Q2. subst k. exact (Hi vr Q1).
Qed.
(** Strings need not be UTF-8, times need not be representable: *)
Theorem C61_text_refuted : forall E d y, wf_env E -> wfb y -> len_form E 1 y ->
  shape E d TStr (y ++ [255]) /\ forall v, ~ form E d TStr v (y ++ [255]).
Proof.
  intros E d y W Hy H. split; [exists 1, y, [255]; split; [reflexivity|]; split; [exact H|reflexivity]|]. intros v F.
  assert (K : run (deserialize (set_mem None E) d TStr) (y ++ [255]) = Err EUtf8).
  { unfold deserialize. cbn [de_ty]. unfold de_str. rewrite run_bind.
    assert (Hb : wfb (y ++ [255])) by (apply wfb_app; split; [exact Hy|repeat constructor; lia]).
    assert (R : run (de_len (set_mem None E)) (y ++ [255]) = Ok (1, [255])).
    { apply (means_run _ _ _ (means_len (set_mem None E)) _ _ _ Hb). exists y. auto. }
    rewrite R. vm_compute. reflexivity. }
  assert (Hb : wfb (y ++ [255])) by (apply wfb_app; split; [exact Hy|repeat constructor; lia]).
  rewrite <- form_mem in F. apply (C49_form_decodes _ _ _ _ _ [] (wf_set_mem None E W) Hb (Forall_nil _)) in F. rewrite app_nil_r, K in F.
  destruct F as [F|[F _]]; [discriminate|]. cbn in F. contradiction.
Qed.

(** ** Cases *)

Lemma skipped_shape : forall t x, forallb (fun b => b <? 256) x = true -> run (skip new 2 t) x = Ok (tt, []) -> shape new 2 t x.
Proof.
  intros t x Hx R. assert (Hb : wfb x) by (apply Forall_forall; intros b Hb; apply N.ltb_lt; revert b Hb; apply forallb_forall; exact Hx).
  apply (C61_skips_exactly new 2 t x [] wf_new eq_refl Hb) in R. destruct R as (y & He & F). rewrite app_nil_r in He. subst y. exact F.
Qed.
(** The 180 bytes of a user; a user whose payload is garbage; a variant that does not exist; none of these with a byte missing. *)
Example C61_case : shape new 2 (TRef 1) u_new_bytes
  /\ shape new 2 (TRef 1) [3; 2; 0; 0; 0; 255; 255]
  /\ shape new 2 (TRef 2) [2; 31]
  /\ shape new 2 (TPair TSystemTime (TResult TStr TBool)) (253 :: repeat 255 8 ++ [252; 255; 255; 255; 255; 0; 1; 255]).
Proof.
  split; [|split; [|split]]; apply skipped_shape; vm_compute; reflexivity.
Qed.
Example C61_rejected_case : forall x rest, [3; 2; 0; 0; 0; 255] = x ++ rest -> ~ shape new 2 (TRef 1) x.
Proof.
  intros x rest He F. assert (R : run (skip new 2 (TRef 1)) [3; 2; 0; 0; 0; 255] = Ok (tt, rest)).
  { apply C61_skips_exactly; [apply wf_new|reflexivity|repeat constructor; lia|]. exists x. auto. }
  vm_compute in R. discriminate.
Qed.
Example C61_unknown_case : shape new 2 (TRef 2) ([2] ++ [31]) /\ forall v, ~ form new 2 (TRef 2) v ([2] ++ [31]).
Proof.
  destruct (calc_disc 2 (match s_body shape2 with SEnum vs => vs | _ => [] end)) as [ds|] eqn:D; [|discriminate].
  apply (C61_unknown_variant_refuted new 1 2 shape2 (match s_body shape2 with SEnum vs => vs | _ => [] end) 2 (mkHent true false) ds);
    try reflexivity; [apply wf_new|repeat constructor; lia|exact D| |].
  - vm_compute in D. injection D as <-. intros vr H. repeat (destruct H as [H|H]; [discriminate|]). exact H.
  - exists 2. split; [|split; [reflexivity|vm_compute; split; [discriminate|reflexivity]]].
    apply den_1. lia.
Qed.
(** An indexed map is passed over by its two region lengths alone, and an indexed sequence by its last offset. *)
Example C61_indexed_case : idx_map_shape new 0 TStr (TInt U64) scores_bytes
  /\ idx_map_shape new 0 TStr (TInt U64) ([1; 1] ++ repeat 255 8 ++ [2; 0; 0; 0; 1; 0; 0; 0] ++ [255; 255; 255])
  /\ idx_seq_shape new 0 (TInt U16) ([1; 2] ++ repeat 255 4 ++ [3; 0; 0; 0] ++ [255; 255; 255; 7]).
Proof.
  assert (M : forall x, forallb (fun b => b <? 256) x = true -> skip_indexed_map new 0 TStr (TInt U64) (sr_new x) = Ok (tt, mkSR [] (len x)) -> idx_map_shape new 0 TStr (TInt U64) x).
  { intros x Hx R. assert (Hb : wfb x) by (apply Forall_forall; intros b Hb; apply N.ltb_lt; revert b Hb; apply forallb_forall; exact Hx).
    apply (C61_indexed_map_exactly new 0 TStr (TInt U64) (sr_new x) _ wf_new eq_refl Hb) in R. destruct R as (y & He & _ & F). cbn [sr_inner sr_new] in He. rewrite app_nil_r in He. subst y. exact F. }
  split; [apply M; vm_compute; reflexivity|]. split; [apply M; vm_compute; reflexivity|].
  assert (R : skip_indexed_seq new 0 (TInt U16) (sr_new ([1; 2] ++ repeat 255 4 ++ [3; 0; 0; 0] ++ [255; 255; 255; 7])) = Ok (tt, mkSR [] 14)) by (vm_compute; reflexivity).
  apply C61_indexed_seq_exactly in R; [|apply wf_new|reflexivity|repeat constructor; lia]. destruct R as (y & He & _ & F). cbn [sr_inner sr_new] in He. rewrite app_nil_r in He. rewrite He. exact F.
Qed.

Print Assumptions C61_skips_exactly.
Print Assumptions C61_slice_exactly.
Print Assumptions C61_limited.
Print Assumptions C61_checks_exactly.
Print Assumptions C61_check_limited.
Print Assumptions C61_indexed_map_exactly.
Print Assumptions C61_indexed_seq_exactly.
Print Assumptions C61_forms_are_skippable.
Print Assumptions C61_checked_are_skippable.
Print Assumptions C61_unambiguous.
Print Assumptions C61_unknown_variant_refuted.
Print Assumptions C61_text_refuted.
