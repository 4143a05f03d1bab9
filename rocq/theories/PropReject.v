(** C66: what walkers report on input that does not decode. *)

From Verif Require Import Base BaseL Prog ProgL Prim PrimL Utf8 Tag Ty Ser De Typed Mig DiscL RtL RtDer Agree Spec SliceReader Skip SkipIdx SkipL Format FormatL Ex Walk WalkSpec WalkL.
From Coq Require Import List NArith ZArith Bool Lia.
Import ListNotations.
Open Scope N_scope.

(** How a call failed, if it did. *)
Definition failure {A} (r : res A) : option (err + pan) :=
  match r with Ok _ => None | Err e => Some (inl e) | Panic p => Some (inr p) end.
(** The type behind boxes. *)
Fixpoint unwrapped (t : ty) : ty := match t with TWrap t' => unwrapped t' | _ => t end.

Lemma bind_run : forall A B (p : prog A) (f : A -> sm B) bs o, sm_bind (sr_run p) f (mkSR bs o) =
  match run p bs with Ok (a, y) => f a (mkSR y o) | Err e => Err e | Panic x => Panic x end.
Proof. intros A B p f bs o. unfold sm_bind. rewrite sr_run_run. cbn [sr_inner sr_orig]. destruct (run p bs) as [[a y]|e|x]; reflexivity. Qed.
Lemma borrow_run : forall B n (f : bytes -> sm B) bs o, sm_bind (sm_op (sr_borrow n)) f (mkSR bs o) =
  match run (read_n n) bs with Ok (a, y) => f a (mkSR y o) | Err e => Err e | Panic x => Panic x end.
Proof.
  intros B n f bs o. unfold sm_bind, sm_op, sr_borrow, sr_peek, sr_advance, sr_consume, read_n. cbn [sr_inner sr_orig run]. destruct (split_at n bs) as [[x y]|]; reflexivity.
Qed.
Lemma failure_map : forall A B (f : A -> B) (m : sm A) s, failure (sm_map f m s) = failure (m s).
Proof. intros A B f m s. unfold sm_map, sm_bind. destruct (m s) as [[a s']|e|p]; reflexivity. Qed.

Lemma find_none_all : forall A (f : A -> bool) l, (forall x, In x l -> f x = false) -> find f l = None.
Proof. intros A f l. induction l as [|x l IH]; intros H; [reflexivity|]. cbn [find]. rewrite (H x) by (left; reflexivity). apply IH. intros; apply H; right; assumption. Qed.

(** ** Opening a walker *)
Section Open.
Variable E : env.
Variable D : nat.
Hypothesis W : wf_env E.
Hypothesis HM : e_mem E = None.

Lemma free : forall n B (f : unit -> prog B), bind (alloc E n) f = f tt.
Proof. exact (alloc_free E HM). Qed.
(** Opening fails on older data that decodes. *)
Definition copying (s : schema) (p : prog val) (bs : bytes) : Prop := has_convert s = true /\ exists v rest, run p bs = Ok (v, rest).
Lemma open_copy : forall A d s rev bs o e (k : bytes * N -> sm A), 
  sm_bind (materialise E D d s rev) k (mkSR bs o) = Err e ->
  run (de_body E (de_ref E d) s rev) bs = Err e \/ exists v rest, run (de_body E (de_ref E d) s rev) bs = Ok (v, rest).
Proof.
  intros A d s rev bs o e k H. unfold sm_bind at 1 in H. unfold materialise in H. rewrite bind_run in H.
  destruct (run (de_body E (de_ref E d) s rev) bs) as [[v r]|e'|p]; [right; eauto|left; congruence|discriminate].
Qed.
Lemma open_struct : forall d s fs rev bs o e, s_body s = SStruct fs -> enter_struct E D d s fs rev (mkSR bs o) = Err e ->
  run (de_body E (de_ref E d) s rev) bs = Err e \/ copying s (de_body E (de_ref E d) s rev) bs.
Proof.
  intros d s fs rev bs o e Eb H. unfold enter_struct in H. destruct (has_convert s && negb (rev =? scur s)) eqn:Ec.
  - apply open_copy in H. destruct H as [H|H]; [left; exact H|]. right. split; [apply andb_prop in Ec; apply Ec|exact H].
  - left. unfold de_body. rewrite Eb. destruct (sent s rev) as [h|]; [|inversion H; reflexivity]. destruct (h_opt h); [|discriminate]. unfold de_struct_opt. rewrite run_bind.
    destruct (h_idx h); rewrite bind_run in H; destruct (run read_varlen_len bs) as [[n y]|e'|p]; try discriminate; try (inversion H; reflexivity).
    rewrite borrow_run in H. rewrite free, run_bind. destruct (run (read_n n) y) as [[x z]|e'|p]; try discriminate. inversion H; reflexivity.
Qed.
Lemma open_enum : forall n d s vs rev bs o e, e_sch E n = Some s -> s_body s = SEnum vs -> enter_enum E D d s vs rev (mkSR bs o) = Err e ->
  run (de_body E (de_ref E d) s rev) bs = Err e \/ copying s (de_body E (de_ref E d) s rev) bs.
Proof.
  intros n0 d s vs rev bs o e Es Eb H. unfold enter_enum in H. destruct (has_convert s && negb (rev =? scur s)) eqn:Ec.
  - apply open_copy in H. destruct H as [H|H]; [left; exact H|]. right. split; [apply andb_prop in Ec; apply Ec|exact H].
  - left. unfold de_body. rewrite Eb. destruct (sent s rev) as [h|] eqn:Eh; [|inversion H; reflexivity].
    pose proof (we_sch E W n0 s Es) as (_ & _ & Ws). rewrite Eb in Ws. destruct Ws as (_ & _ & Ws). destruct (Ws rev h Eh) as (ds & Ed & Hlt & Hopt). destruct (h_opt h).
    + unfold de_enum_opt. rewrite Ed in *. unfold read_optimised_tag. rewrite !run_bind. rewrite bind_run in H. destruct (run read_tag bs) as [[tag y]|e'|p]; try discriminate; [|inversion H; reflexivity].
      rewrite run_bind, run_of_res. unfold sm_bind at 1, sm_res at 1 in H. destruct (size_class tag) as [c|e'|p]; try discriminate; [|inversion H; reflexivity]. cbn [rmap run fst snd] in *.
      pose proof (calc_disc_nodup _ _ _ Ed) as Hn.
      assert (F : find_tag (variant_id tag) c ds = match find (fun p => snd p =? variant_id tag) ds with Some (v, k) => if match v_size v with Some z => sclass_eqb (class_of z) c | None => false end then Some (v, k) else None | None => None end).
      { clear - Hn. unfold find_tag. induction ds as [|[v k] ds IH]; [reflexivity|]. cbn [map snd] in Hn. inversion Hn; subst. cbn [find fst snd]. destruct (N.eqb_spec k (variant_id tag)) as [->|Hk]; cbn [andb].
        - destruct (match v_size v with Some z => sclass_eqb (class_of z) c | None => false end); [reflexivity|]. clear IH. 
          apply find_none_all. intros [v' k'] Hi; cbn [fst snd]; destruct (N.eqb_spec k' (variant_id tag)) as [->|]; [exfalso; apply H1; apply in_map_iff; exists (v', variant_id tag); auto|reflexivity].
        - apply IH. assumption. }
      rewrite F. unfold class_at in H. destruct (find (fun p => snd p =? variant_id tag) ds) as [[v k]|] eqn:Ef; [|inversion H; reflexivity].
      destruct (v_size v) as [z|] eqn:Ez; [|inversion H; reflexivity]. 
      assert (Sy : sclass_eqb c (class_of z) = sclass_eqb (class_of z) c) by (destruct c, (class_of z); reflexivity). rewrite Sy in H.
      destruct (sclass_eqb (class_of z) c) eqn:Eq; [|inversion H; reflexivity]. unfold de_variant_opt, variant_buf. rewrite Ez, run_bind.
      destruct z as [|m|]; destruct c; try discriminate Eq; cbn [class_of] in *.
      * discriminate.
      * apply find_some in Ef. destruct Ef as [Hin Hk]. apply N.eqb_eq in Hk. cbn [snd] in Hk. subst k.
        rewrite (size_table_nth ds v (variant_id tag) m Hn Hin Ez (variant_id_lt tag)) in H.
        rewrite borrow_run in H. rewrite free. destruct (run (read_n m) y) as [[x r]|e'|p]; try discriminate. inversion H; reflexivity.
      * unfold sm_bind at 1 in H. rewrite bind_run in H. rewrite run_bind. destruct (run read_varlen_len y) as [[m r]|e'|p]; try discriminate; [|inversion H; reflexivity].
        rewrite free. destruct (sm_op (sr_borrow m) (mkSR r o)) as [[x r']|e'|p] eqn:Eo; try discriminate. inversion H; subst e'.
        unfold sm_op, sr_borrow, sr_peek, sr_advance, sr_consume in Eo. cbn [sr_inner sr_orig] in Eo. unfold read_n. cbn [run]. destruct (split_at m r) as [[u w]|]; [discriminate|]. inversion Eo. reflexivity.
    + rewrite bind_run in H. unfold de_enum_legacy. rewrite Ed, run_bind. destruct (run (de_u32 (e_fw E)) bs) as [[k r]|e'|p]; try discriminate. inversion H; reflexivity.
Qed.
(** If a walker cannot be opened, decoding fails with the same error, save that vectors in bulk form have no
    walker and that older data that decodes may fail to be copied for its walker. *)
Theorem C66_open_error : forall t d bs o e, enter E D d t (mkSR bs o) = Err e ->
  run (deserialize E d t) bs = Err e
  \/ (refused E t = true /\ e = EDeserialize MBulkVec)
  \/ exists n s v rest, unwrapped t = TRef n /\ e_sch E n = Some s /\ has_convert s = true /\ run (deserialize E d t) bs = Ok (v, rest).
Proof.
  induction t; intros d bs o e H; cbn [enter] in H; try discriminate H;
    try (left; rewrite bind_run in H; unfold deserialize; cbn [de_ty]; unfold de_seq; rewrite ?run_bind; destruct (run (de_len E) bs) as [[m y]|e'|p]; try discriminate; inversion H; reflexivity).
  - destruct (vec_uses_bulk E t) eqn:Eb.
    + right; left. inversion H. split; [|reflexivity]. cbn [refused]. rewrite <- vec_uses_bulk_iff. exact Eb.
    + left. rewrite vec_uses_bulk_iff in Eb. rewrite bind_run in H. unfold deserialize. cbn [de_ty]. unfold de_seq.
      replace (if e_spec E then bulk_of t else None) with (@None bk) by (destruct (e_spec E); [destruct (bulk_of t); [discriminate|reflexivity]|reflexivity]). rewrite !run_bind.
      destruct (run (de_len E) bs) as [[m y]|e'|p]; try discriminate; inversion H; reflexivity.
  - left. rewrite bind_run in H. unfold deserialize. cbn [de_ty]. rewrite run_bind. destruct (run read_byte bs) as [[b y]|e'|p]; try discriminate; [|inversion H; reflexivity].
    destruct (b =? 0); [discriminate|]. destruct (b =? 1); [discriminate|]. inversion H; reflexivity.
  - left. rewrite bind_run in H. unfold deserialize. cbn [de_ty]. rewrite run_bind. destruct (run (de_u32 (e_fw E)) bs) as [[b y]|e'|p]; try discriminate; [|inversion H; reflexivity].
    destruct (b =? 0); [discriminate|]. destruct (b =? 1); [discriminate|]. inversion H; reflexivity.
  - destruct (IHt d bs o e H) as [A|[A|A]]; [left; exact A|right; left; exact A|right; right; exact A].
  - destruct mirror; [discriminate|]. destruct t; discriminate.
  - destruct d as [|d]; [discriminate|]. destruct (e_sch E n) as [s|] eqn:Es; [|discriminate]. unfold sm_map, sm_bind at 1 in H.
    destruct (enter_derived E D d s (mkSR bs o)) as [[c s']|e'|p] eqn:Ee; try discriminate. inversion H; subst e'. clear H. unfold enter_derived in Ee. rewrite bind_run in Ee.
    unfold deserialize. cbn [de_ty de_ref]. rewrite Es. unfold de_derived. rewrite run_bind. destruct (run (de_u16 (e_fw E)) bs) as [[rev y]|e'|p]; try discriminate; [|inversion Ee; left; reflexivity].
    destruct ((rev =? 0) || (scur s <? rev)) eqn:Er.
    + left. inversion Ee. unfold de_body, sent. apply orb_prop in Er. destruct (N.eqb_spec rev 0); [reflexivity|]. destruct Er as [Er|Er]; [discriminate|]. apply N.ltb_lt in Er. unfold scur, len in Er.
      rewrite (proj2 (nth_error_None (s_hist s) (N.to_nat (rev - 1)))) by lia. reflexivity.
    + destruct (s_body s) as [fs|vs] eqn:Eb.
      * apply open_struct in Ee; [|exact Eb]. destruct Ee as [Ee|[Hc (v & r & Ee)]]; [left; exact Ee|right; right; exists n, s, v, r; auto].
      * apply (open_enum n) in Ee; [|exact Es|exact Eb]. destruct Ee as [Ee|[Hc (v & r & Ee)]]; [left; exact Ee|right; right; exists n, s, v, r; auto].
Qed.
End Open.

(** ** Walking on *)
(** An option or result that its walker decodes: the same value, reader and error; the decoder of a Result
    replaces errors of its content. *)
Theorem C66_option : forall E D d t bs o,
  walk_with E D d (TOption t) Decode (mkSR bs o) = with_orig o (rmap (fun p => (OVal (fst p), snd p)) (run (deserialize E d (TOption t)) bs)).
Proof.
  intros E D d t bs o. unfold walk_with. cbn [enter]. unfold sm_bind at 1. rewrite bind_run. unfold deserialize at 1. cbn [de_ty]. rewrite run_bind.
  destruct (run read_byte bs) as [[b y]|e|p]; [|reflexivity..]. destruct (N.eqb_spec b 0) as [->|]; [reflexivity|]. destruct (N.eqb_spec b 1) as [->|]; [|reflexivity].
  cbn [orb sm_ret fst snd act_on]. change (1 =? 0) with false. unfold sm_map. rewrite bind_run, run_bind. unfold deserialize. destruct (run (de_ty E (de_ref E d) t) y) as [[v r]|e|p]; reflexivity.
Qed.
Theorem C66_result : forall E D d t t' bs o,
  match walk_with E D d (TResult t t') Decode (mkSR bs o) with
  | Ok (x, s) => exists v, x = OVal v /\ run (deserialize E d (TResult t t')) bs = Ok (v, sr_remaining s)
  | Err e => run (deserialize E d (TResult t t')) bs = Err e \/ run (deserialize E d (TResult t t')) bs = Err (EDeserialize MInner)
  | Panic p => run (deserialize E d (TResult t t')) bs = Panic p
  end.
Proof.
  intros E D d t t' bs o. unfold walk_with. cbn [enter]. unfold sm_bind at 1. rewrite bind_run. unfold deserialize. cbn [de_ty]. rewrite run_bind.
  destruct (run (de_u32 (e_fw E)) bs) as [[b y]|e|p]; [|left; reflexivity|reflexivity]. destruct (N.eqb_spec b 0) as [->|]; [|destruct (N.eqb_spec b 1) as [->|]; [|cbn; left; reflexivity]].
  - cbn [orb sm_ret fst snd act_on]. change (0 =? 0) with true. cbv iota. unfold sm_map. rewrite bind_run, run_bind, run_map_err. unfold deserialize. destruct (run (de_ty E (de_ref E d) t) y) as [[v r]|e|p]; [|right; reflexivity|reflexivity].
    exists (VVar 0 [v]). split; reflexivity.
  - cbn [orb sm_ret fst snd act_on]. change (1 =? 0) with false. cbv iota. unfold sm_map. rewrite bind_run, run_bind, run_map_err. unfold deserialize. destruct (run (de_ty E (de_ref E d) t') y) as [[v r]|e|p]; [|right; reflexivity|reflexivity].
    exists (VVar 1 [v]). split; reflexivity.
Qed.

(** A loop over [next_item] that decodes every item fails as decoding the whole does.  [k] items are asked for, more than there are. *)
Lemma items_fail : forall E D d t n k s, (n < k)%nat ->
  failure (act_on E D d (CSeq t (N.of_nat n)) (visit_items (repeat true k)) s) = failure (run (rep n (deserialize E d t)) (sr_inner s)).
Proof.
  intros E D d t n. induction n as [|n IH]; intros k [bs o] Hk; (destruct k as [|k]; [lia|]); cbn [repeat visit_items act_on].
  - reflexivity.
  - replace (N.of_nat (S n) =? 0) with false by (symmetry; apply N.eqb_neq; lia). replace (N.of_nat (S n) - 1) with (N.of_nat n) by lia. rewrite run_rep_S. cbn [sr_inner].
    unfold sm_bind at 1, sm_map at 1. rewrite bind_run. destruct (run (deserialize E d t) bs) as [[v r]|e|p]; [|reflexivity..]. cbn [sm_ret]. rewrite failure_map, IH by lia. cbn [sr_inner].
    destruct (run (rep n (deserialize E d t)) r) as [[l r']|e|p]; reflexivity.
Qed.
Lemma entries_fail : forall E D d a b n k s, (n < k)%nat ->
  failure (act_on E D d (CMap a b (N.of_nat n)) (visit_entries (repeat (true, true) k)) s) = failure (run (rep n (de_entry (deserialize E d a) (deserialize E d b))) (sr_inner s)).
Proof.
  intros E D d a b n. induction n as [|n IH]; intros k [bs o] Hk; (destruct k as [|k]; [lia|]); cbn [repeat visit_entries act_on].
  - reflexivity.
  - replace (N.of_nat (S n) =? 0) with false by (symmetry; apply N.eqb_neq; lia). replace (N.of_nat (S n) - 1) with (N.of_nat n) by lia. rewrite run_rep_S. cbn [sr_inner].
    unfold de_entry at 1. rewrite run_bind. unfold sm_bind at 1, sm_map at 1. rewrite bind_run. destruct (run (deserialize E d a) bs) as [[v r]|e|p]; [|reflexivity..]. cbn [sm_ret].
    unfold sm_bind at 1, sm_map at 1. rewrite bind_run, run_bind. destruct (run (deserialize E d b) r) as [[v2 r2]|e|p]; [|reflexivity..]. cbn [sm_ret run]. rewrite failure_map, IH by lia. cbn [sr_inner].
    destruct (run (rep n (de_entry (deserialize E d a) (deserialize E d b))) r2) as [[l r']|e|p]; reflexivity.
Qed.
Lemma seq_fail : forall E sz (p : prog val) n y, e_mem E = None -> failure (run (if n =? 0 then Ret [] else alloc E (n * sz) ;;; rep (N.to_nat n) p) y) = failure (run (rep (N.to_nat n) p) y).
Proof. intros E sz p n y HM. destruct (N.eqb_spec n 0) as [->|]; [reflexivity|]. rewrite (alloc_free E HM). reflexivity. Qed.
Lemma fail_bind_ret : forall A B (p : prog A) (f : A -> B) bs, failure (run (x <- p ;; Ret (f x)) bs) = failure (run p bs).
Proof. intros A B p f bs. rewrite run_bind. destruct (run p bs) as [[a r]|e|x]; reflexivity. Qed.
Theorem C66_items : forall E D d t t' bs o, e_mem E = None -> t = TVec t' /\ refused E t = false \/ t = TImVec t' \/ (exists k, t = TSet k t') \/ t = THeap t' ->
  exists n, forall k, (n <= k)%nat -> failure (walk_with E D d t (visit_items (repeat true k)) (mkSR bs o)) = failure (run (deserialize E d t) bs).
Proof.
  intros E D d t t' bs o HM Ht.
  assert (En : enter E D d t = sm_bind (sr_run (de_len E)) (fun n => sm_ret (d, CSeq t' n))).
  { destruct Ht as [[-> Hr]|[->|[[k ->]| ->]]]; try reflexivity. cbn [enter]. cbn [refused] in Hr. rewrite vec_uses_bulk_iff, Hr. reflexivity. }
  assert (De : failure (run (deserialize E d t) bs) = match run (de_len E) bs with Ok (n, y) => failure (run (rep (N.to_nat n) (deserialize E d t')) y) | Err e => Some (inl e) | Panic p => Some (inr p) end).
  { assert (S : forall (f : list val -> val), failure (run (l <- de_seq E (e_esize E t') (deserialize E d t') ;; Ret (f l)) bs) =
      match run (de_len E) bs with Ok (n, y) => failure (run (rep (N.to_nat n) (deserialize E d t')) y) | Err e => Some (inl e) | Panic p => Some (inr p) end).
    { intros f. rewrite fail_bind_ret. unfold de_seq. rewrite run_bind. destruct (run (de_len E) bs) as [[n y]|e|p]; [|reflexivity..]. apply seq_fail, HM. }
    destruct Ht as [[-> Hr]|[->|[[k ->]| ->]]]; try apply S. unfold deserialize at 1. cbn [de_ty]. cbn [refused] in Hr.
    replace (if e_spec E then bulk_of t' else None) with (@None bk) by (destruct (e_spec E); [destruct (bulk_of t'); [discriminate|reflexivity]|reflexivity]). apply S. }
  rewrite De. unfold walk_with. rewrite En. destruct (run (de_len E) bs) as [[n y]|e|p] eqn:R.
  - exists (S (N.to_nat n)). intros k Hk. unfold sm_bind at 1. rewrite bind_run, R. cbn [sm_ret fst snd]. pose proof (items_fail E D d t' (N.to_nat n) k (mkSR y o) ltac:(lia)) as Q. rewrite N2Nat.id in Q. exact Q.
  - exists 0%nat. intros k _. unfold sm_bind at 1. rewrite bind_run, R. reflexivity.
  - exists 0%nat. intros k _. unfold sm_bind at 1. rewrite bind_run, R. reflexivity.
Qed.
Theorem C66_entries : forall E D d c a b bs o, e_mem E = None ->
  exists n, forall k, (n <= k)%nat -> failure (walk_with E D d (TMap c a b) (visit_entries (repeat (true, true) k)) (mkSR bs o)) = failure (run (deserialize E d (TMap c a b)) bs).
Proof.
  intros E D d c a b bs o HM.
  assert (De : failure (run (deserialize E d (TMap c a b)) bs) = match run (de_len E) bs with Ok (n, y) => failure (run (rep (N.to_nat n) (de_entry (deserialize E d a) (deserialize E d b))) y) | Err e => Some (inl e) | Panic p => Some (inr p) end).
  { unfold deserialize at 1. cbn [de_ty]. rewrite fail_bind_ret. unfold de_seq. rewrite run_bind. destruct (run (de_len E) bs) as [[n y]|e|p]; [|reflexivity..]. apply seq_fail, HM. }
  rewrite De. unfold walk_with. cbn [enter]. destruct (run (de_len E) bs) as [[n y]|e|p] eqn:R.
  - exists (S (N.to_nat n)). intros k Hk. unfold sm_bind at 1. rewrite bind_run, R. cbn [sm_ret fst snd]. pose proof (entries_fail E D d a b (N.to_nat n) k (mkSR y o) ltac:(lia)) as Q. rewrite N2Nat.id in Q. exact Q.
  - exists 0%nat. intros k _. unfold sm_bind at 1. rewrite bind_run, R. reflexivity.
  - exists 0%nat. intros k _. unfold sm_bind at 1. rewrite bind_run, R. reflexivity.
Qed.

(** A struct whose revisions are all legacy, without convert functions, [fixed] or [indexed_*]: decoding its fields one
    by one fails as decoding the struct does. *)
Lemma fields_fail : forall E D d rev tgt fs k i s, Forall (fun f => plain E f /\ field_ok f = true) fs -> Forall (fun f => falive tgt f = true) fs -> rev <= tgt -> (length fs <= k)%nat ->
  failure (act_on E D d (CStruct (SWire rev) i fs) (visit_fields (repeat true k)) s) = failure (run (de_fields E (de_ref E d) false rev tgt fs) (sr_inner s)).
Proof.
  intros E D d rev tgt fs. induction fs as [|f fs IH]; intros k i [bs o] Hf Ha Hr Hk.
  - destruct k; reflexivity.
  - destruct k as [|k]; [cbn [length] in Hk; lia|]. cbn [length] in Hk. inversion Hf as [|? ? [Hp Ho] Hf']; subst. inversion Ha as [|? ? Ht Ha']; subst.
    cbn [repeat visit_fields act_on field_decode de_fields sr_inner]. rewrite Ht, (falive_old rev tgt f Ht Hr).
    destruct (f_start f <=? rev) eqn:Es.
    + assert (M2 : run (de_mode E (de_ref E d) (mode_of false f) (f_ty f)) bs = run (de_mode E (de_ref E d) (mode_opt f) (f_ty f)) bs).
      { destruct Hp as ((Hx & Hi) & Hs). unfold field_ok, mode_legacy in Ho. unfold mode_of, mode_opt, mode_legacy. rewrite Hx, Hi in *. destruct (f_spec f); [|reflexivity].
        apply andb_prop in Ho. destruct Ho as [Ho _]. specialize (Hs eq_refl). destruct (f_ty f); try discriminate. cbn [mode_ok] in Ho. cbn [de_mode de_ty]. rewrite Hs. destruct (bulk_of t); [reflexivity|discriminate]. }
      rewrite run_bind, M2. unfold sm_bind at 1, sm_map at 1. rewrite bind_run. destruct (run (de_mode E (de_ref E d) (mode_opt f) (f_ty f)) bs) as [[v r]|e|p]; [|reflexivity..].
      cbn [sm_ret fst snd]. rewrite failure_map, IH by (assumption || lia). cbn [sr_inner]. rewrite run_bind. destruct (run (de_fields E (de_ref E d) false rev tgt fs) r) as [[q r']|e|p]; reflexivity.
    + rewrite run_bind, run_of_res. unfold sm_bind at 1, sm_map at 1. unfold sm_bind at 1, sm_res. destruct (f_default f rev) as [v|e|p]; [|reflexivity..]. cbn [sm_ret fst snd rmap rbind].
      rewrite failure_map, IH by (assumption || lia). cbn [sr_inner]. rewrite run_bind. destruct (run (de_fields E (de_ref E d) false rev tgt fs) bs) as [[q r']|e|p]; reflexivity.
Qed.
Theorem C66_fields : forall E D d n s fs bs o, wf_env E -> spec_built E -> e_sch E n = Some s -> simple_schema s -> s_body s = SStruct fs ->
  failure (walk_with E D d (TRef n) (visit_fields (repeat true (length fs))) (mkSR bs o)) = failure (run (deserialize E d (TRef n)) bs).
Proof.
  intros E D d n s fs bs o W B Hs [[Hl Hw] Hc] Eb. rewrite Eb in Hw. destruct d as [|d]; [reflexivity|]. unfold walk_with. cbn [enter]. unfold deserialize. cbn [de_ty de_ref]. rewrite Hs.
  unfold sm_bind at 1, sm_map at 1, enter_derived. unfold sm_bind at 1. rewrite bind_run. unfold de_derived. rewrite run_bind.
  destruct (run (de_u16 (e_fw E)) bs) as [[rev y]|e|p]; [|reflexivity..]. rewrite Eb. unfold enter_struct, de_body. rewrite Hc, Eb. cbn [andb].
  destruct (sent s rev) as [h|] eqn:Eh; [|destruct ((rev =? 0) || (scur s <? rev)); reflexivity].
  pose proof (sent_range s rev h Eh) as Hr. replace ((rev =? 0) || (scur s <? rev)) with false by (symmetry; apply orb_false_iff; split; [apply N.eqb_neq|apply N.ltb_ge]; lia).
  rewrite (proj1 (Forall_forall _ _) Hl h (sent_in s rev h Eh)). cbn [sm_ret fst snd].
  pose proof (none_ended s rev Hc Hr) as Hk. rewrite Eb in Hk. destruct (we_sch _ W n s Hs) as (_ & _ & Hok). rewrite Eb in Hok.
  assert (Hp : Forall (fun f => plain E f /\ field_ok f = true) fs).
  { apply Forall_forall. intros f Hf. split; [split|].
    - exact (proj1 (Forall_forall _ _) Hw f Hf).
    - intros Hsp. apply (B n s f Hs); [|exact Hsp]. rewrite Eb. exact Hf.
    - exact (proj1 (forallb_forall _ _) Hok f Hf). }
  rewrite (fields_fail E D d rev (scur s)).
  - cbn [sr_inner]. unfold de_struct_legacy. rewrite run_bind, (fields_filter E d rev (scur s) fs y Hk).
    destruct (run (de_fields E (de_ref E d) false rev (scur s) (filter (falive (scur s)) fs)) y) as [[q r]|e|p] eqn:R; [|reflexivity..].
    rewrite <- (fields_filter E d rev (scur s) fs y Hk) in R. rewrite (fields_none_removed E d false rev (scur s) fs y q r Hk R). reflexivity.
  - apply Forall_forall. intros f Hf. apply filter_In in Hf. apply (proj1 (Forall_forall _ _) Hp), Hf.
  - apply Forall_forall. intros f Hf. apply filter_In in Hf. apply Hf.
  - lia.
  - clear. induction fs as [|f fs IH]; cbn [filter length]; [lia|]. destruct (falive (scur s) f); cbn [length]; lia.
Qed.

(** An enum whose revisions are all legacy, without convert functions, [fixed] or [indexed_*], and without fields added to a
    variant.  A caller that asks for some variants, each unit or with one field, and decodes the one it finds, fails as decoding the enum
    does; or none of them is the one encoded. *)
Definition visit_variants (ks : list N) (w : act) : act := fold_right (fun k w => Is k (DecodeVar k) w) w ks.
Lemma visit_found : forall E D d r s vs k0 w ks st, (forall k, In k ks -> variant_here s vs k <> None) ->
  (forall k, In k ks -> is_variant r s vs k = (k0 =? k)) ->
  act_on E D d (CEnum r s vs) (visit_variants ks w) st = if existsb (fun k => k0 =? k) ks then act_on E D d (CEnum r s vs) (DecodeVar k0) st else act_on E D d (CEnum r s vs) w st.
Proof.
  intros E D d r s vs k0 w ks. induction ks as [|k ks IH]; intros st Hv Hi; [reflexivity|]. cbn [visit_variants fold_right act_on existsb]. fold (visit_variants ks w).
  pose proof (Hv k (or_introl eq_refl)) as Hk. rewrite <- cur_here in Hk. destruct (cur_variant s vs k); [|congruence]. rewrite (Hi k (or_introl eq_refl)). destruct (N.eqb_spec k0 k) as [->|]; [reflexivity|].
  cbn [orb]. apply IH; intros x Hx; [apply Hv|apply Hi]; right; exact Hx.
Qed.
Lemma visit_none : forall E D d r s vs w ks st, (forall k, In k ks -> variant_here s vs k <> None) -> (forall k, In k ks -> is_variant r s vs k = false) ->
  act_on E D d (CEnum r s vs) (visit_variants ks w) st = act_on E D d (CEnum r s vs) w st.
Proof.
  intros E D d r s vs w ks. induction ks as [|k ks IH]; intros st Hv Hi; [reflexivity|]. cbn [visit_variants fold_right act_on]. fold (visit_variants ks w).
  pose proof (Hv k (or_introl eq_refl)) as Hk. rewrite <- cur_here in Hk. destruct (cur_variant s vs k); [|congruence]. rewrite (Hi k (or_introl eq_refl)).
  apply IH; intros x Hx; [apply Hv|apply Hi]; right; exact Hx.
Qed.
Theorem C66_variants : forall E D d n s vs ks w bs o, wf_env E -> spec_built E -> e_sch E n = Some s -> simple_schema s -> s_body s = SEnum vs ->
  (forall k, In k ks -> exists l, variant_here s vs k = Some l /\ (length l <= 1)%nat) ->
  failure (walk_with E D d (TRef n) (visit_variants ks w) (mkSR bs o)) = failure (run (deserialize E d (TRef n)) bs)
  \/ (walk_with E D d (TRef n) (visit_variants ks w) (mkSR bs o) = walk_with E D d (TRef n) w (mkSR bs o)
      /\ (forall k l rest, run (deserialize E d (TRef n)) bs = Ok (VVar k l, rest) -> ~ In k ks)
      /\ ((forall k, variant_here s vs k <> None -> In k ks) -> run (deserialize E d (TRef n)) bs = Err (EDeserialize MUnknownVariant))).
Proof.
  intros E D d n s vs ks w bs o W B Hs [[Hl Hw] Hc] Eb Hks. rewrite Eb in Hw. destruct d as [|d]; [left; reflexivity|].
  assert (Hks' : forall k, In k ks -> variant_here s vs k <> None) by (intros k Hk; destruct (Hks k Hk) as (l & -> & _); discriminate).
  assert (Wk : forall a, walk_with E D (S d) (TRef n) a (mkSR bs o) =
    match run (de_u16 (e_fw E)) bs with
    | Ok (rev, y) => match sent s rev with
        | Some h => match run (de_u32 (e_fw E)) y with Ok (x, z) => act_on E D d (CEnum (EWire rev x) s vs) a (mkSR z o) | Err e => Err e | Panic p => Panic p end
        | None => Err (EDeserialize MInvalidRevision) end
    | Err e => Err e | Panic p => Panic p end).
  { intros a. unfold walk_with. cbn [enter]. rewrite Hs. unfold sm_bind at 1, sm_map, enter_derived. unfold sm_bind at 1. rewrite bind_run.
    destruct (run (de_u16 (e_fw E)) bs) as [[rev y]|e|p]; [|reflexivity..]. rewrite Eb. unfold enter_enum. rewrite Hc. cbn [andb].
    destruct (sent s rev) as [h|] eqn:Eh; [|destruct ((rev =? 0) || (scur s <? rev)); reflexivity].
    pose proof (sent_range s rev h Eh) as Hr. replace ((rev =? 0) || (scur s <? rev)) with false by (symmetry; apply orb_false_iff; split; [apply N.eqb_neq|apply N.ltb_ge]; lia).
    rewrite (proj1 (Forall_forall _ _) Hl h (sent_in s rev h Eh)), bind_run. destruct (run (de_u32 (e_fw E)) y) as [[x z]|e|p]; reflexivity. }
  rewrite !Wk. clear Wk. unfold deserialize. cbn [de_ty de_ref]. rewrite Hs. unfold de_derived. rewrite run_bind.
  destruct (run (de_u16 (e_fw E)) bs) as [[rev y]|e|p]; [|left; reflexivity..]. unfold de_body. rewrite Eb.
  destruct (sent s rev) as [h|] eqn:Eh; [|left; reflexivity]. pose proof (sent_range s rev h Eh) as Hr. rewrite (proj1 (Forall_forall _ _) Hl h (sent_in s rev h Eh)).
  pose proof (we_sch E W n s Hs) as Ws. pose proof Ws as (_ & _ & Ws'). rewrite Eb in Ws'. destruct Ws' as (Hnd & Hok & Ws'). destruct (Ws' rev h Eh) as (ds & Ed & _).
  unfold de_enum_legacy. rewrite Ed, run_bind. destruct (run (de_u32 (e_fw E)) y) as [[x z]|e|p]; [|left; reflexivity..].
  pose proof (calc_disc_fst _ _ _ Ed) as Hfst. pose proof (none_ended s rev Hc Hr) as Hne. rewrite Eb in Hne.
  unfold find_disc. destruct (find (fun p => snd p =? x) ds) as [[vr x']|] eqn:Ef.
  2:{ right. assert (Hno : forall k, is_variant (EWire rev x) s vs k = false).
      { intros k. cbn [is_variant]. unfold disc_of. rewrite Ed. destruct (find_name k ds) as [[v' y']|] eqn:En; [|reflexivity]. apply find_some in En. destruct En as [Hi _].
        pose proof (find_none _ _ Ef _ Hi) as Q. cbn [snd] in Q. rewrite N.eqb_sym. exact Q. }
      split; [|split; [discriminate|reflexivity]]. apply visit_none; [exact Hks'|intros k _; apply Hno]. }
  apply find_some in Ef. destruct Ef as [Hi Hx]. cbn [snd] in Hx. apply N.eqb_eq in Hx. subst x'.
  assert (Hvs : In vr vs /\ valive rev vr = true).
  { assert (Q : In vr (map fst ds)) by (apply in_map_iff; exists (vr, x); auto). rewrite Hfst in Q. apply filter_In in Q. exact Q. }
  destruct Hvs as [Hvs Hva]. pose proof (proj1 (Forall_forall _ _) Hne vr Hvs) as [Hve Hvk].
  assert (Hvc : valive (scur s) vr = true).
  { unfold valive, exists_at in *. rewrite Hve in *. rewrite andb_true_r in *. apply N.leb_le in Hva. apply N.leb_le. lia. }
  pose proof (here_of s vs vr Hnd Hvs Hvc) as Hh.
  assert (Hdec : forall f, filter (falive (scur s)) (v_fields vr) = [f] -> failure (run (de_variant_legacy E (de_ref E d) rev (scur s) vr) z) = failure (run (deserialize E d (f_ty f)) z)).
  { intros f Hf. assert (Hin : In f (v_fields vr) /\ falive (scur s) f = true) by (apply filter_In; rewrite Hf; left; reflexivity). destruct Hin as [Hin Hfa].
    pose proof (proj1 (Forall_forall _ _) (proj1 (Forall_forall _ _) Hw vr Hvs) f Hin) as [[Hx1 Hx2] Hx3]. destruct Hx3 as [Hx3|Hx3]; [congruence|].
    assert (Hst : f_start f <=? rev = true). { unfold valive, exists_at in Hva. apply andb_prop in Hva. destruct Hva as [Hva _]. apply N.leb_le in Hva. apply N.leb_le. lia. }
    unfold de_variant_legacy. rewrite run_bind, (fields_filter E d rev (scur s) (v_fields vr) z Hvk), Hf. cbn [de_fields]. rewrite Hfa, (falive_old rev (scur s) f Hfa (proj2 Hr)), Hst, run_bind.
    assert (M : de_mode E (de_ref E d) (mode_of false f) (f_ty f) = deserialize E d (f_ty f)).
    { assert (Ho : field_ok f = true) by (pose proof (proj1 (Forall_forall _ _) Hok vr Hvs) as Q; exact (proj1 (forallb_forall _ _) Q f Hin)).
      unfold field_ok, mode_legacy in Ho. unfold mode_of, mode_legacy. rewrite Hx1 in *. destruct (f_spec f) eqn:Esp; [|reflexivity].
      apply andb_prop in Ho. destruct Ho as [Ho _]. assert (Hsp : e_spec E = true) by (apply (B n s f Hs); [rewrite Eb; cbn [body_fields]; apply in_flat_map; exists vr; auto|exact Esp]).
      destruct (f_ty f); try discriminate. cbn [mode_ok] in Ho. unfold deserialize. cbn [de_mode de_ty]. rewrite Hsp. destruct (bulk_of t); [reflexivity|discriminate]. }
    rewrite M. destruct (run (deserialize E d (f_ty f)) z) as [[v r]|e|p]; [|reflexivity..]. cbn [run bind fst snd]. rewrite converts_nil, Hvc. reflexivity. }
  rewrite (visit_found E D d (EWire rev x) s vs (v_name vr)); [|exact Hks'|intros k _; apply (disc_is rev s vs ds vr x k Ws Eb Ed Hi)].
  destruct (existsb (fun k => v_name vr =? k) ks) eqn:Ex.
  - left. apply existsb_exists in Ex. destruct Ex as (k & Hk & Hkk). apply N.eqb_eq in Hkk. subst k. destruct (Hks _ Hk) as (l & Hl1 & Hl2). rewrite Hh in Hl1. inversion Hl1; subst l. clear Hl1.
    cbn [act_on]. unfold variant_decode. rewrite cur_here, Hh, (disc_is rev s vs ds vr x _ Ws Eb Ed Hi), N.eqb_refl.
    destruct (filter (falive (scur s)) (v_fields vr)) as [|f [|f' fs']] eqn:Efl; [| |cbn [length] in Hl2; lia].
    + cbn [sm_ret failure]. unfold de_variant_legacy. rewrite run_bind, (fields_filter E d rev (scur s) (v_fields vr) z Hvk), Efl. cbn [de_fields run fst snd]. rewrite converts_nil, Hvc. reflexivity.
    + rewrite failure_map. rewrite (Hdec f eq_refl). rewrite sr_run_run. cbn [sr_inner sr_orig]. unfold with_orig. destruct (run (deserialize E d (f_ty f)) z) as [[v r]|e|p]; reflexivity.
  - right. split; [reflexivity|]. split.
    + intros k l rest Hk Hin. unfold de_variant_legacy in Hk. rewrite run_bind in Hk. destruct (run (de_fields E (de_ref E d) false rev (scur s) (v_fields vr)) z) as [[q r]|e|p]; try discriminate.
      rewrite run_bind, run_of_res, Hvc in Hk. destruct (converts rev (fst q) (snd q)); try discriminate. inversion Hk; subst k.
      assert (existsb (fun k => v_name vr =? k) ks = true) by (apply existsb_exists; exists (v_name vr); split; [exact Hin|apply N.eqb_refl]). congruence.
    + intros Hall. exfalso. assert (Q : In (v_name vr) ks) by (apply Hall; rewrite Hh; discriminate).
      assert (existsb (fun k => v_name vr =? k) ks = true) by (apply existsb_exists; exists (v_name vr); split; [exact Q|apply N.eqb_refl]). congruence.
Qed.

(** The same for an optimised enum, on data of the current revision. *)
Lemma find_tag_find : forall (ds : list (variant * N)) id c, NoDup (map snd ds) ->
  find_tag id c ds = match find (fun p => snd p =? id) ds with Some (v, k) => if match v_size v with Some z => sclass_eqb (class_of z) c | None => false end then Some (v, k) else None | None => None end.
Proof.
  intros ds id c Hn. unfold find_tag. induction ds as [|[v k] ds IH]; [reflexivity|]. cbn [map snd] in Hn. inversion Hn; subst. cbn [find fst snd]. destruct (N.eqb_spec k id) as [->|Hk]; cbn [andb].
  - destruct (match v_size v with Some z => sclass_eqb (class_of z) c | None => false end); [reflexivity|]. clear IH.
    apply find_none_all. intros [v' k'] Hi; cbn [fst snd]; destruct (N.eqb_spec k' id) as [->|]; [exfalso; apply H1; apply in_map_iff; exists (v', id); auto|reflexivity].
  - apply IH. assumption.
Qed.
Lemma vfields_filter : forall E rec cur fs, de_vfields E rec cur fs = de_vfields E rec cur (filter (falive cur) fs).
Proof.
  intros E rec cur fs. induction fs as [|f fs IH]; [reflexivity|]. cbn [de_vfields filter]. destruct (falive cur f) eqn:Ea; [|exact IH]. cbn [de_vfields]. rewrite Ea, IH. reflexivity.
Qed.
Theorem C66_variants_optimised : forall E D d n s vs h ks w bs y o, wf_env E -> e_mem E = None -> e_sch E n = Some s -> s_body s = SEnum vs ->
  sent s (scur s) = Some h -> h_opt h = true -> run (de_u16 (e_fw E)) bs = Ok (scur s, y) ->
  (forall k, In k ks -> exists l, variant_here s vs k = Some l /\ (length l <= 1)%nat) ->
  failure (walk_with E D d (TRef n) (visit_variants ks w) (mkSR bs o)) = failure (run (deserialize E d (TRef n)) bs)
  \/ (walk_with E D d (TRef n) (visit_variants ks w) (mkSR bs o) = walk_with E D d (TRef n) w (mkSR bs o)
      /\ (forall k l rest, run (deserialize E d (TRef n)) bs = Ok (VVar k l, rest) -> ~ In k ks)
      /\ exists k, variant_here s vs k <> None /\ ~ In k ks).
Proof.
  intros E D d n s vs h ks w bs y o W HM Hs Eb Eh Ho Hrev Hks. destruct d as [|d]; [left; reflexivity|].
  assert (Hks' : forall k, In k ks -> variant_here s vs k <> None) by (intros k Hk; destruct (Hks k Hk) as (l & -> & _); discriminate).
  pose proof (we_sch E W n s Hs) as Ws. pose proof Ws as (_ & _ & Ws'). rewrite Eb in Ws'. destruct Ws' as (Hnd & _ & Ws'). destruct (Ws' _ h Eh) as (ds & Ed & _).
  pose proof (calc_disc_nodup _ _ _ Ed) as Hn. pose proof (calc_disc_fst _ _ _ Ed) as Hfst. pose proof (sent_range s _ h Eh) as Hr.
  assert (Hd : run (deserialize E (S d) (TRef n)) bs = run (de_enum_opt E (de_ref E d) (scur s) (scur s) vs) y).
  { unfold deserialize. cbn [de_ty de_ref]. rewrite Hs. unfold de_derived. rewrite run_bind, Hrev. unfold de_body. rewrite Eh, Eb, Ho. reflexivity. }
  unfold de_enum_opt in Hd. rewrite Ed, run_bind in Hd. unfold read_optimised_tag in Hd. rewrite run_bind in Hd.
  assert (Wk : forall a, walk_with E D (S d) (TRef n) a (mkSR bs o) =
    match enter_enum E D d s vs (scur s) (mkSR y o) with Ok (c, st) => act_on E D d c a st | Err e => Err e | Panic p => Panic p end).
  { intros a. unfold walk_with. cbn [enter]. rewrite Hs. unfold sm_bind at 1, sm_map, enter_derived. unfold sm_bind at 1. rewrite bind_run, Hrev, Eb.
    replace ((scur s =? 0) || (scur s <? scur s)) with false by (symmetry; apply orb_false_iff; split; [apply N.eqb_neq|apply N.ltb_ge]; lia).
    unfold sm_bind. destruct (enter_enum E D d s vs (scur s) (mkSR y o)) as [[c st]|e|p]; reflexivity. }
  rewrite !Wk, Hd. clear Wk Hd. remember (enter_enum E D d s vs (scur s) (mkSR y o)) as G eqn:HG. unfold enter_enum in HG. rewrite N.eqb_refl in HG. cbn [negb] in HG. rewrite andb_false_r, Eh, Ho, Ed, bind_run in HG.
  destruct (run read_tag y) as [[tag z]|e|p]; [|subst G; left; reflexivity..].
  rewrite run_bind, run_of_res. unfold sm_bind at 1, sm_res in HG. destruct (size_class tag) as [c|e|p]; [|subst G; left; reflexivity..]. cbn [rmap run fst snd] in *.
  rewrite (find_tag_find ds _ c Hn). unfold class_at in HG. destruct (find (fun p => snd p =? variant_id tag) ds) as [[vr x]|] eqn:Ef; [|subst G; left; reflexivity].
  apply find_some in Ef. destruct Ef as [Hi Hx]. cbn [snd] in Hx. apply N.eqb_eq in Hx. subst x.
  destruct (v_size vr) as [sz|] eqn:Ez; [|subst G; left; reflexivity].
  assert (Sy : sclass_eqb c (class_of sz) = sclass_eqb (class_of sz) c) by (destruct c, (class_of sz); reflexivity). rewrite Sy in HG. destruct (sclass_eqb (class_of sz) c) eqn:Eq; [|subst G; left; reflexivity].
  assert (Hb : forall B (k : bytes -> sm B), sm_bind (match c with
                                | CInline => sm_ret []
                                | CFixed => match nth_error (size_table ds) (N.to_nat (variant_id tag)) with
                                            | Some n => sm_op (sr_borrow n)
                                            | None => sm_panic PSlice
                                            end
                                | CVarlen => sm_bind (sr_run read_varlen_len) (fun n => sm_op (sr_borrow n))
                                end) k (mkSR z o) = match run (variant_buf E (Some sz)) z with Ok (b, u) => k b (mkSR u o) | Err e => Err e | Panic p => Panic p end).
  { intros B k. destruct sz as [|m|]; destruct c; try discriminate Eq; cbn [variant_buf].
    - reflexivity.
    - rewrite (size_table_nth ds vr (variant_id tag) m Hn Hi Ez (variant_id_lt tag)), borrow_run, (alloc_free E HM). reflexivity.
    - unfold sm_bind at 1. rewrite bind_run, run_bind. destruct (run read_varlen_len z) as [[m u]|e|p]; [|reflexivity..]. rewrite (alloc_free E HM).
      pose proof (borrow_run B m k u o) as Q. unfold sm_bind in Q. exact Q. }
  rewrite Hb in HG. clear Hb. unfold de_variant_opt. rewrite run_bind, Ez. destruct (run (variant_buf E (Some sz)) z) as [[b u]|e|p]; [|subst G; left; reflexivity..]. unfold sm_ret in HG. subst G.
  assert (Hvs : In vr vs /\ valive (scur s) vr = true).
  { assert (Q : In vr (map fst ds)) by (apply in_map_iff; exists (vr, variant_id tag); auto). rewrite Hfst in Q. apply filter_In in Q. exact Q. }
  destruct Hvs as [Hvs Hvc]. pose proof (here_of s vs vr Hnd Hvs Hvc) as Hh.
  assert (Hiv : forall k, is_variant (EBorrowed b (variant_id tag)) s vs k = (v_name vr =? k)) by (intros k; exact (disc_is (scur s) s vs ds vr _ k Ws Eb Ed Hi)).
  rewrite (visit_found E D d (EBorrowed b (variant_id tag)) s vs (v_name vr)); [|exact Hks'|intros k _; apply Hiv].
  unfold in_buf. rewrite run_bind, run_of_res, vfields_filter.
  destruct (existsb (fun k => v_name vr =? k) ks) eqn:Ex.
  - left. apply existsb_exists in Ex. destruct Ex as (k & Hk & Hkk). apply N.eqb_eq in Hkk. subst k. destruct (Hks _ Hk) as (l & Hl1 & Hl2). rewrite Hh in Hl1. inversion Hl1; subst l. clear Hl1.
    cbn [act_on]. unfold variant_decode. rewrite cur_here, Hh, Hiv, N.eqb_refl.
    destruct (filter (falive (scur s)) (v_fields vr)) as [|f [|f' fs']] eqn:Efl; [| |cbn [length] in Hl2; lia].
    + cbn [de_vfields run rmap fst]. rewrite Hvc. reflexivity.
    + assert (Hfa : falive (scur s) f = true) by (assert (Q : In f (filter (falive (scur s)) (v_fields vr))) by (rewrite Efl; left; reflexivity); apply filter_In in Q; apply Q).
      cbn [de_vfields variant_slice slice_depth]. rewrite Hfa, run_bind, Hvc. unfold sm_bind at 1, sm_ret at 1. rewrite failure_map. unfold on_slice. cbn [split_at]. rewrite split_at_0. unfold sm_res.
      unfold deserialize. destruct (run (de_ty E (de_ref E d) (f_ty f)) b) as [[v r]|e|p]; reflexivity.
  - right. split; [reflexivity|]. split.
    + intros k l rest Hk Hin. rewrite Hvc in Hk. destruct (rmap fst (run (de_vfields E (de_ref E d) (scur s) (filter (falive (scur s)) (v_fields vr))) b)); try discriminate. inversion Hk; subst k.
      assert (existsb (fun k => v_name vr =? k) ks = true) by (apply existsb_exists; exists (v_name vr); split; [exact Hin|apply N.eqb_refl]). congruence.
    + exists (v_name vr). split; [rewrite Hh; discriminate|]. intros Hin.
      assert (existsb (fun k => v_name vr =? k) ks = true) by (apply existsb_exists; exists (v_name vr); split; [exact Hin|apply N.eqb_refl]). congruence.
Qed.

(** ** Where they differ *)
(** An error inside a Result: the walker hands it through, the decoder replaces it. *)
Theorem C66_result_error_refuted : exists bs e,
  walk_with new 5 5%nat (TResult TBool TBool) Decode (mkSR bs (len bs)) = Err e /\ run (deserialize new 5%nat (TResult TBool TBool)) bs <> Err e.
Proof. exists [0; 7], (EInvalidBool 7). split; [vm_compute; reflexivity|vm_compute; discriminate]. Qed.
(** The walker of an optimised struct that is not indexed passes over the declared length of the payload: it accepts a
    length that the decoder rejects, reading beyond the payload, and after a payload that is longer than the fields it leaves the reader inside. *)
Definition pair_sch (n : N) : option schema := if n =? 0 then Some (mkSchema [mkHent true false] (SStruct [fld TBool 1 None; fld TBool 1 None])) else None.
Definition pair_env := ex_env pair_sch.
Lemma pair_wf : wf_env pair_env.
Proof. apply wf_ex. intros n s H. unfold pair_sch in H. destruct (n =? 0); [|discriminate]. inversion H; subst s. apply wf_schemab_ok. vm_compute. reflexivity. Qed.
Theorem C66_envelope_refuted :
  (exists bs, failure (run (deserialize pair_env 5%nat (TRef 0)) bs) <> None /\
     failure (walk_with pair_env 5 5%nat (TRef 0) (visit_fields [true; true]) (mkSR bs (len bs))) = None)
  /\ (exists bs s x v, run (deserialize pair_env 5%nat (TRef 0)) bs = Ok (v, []) /\
     walk_with pair_env 5 5%nat (TRef 0) (visit_fields [true; true]) (mkSR bs (len bs)) = Ok (x, s) /\ sr_remaining s <> []).
Proof.
  split.
  - exists [1; 1; 0; 0; 0; 1; 0]. split; vm_compute; [discriminate|reflexivity].
  - exists [1; 3; 0; 0; 0; 1; 0; 9]. eexists _, _, _. split; [vm_compute; reflexivity|]. split; [vm_compute; reflexivity|]. vm_compute. discriminate.
Qed.

(** ** Examples *)
(** Truncated, mistyped and unknown-revision data of walkable types. *)
Example C66_open_ex :
  enter new 5 5%nat (TOption TBool) (mkSR [7] 1) = Err (EDeserialize MBadOption) /\ refused new (TOption TBool) = false
  /\ enter new 5 5%nat (TVec TStr) (mkSR [253; 1] 2) = Err EIo /\ enter new 5 5%nat (TRef 2) (mkSR [9; 0] 2) = Err (EDeserialize MInvalidRevision).
Proof. repeat split; vm_compute; reflexivity. Qed.
Example C66_items_ex : e_mem new = None /\ refused new (TVec TStr) = false
  /\ failure (walk_with new 5 5%nat (TVec TStr) (visit_items (repeat true 3)) (mkSR [2; 1; 65; 1; 255] 5)) = Some (inl EUtf8)
  /\ failure (run (deserialize new 5%nat (TVec TStr)) [2; 1; 65; 1; 255]) = Some (inl EUtf8).
Proof. repeat split; vm_compute; reflexivity. Qed.
Definition point_sch (n : N) : option schema := if n =? 0 then Some (mkSchema [mkHent false false; mkHent false false] (SStruct [fld TBool 1 None; mkField TStr 2 None (dflt (VBytes [])) keep false false INone])) else None.
Definition point_env := ex_env point_sch.
Example C66_fields_ex : wf_env point_env /\ spec_built point_env /\ (exists s fs, e_sch point_env 0 = Some s /\ simple_schema s /\ s_body s = SStruct fs /\ length fs = 2%nat)
  /\ failure (walk_with point_env 5 5%nat (TRef 0) (visit_fields [true; true]) (mkSR [2; 1; 2; 65] 4)) = Some (inl EIo)
  /\ failure (walk_with point_env 5 5%nat (TRef 0) (visit_fields [true; true]) (mkSR [1; 3; 2; 65] 4)) = Some (inl (EInvalidBool 3))
  /\ failure (walk_with point_env 5 5%nat (TRef 0) (visit_fields [true; true]) (mkSR [1; 1] 2)) = None.
Proof.
  split; [|split; [|split]].
  - apply wf_ex. intros n s H. unfold point_sch in H. destruct (n =? 0); [|discriminate]. inversion H; subst s. apply wf_schemab_ok. vm_compute. reflexivity.
  - intros n s f H _ _. reflexivity.
  - eexists _, _. split; [reflexivity|]. split; [|split; reflexivity]. split; [|reflexivity]. split; repeat constructor.
  - repeat split; vm_compute; reflexivity.
Qed.

Definition choice_sch (n : N) : option schema :=
  if n =? 0 then Some (mkSchema [mkHent false false; mkHent false false]
    (SEnum [var 0 1 None None []; var 1 1 None None [fld TStr 1 None]; var 2 2 None None [fld (TInt U32) 1 None; fld (TInt U32) 1 None]]))
  else if n =? 1 then Some (mkSchema [mkHent true false] (SEnum [var 0 1 None (Some SInline) []; var 1 1 None (Some SVarlen) [fld TStr 1 None]]))
  else None.
Definition choice_env := ex_env choice_sch.
Definition choice_vs (n : N) : list variant := match choice_sch n with Some s => match s_body s with SEnum vs => vs | _ => [] end | None => [] end.
(** Bad UTF-8 inside a variant that is asked for, a variant that is not, and a discriminant of no variant. *)
Example C66_variants_ex : wf_env choice_env /\ spec_built choice_env /\ (exists s, e_sch choice_env 0 = Some s /\ simple_schema s /\ s_body s = SEnum (choice_vs 0)
    /\ (forall k, In k [0; 1] -> exists l, variant_here s (choice_vs 0) k = Some l /\ (length l <= 1)%nat))
  /\ failure (walk_with choice_env 5 5%nat (TRef 0) (visit_variants [0; 1] Skip) (mkSR [2; 1; 1; 255] 4)) = Some (inl EUtf8)
  /\ failure (walk_with choice_env 5 5%nat (TRef 0) (visit_variants [0; 1] Skip) (mkSR [1; 1; 3; 65] 4)) = Some (inl EIo)
  /\ failure (run (deserialize choice_env 5%nat (TRef 0)) [2; 2; 7]) = Some (inl EIo)
  /\ failure (run (deserialize choice_env 5%nat (TRef 0)) [2; 9]) = Some (inl (EDeserialize MUnknownVariant)).
Proof.
  split; [|split; [|split]].
  - apply wf_ex. intros n s H. unfold choice_sch in H. destruct (n =? 0); [|destruct (n =? 1); [|discriminate]]; inversion H; subst s; apply wf_schemab_ok; vm_compute; reflexivity.
  - intros n s f H _ _. reflexivity.
  - eexists. split; [reflexivity|]. split; [|split; [reflexivity|]].
    + split; [|reflexivity]. split; repeat (constructor; try (right; vm_compute; discriminate)).
    + intros k [<-|[<-|[]]]; eexists; (split; [reflexivity|]); cbn; auto.
  - repeat split; vm_compute; reflexivity.
Qed.
Example C66_variants_optimised_ex : e_mem choice_env = None /\ (exists s h, e_sch choice_env 1 = Some s /\ s_body s = SEnum (choice_vs 1) /\ sent s (scur s) = Some h /\ h_opt h = true
    /\ run (de_u16 (e_fw choice_env)) [1; 65; 2; 0; 0; 0; 1; 255] = Ok (scur s, [65; 2; 0; 0; 0; 1; 255])
    /\ (forall k, In k [0; 1] -> exists l, variant_here s (choice_vs 1) k = Some l /\ (length l <= 1)%nat))
  /\ failure (walk_with choice_env 5 5%nat (TRef 1) (visit_variants [0; 1] Skip) (mkSR [1; 65; 2; 0; 0; 0; 1; 255] 8)) = Some (inl EUtf8)
  /\ failure (run (deserialize choice_env 5%nat (TRef 1)) [1; 65; 2; 0; 0; 0; 1; 255]) = Some (inl EUtf8).
Proof.
  split; [reflexivity|]. split; [|split; vm_compute; reflexivity].
  eexists _, _. split; [reflexivity|]. split; [reflexivity|]. split; [reflexivity|]. split; [reflexivity|]. split; [vm_compute; reflexivity|].
  intros k [<-|[<-|[]]]; eexists; (split; [reflexivity|]); cbn; auto.
Qed.

Print Assumptions C66_open_error.
Print Assumptions C66_option.
Print Assumptions C66_result.
Print Assumptions C66_items.
Print Assumptions C66_entries.
Print Assumptions C66_fields.
Print Assumptions C66_result_error_refuted.
Print Assumptions C66_envelope_refuted.
Print Assumptions C66_variants.
Print Assumptions C66_variants_optimised.
