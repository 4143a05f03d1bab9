(** C84: later programs skip what earlier programs skip. *)

From Verif Require Import Base BaseL Prog ProgL Prim Utf8 Tag Ty Ser De Typed Mig Evol EvolL RtL RtTy RtId Agree Spec Cross Ex SliceReader Skip SkipIdx SkipL SkipFormL PropWire PropMig PropSkip WalkRef.
From Coq Require Import List NArith ZArith Bool Lia Relations.
Import ListNotations.
Open Scope N_scope.

(** No derived type inside. *)
Fixpoint underived (t : ty) : bool :=
  match t with
  | TRef _ => false
  | TVec a | TImVec a | TArray _ a | TOption a | TBound a | TSet _ a | THeap a | TWrap a | TExt _ _ a => underived a
  | TPair a b | TResult a b | TMap _ a b => underived a && underived b
  | _ => true
  end.
(** The types of other crates that are skipped by decoding them are not made of derived types. *)
Fixpoint foreign_mirrors (t : ty) : bool :=
  match t with
  | TVec a | TImVec a | TArray _ a | TOption a | TBound a | TSet _ a | THeap a | TWrap a => foreign_mirrors a
  | TPair a b | TResult a b | TMap _ a b => foreign_mirrors a && foreign_mirrors b
  | TExt _ mirror a => if mirror then underived a else foreign_mirrors a
  | _ => true
  end.
Definition program_mirrors (E : env) : Prop :=
  forall n s f, e_sch E n = Some s -> In f (body_fields (s_body s)) -> foreign_mirrors (f_ty f) = true.

(** [q] gives what [p] gives whenever [p] succeeds. *)
Definition fits {A} (p q : prog A) : Prop := forall bs a r, run p bs = Ok (a, r) -> run q bs = Ok (a, r).
Lemma fits_refl : forall A (p : prog A), fits p p.
Proof. intros A p bs a r H. exact H. Qed.
Lemma fits_bind : forall A B (p q : prog A) (f g : A -> prog B), fits p q -> (forall a, fits (f a) (g a)) -> fits (bind p f) (bind q g).
Proof.
  intros A B p q f g Hp Hf bs b r H. rewrite run_bind in *. destruct (run p bs) as [[a x]| |] eqn:Ep; try discriminate.
  rewrite (Hp _ _ _ Ep). apply Hf, H.
Qed.
Lemma fits_rep : forall A n (p q : prog A), fits p q -> fits (rep_ n p) (rep_ n q).
Proof. intros A n p q H. induction n; cbn [rep_]; [apply fits_refl|]. apply fits_bind; [exact H|intros; exact IHn]. Qed.

Lemma underived_same : forall E E' rec rec', e_fw E = e_fw E' -> e_spec E = e_spec E' -> e_ub E = e_ub E' -> e_mem E = None -> e_mem E' = None -> same_libraries E E' ->
  forall t, underived t = true -> de_ty E rec t = de_ty E' rec' t.
Proof.
  intros E E' rec rec' H1 H2 H3 H4 H5 (H6 & H7 & H8 & H9). destruct E, E'. cbn in H1, H2, H3, H4, H5, H6, H7, H8, H9. subst.
  induction t; cbn [underived]; intros Hu; try discriminate Hu; try (apply andb_prop in Hu; destruct Hu as [Hu1 Hu2]); cbn [de_ty];
    try (rewrite IHt by exact Hu); try (rewrite IHt1, IHt2 by assumption); reflexivity.
Qed.

Section F.
Variables E E' : env.
Hypothesis Hfw : e_fw E = e_fw E'.
Hypothesis Hspec : e_spec E = e_spec E'.
Hypothesis Hub : e_ub E = e_ub E'.
Hypothesis Hm : e_mem E = None.
Hypothesis Hm' : e_mem E' = None.
Hypothesis Hlib : same_libraries E E'.
Section R.
Variables rec rec' : N -> prog unit.
Variables drec drec' : N -> prog val.
Hypothesis Hrec : forall n, fits (rec n) (rec' n).
Lemma same_len : de_len E = de_len E'.
Proof. unfold de_len. rewrite Hfw, Hub. reflexivity. Qed.
Lemma fits_seq : forall p q, fits p q -> fits (sk_seq E p) (sk_seq E' q).
Proof. intros p q H. unfold sk_seq. rewrite same_len. apply fits_bind; [apply fits_refl|]. intros n. apply fits_rep, H. Qed.
Lemma fits_ty : forall t, foreign_mirrors t = true -> fits (sk_ty E rec drec t) (sk_ty E' rec' drec' t).
Proof.
  pose proof (underived_same E E' drec drec' Hfw Hspec Hub Hm Hm' Hlib) as Hu.
  induction t; cbn [foreign_mirrors]; intros Hf; try (apply andb_prop in Hf; destruct Hf as [Hf1 Hf2]); cbn [sk_ty];
    try (rewrite Hu by reflexivity); try apply fits_refl.
  - unfold sk_blob. rewrite same_len. apply fits_refl.
  - unfold sk_blob. rewrite same_len. apply fits_refl.
  - apply fits_bind; [auto|intros; auto].
  - rewrite Hspec. destruct (if e_spec E' then bulk_of t else None) as [k|]; [|apply fits_seq; auto].
    unfold sk_bulk. rewrite same_len, Hub. apply fits_refl.
  - apply fits_seq; auto.
  - apply fits_rep; auto.
  - apply fits_bind; [apply fits_refl|]. intros b. destruct (b =? 0); [apply fits_refl|]. destruct (b =? 1); [auto|apply fits_refl].
  - rewrite Hfw. apply fits_bind; [apply fits_refl|]. intros b. destruct (b =? 0); [auto|]. destruct (b =? 1); [auto|apply fits_refl].
  - rewrite Hfw. apply fits_bind; [apply fits_refl|]. intros b. destruct (b =? 0); [apply fits_refl|]. destruct (b =? 1); [auto|]. destruct (b =? 2); [auto|apply fits_refl].
  - apply fits_seq, fits_bind; [auto|intros; auto].
  - apply fits_seq; auto.
  - apply fits_seq; auto.
  - auto.
  - rewrite (Hu (TInt U32)) by reflexivity. apply fits_refl.
  - destruct mirror; [|auto]. rewrite (Hu (TExt c true t)) by exact Hf. apply fits_refl.
  - apply Hrec.
Qed.

Lemma fits_fields : forall r fs fs', edit_fields r fs fs' -> Forall (fun f => foreign_mirrors (f_ty f) = true) fs ->
  fits (sk_fields E rec drec r fs) (sk_fields E' rec' drec' r fs').
Proof.
  intros r fs fs' H. induction H as [|f f' fs fs' Hf Hfs IH|f' fs fs' Hf Hfs IH]; intros Hall; cbn [sk_fields].
  - apply fits_refl.
  - inversion Hall; subst. replace (falive r f') with (falive r f).
    + destruct Hf as (H1' & _ & H3' & _). rewrite H1', H3'. destruct (falive r f); [|auto]. apply fits_bind; [|intros; auto].
      destruct (f_fixed f); [apply fits_refl|apply fits_ty; assumption].
    + destruct Hf as (_ & Hs & _ & _ & _ & He). unfold falive. rewrite Hs. symmetry. eapply exists_at_end; [exact He|lia].
  - unfold falive. rewrite exists_at_new by assumption. auto.
Qed.
End R.

Lemma edit_end_less : forall r r' e e', r <= r' -> edit_end r' e e' -> edit_end r e e'.
Proof. intros r r' e e' H [->|(-> & x & -> & Hx)]; [left; reflexivity|]. right. split; [reflexivity|]. exists x. split; [reflexivity|lia]. Qed.
Lemma edit_fields_less : forall r r' fs fs', r <= r' -> edit_fields r' fs fs' -> edit_fields r fs fs'.
Proof.
  intros r r' fs fs' Hr H. induction H as [|f f' fs fs' Hf Hfs IH|f' fs fs' Hf Hfs IH].
  - constructor.
  - apply ef_keep; [|exact IH]. destruct Hf as (A1 & A2 & A3 & A4 & A5 & A6). repeat split; auto. eapply edit_end_less; eauto.
  - apply ef_add; [lia|exact IH].
Qed.
Lemma edit_variants_less : forall r r' fs fs', r <= r' -> edit_variants r' fs fs' -> edit_variants r fs fs'.
Proof.
  intros r r' fs fs' Hr H. induction H as [|f f' fs fs' Hf Hfs IH|f' fs fs' Hf Hfs IH].
  - constructor.
  - apply ev_keep; [|exact IH]. destruct Hf as (A1 & A2 & A3 & A4 & A5 & A6). repeat split; auto.
    + intros x Hx. apply A4. lia.
    + eapply edit_end_less; eauto.
    + eapply edit_fields_less; eauto.
  - apply ev_add; [lia|exact IH].
Qed.
Lemma find_disc_same : forall r x ds ds', Forall2 (fun p p' => edit_variant r (fst p) (fst p') /\ snd p = snd p') ds ds' ->
  match find_disc x ds, find_disc x ds' with
  | Some p, Some p' => edit_variant r (fst p) (fst p') /\ In p ds
  | None, None => True
  | _, _ => False
  end.
Proof.
  intros r x ds ds' H. unfold find_disc. induction H as [|p p' ds ds' [H1 H2] H IH]; [exact I|]. cbn [find]. rewrite <- H2.
  destruct (snd p =? x); [split; [exact H1|left; reflexivity]|]. destruct (find _ ds), (find _ ds'); try contradiction; auto.
  destruct IH as [I1 I2]. split; [exact I1|right; exact I2].
Qed.
Lemma size_table_same : forall r ds ds', Forall2 (fun p p' => edit_variant r (fst p) (fst p') /\ snd p = snd p') ds ds' ->
  Forall (fun p => v_size (fst p) <> None) ds -> size_table ds' = size_table ds.
Proof.
  intros r ds ds' H Hs. unfold size_table. generalize (repeat 0 32). revert Hs. induction H as [|p p' ds ds' [H1 H2] H IH]; intros Hs arr; [reflexivity|].
  inversion Hs; subst. cbn [fold_left]. destruct H1 as (_ & _ & [Hz|Hz] & _); [contradiction|]. rewrite Hz, H2. apply IH; assumption.
Qed.
Hypothesis W : forall n s, e_sch E n = Some s -> wf_schema s.
Hypothesis Hsch : forall n s, e_sch E n = Some s -> exists s', e_sch E' n = Some s' /\ edit_schema s s'.
Hypothesis Hmir : program_mirrors E.

Lemma fits_ref : forall d d' n, (d <= d')%nat -> fits (sk_ref E d n) (sk_ref E' d' n).
Proof.
  induction d as [|d IH]; intros d' n Hd; [intros bs a r H; discriminate H|]. destruct d' as [|d']; [lia|]. cbn [sk_ref].
  destruct (e_sch E n) as [s|] eqn:Es; [|intros bs a r H; discriminate H]. destruct (Hsch n s Es) as (s' & Es' & (more & Hmore) & Hbody). rewrite Es'.
  assert (Hrec : forall n, fits (sk_ref E d n) (sk_ref E' d' n)) by (intros; apply IH; lia).
  unfold sk_derived. rewrite Hfw. apply fits_bind; [apply fits_refl|]. intros r. unfold sk_body.
  destruct (sent s r) as [h|] eqn:Eh; [|intros bs a x H; discriminate H]. rewrite (sent_app s s' more r h Hmore Eh).
  assert (Hr : r <= scur s).
  { unfold sent in Eh. destruct (N.eqb_spec r 0); [discriminate|]. assert (Hl : (N.to_nat (r - 1) < length (s_hist s))%nat) by (apply nth_error_Some; congruence). unfold scur, len. lia. }
  pose proof (W n s Es) as (_ & _ & Wb). unfold edit_body in Hbody. pose proof (fun f => Hmir n s f Es) as Hf. unfold body_fields in Hf.
  destruct (s_body s) as [fs|vs], (s_body s') as [fs'|vs']; try contradiction.
  - destruct (h_opt h); [apply fits_refl|]. apply fits_fields; [exact Hrec|eapply edit_fields_less; eauto|apply Forall_forall; exact Hf].
  - apply (edit_variants_less r) in Hbody; [|exact Hr]. destruct Wb as (_ & _ & Wr). destruct (Wr _ _ Eh) as (ds & Ed & _ & Hopt).
    assert (Hin : forall p, In p ds -> In (fst p) vs).
    { intros p Hp. pose proof (in_map fst _ _ Hp) as Hi. rewrite (DiscL.calc_disc_fst _ _ _ Ed) in Hi. apply filter_In in Hi. apply Hi. }
    assert (Hds : exists ds', calc_disc r vs' = Some ds' /\ Forall2 (fun p p' => edit_variant r (fst p) (fst p') /\ snd p = snd p') ds ds').
    { unfold calc_disc in *. pose proof (edit_gather _ _ _ Hbody []) as Hg. destruct (gather r vs []) as [u|]; [|discriminate]. rewrite Hg.
      injection Ed as <-. eexists. split; [reflexivity|]. apply edit_assign, Hbody. }
    destruct Hds as (ds' & Ed' & H2). destruct (h_opt h).
    + unfold sk_enum_opt. rewrite Ed, Ed'. apply fits_bind; [apply fits_refl|]. intros t. apply fits_bind; [apply fits_refl|]. intros c.
      rewrite (size_table_same r ds ds' H2); [apply fits_refl|]. specialize (Hopt eq_refl). apply Forall_forall. intros p Hp Hz.
      rewrite forallb_forall in Hopt. specialize (Hopt p Hp). unfold opt_variant_ok in Hopt. rewrite Hz, andb_false_r in Hopt. discriminate.
    + unfold sk_enum_legacy. rewrite Ed, Ed', Hfw. apply fits_bind; [apply fits_refl|]. intros x. pose proof (find_disc_same r x ds ds' H2) as Hfd.
      destruct (find_disc x ds) as [[v y]|]; destruct (find_disc x ds') as [[v' y']|]; try contradiction; [|intros bs a z H; discriminate H].
      cbn [fst] in Hfd. destruct Hfd as [(_ & _ & _ & _ & _ & Hv) Hp]. apply fits_fields; [exact Hrec|exact Hv|].
      apply Forall_forall. intros f Hff. apply Hf. apply in_flat_map. exists v. split; [exact (Hin _ Hp)|exact Hff].
Qed.
Lemma fits_skip : forall d d' t, (d <= d')%nat -> foreign_mirrors t = true -> fits (skip E d t) (skip E' d' t).
Proof. intros d d' t Hd Ht. apply fits_ty; [|exact Ht]. intros n. apply fits_ref, Hd. Qed.
End F.

(** ** C84 *)

(** Whatever bytes a program can skip, every later version of it skips in the same way, with at least as much
    stack.  Nothing is assumed of defaults and convert functions, nor of optimised revisions. *)
Theorem C84_later_skips : forall E E' d d' t bs rest,
  wf_env E -> later E E' -> same_libraries E E' -> program_mirrors E -> foreign_mirrors t = true -> (d <= d')%nat ->
  run (skip E d t) bs = Ok (tt, rest) -> or_oom E' (run (skip E' d' t) bs) (Ok (tt, rest)).
Proof.
  intros E E' d d' t bs rest W L S P Ht Hd H. apply edit_program_star in L. destruct L as (L1 & L2 & L3 & L4).
  destruct (mem_skip E d t bs) as [Hs|(p0 & _ & Hs)]; [|rewrite H in Hs; discriminate Hs].
  assert (H' : run (skip (set_mem None E') d' t) bs = Ok (tt, rest)).
  { apply (fits_skip (set_mem None E) (set_mem None E') L1 L2 L3 eq_refl eq_refl S (we_sch E W) L4 P d d' t Hd Ht). rewrite <- Hs. exact H. }
  destruct (mem_skip E' d' t bs) as [Hs'|(p & <- & Hs')]; [left; rewrite Hs'; exact H'|].
  destruct (e_mem E') as [m|] eqn:Em; [right; split; [congruence|exact Hs']|].
  left. replace (set_mem None E') with E' in H' by (destruct E'; cbn in Em; subst; reflexivity). exact H'.
Qed.

(** In particular what the earlier version wrote. *)
Theorem C84_old_data : forall E E' d d' t v b rest,
  wf_env E -> sizes_honest E -> spec_built E -> later E E' -> same_libraries E E' -> program_mirrors E -> foreign_mirrors t = true ->
  wt E d t v -> (d <= d')%nat -> to_vec E d t v = Ok b -> len (b ++ rest) < 2 ^ e_ub E ->
  or_oom E' (run (skip E' d' t) (b ++ rest)) (Ok (tt, rest)).
Proof.
  intros E E' d d' t v b rest W Hh SB L S P Ht Hw Hd Hs Hl. apply edit_program_star in L.
  pose proof (same0 E d d t v b rest W Hh Hw (le_n d) Hs) as Hde.
  apply (C84_later_skips (set_mem None E) E' d d' t (b ++ rest) rest (wf_set_mem _ _ W)); auto.
  - apply rt_step. exact L.
  - apply (cov_skip (set_mem None E) d t SB (b ++ rest) v rest Hl Hde).
Qed.
(** The same from a slice: the number of bytes to jump over. *)
Theorem C84_old_slice : forall E E' d d' t v b rest,
  wf_env E -> sizes_honest E -> spec_built E -> later E E' -> same_libraries E E' -> program_mirrors E -> foreign_mirrors t = true ->
  wt E d t v -> (d <= d')%nat -> to_vec E d t v = Ok b -> len (b ++ rest) < 2 ^ e_ub E -> e_mem E' = None ->
  skip_slice E' d' t (b ++ rest) = Ok (len b).
Proof.
  intros E E' d d' t v b rest W Hh SB L S P Ht Hw Hd Hs Hl Hm. apply C13_skip_slice. exists rest. split; [|apply len_app].
  destruct (C84_old_data E E' d d' t v b rest W Hh SB L S P Ht Hw Hd Hs Hl) as [H|[H _]]; [exact H|contradiction].
Qed.

(** A text, replaced in revision 2 by a number, with a convert function that refuses: the later program cannot read
    the data, and skips it. *)
Definition l_old : schema := mkSchema [leg] (SStruct [fld TStr 1 None; fld (TExt 0 true TStr) 1 None]).
Definition l_new : schema := mkSchema [leg; opt]
  (SStruct [with_convert (fun _ _ _ => Err (EConversion (MOther 0))) (fld TStr 1 (Some 2)); fld (TExt 0 true TStr) 1 None;
            mkField (TInt U32) 2 None (fun _ => Ok (VInt 0)) keep false false INone]).
Definition l_val : val := VSeq [a_str [120]; a_str [97]].
Definition l_bytes : bytes := [1; 1; 120; 1; 97].
Example C84_case : wf_env (only l_old) /\ later (only l_old) (only l_new) /\ same_libraries (only l_old) (only l_new)
  /\ program_mirrors (only l_old) /\ spec_built (only l_old) /\ sizes_honest (only l_old)
  /\ wt (only l_old) 1 (TRef 1) l_val /\ to_vec (only l_old) 1 (TRef 1) l_val = Ok l_bytes
  /\ run (deserialize (only l_new) 1 (TRef 1)) (l_bytes ++ [7]) = Err (EConversion (MOther 0))
  /\ run (skip (only l_new) 1 (TRef 1)) (l_bytes ++ [7]) = Ok (tt, [7]).
Proof.
  split; [apply wf_only; vm_compute; reflexivity|]. split.
  { apply rt_step. repeat split. intros n t Hn. cbn in Hn |- *. destruct (n =? 1); [|discriminate]. inversion Hn; subst. eexists. split; [reflexivity|].
    split; [exists [opt]; reflexivity|]. apply ef_keep; [|apply ef_keep; [|apply ef_add; [vm_compute; reflexivity|constructor]]].
    - repeat split. right. split; [reflexivity|]. exists 2. split; [reflexivity|]. vm_compute. reflexivity.
    - repeat split. left. reflexivity. }
  split; [repeat split|]. split.
  { intros n s f Hs Hf. cbn in Hs. destruct (n =? 1); [|discriminate]. inversion Hs; subst. destruct Hf as [<-|[<-|[]]]; reflexivity. }
  split; [intros n s f _ _ _; reflexivity|]. split; [left; reflexivity|].
  split; [apply wtb_ok; vm_compute; reflexivity|]. repeat split; vm_compute; reflexivity.
Qed.

Print Assumptions C84_later_skips.
Print Assumptions C84_old_data.
Print Assumptions C84_old_slice.
