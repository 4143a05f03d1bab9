(** C53: an older program skipping what a newer one wrote. *)

From Verif Require Import Base BaseL Prog ProgL Prim Utf8 Tag Ty Ser De Typed Mig Parts Evol EvolL RtL RtTy RtId Agree Spec Cross Ex SliceReader Skip SkipIdx SkipL SkipFormL PropWire PropMig PropSkip PropRoll WalkRef PropLater.
From Coq Require Import List NArith ZArith Bool Lia Relations.
Import ListNotations.
Open Scope N_scope.

Notation unknown := (EDeserialize MInvalidRevision).
(** [q] gives what [p] gives whenever [p] succeeds, or meets a revision it does not know. *)
Definition back {A} (p q : prog A) : Prop := forall bs a r, run p bs = Ok (a, r) -> run q bs = Ok (a, r) \/ run q bs = Err unknown.
Lemma back_refl : forall A (p : prog A), back p p.
Proof. intros A p bs a r H. left. exact H. Qed.
Lemma back_bind : forall A B (p q : prog A) (f g : A -> prog B), back p q -> (forall a, back (f a) (g a)) -> back (bind p f) (bind q g).
Proof.
  intros A B p q f g Hp Hf bs b r H. rewrite run_bind in *. destruct (run p bs) as [[a x]| |] eqn:Ep; try discriminate.
  destruct (Hp _ _ _ Ep) as [-> | ->]; [apply Hf, H|right; reflexivity].
Qed.
Lemma back_rep : forall A n (p q : prog A), back p q -> back (rep_ n p) (rep_ n q).
Proof. intros A n p q H. induction n; cbn [rep_]; [apply back_refl|]. apply back_bind; [exact H|intros; exact IHn]. Qed.

Section B.
(** [E]: new, [E']: old. *)
Variables E E' : env.
Hypothesis Hfw : e_fw E = e_fw E'.
Hypothesis Hspec : e_spec E = e_spec E'.
Hypothesis Hub : e_ub E = e_ub E'.
Hypothesis Hm : e_mem E = None.
Hypothesis Hm' : e_mem E' = None.
Hypothesis Hlib : same_libraries E E'.
Section R.
Variables rec rec' : N -> prog unit.
Variables drec drec' : N -> prog val.
Hypothesis Hrec : forall n, declared E' (TRef n) = true -> back (rec n) (rec' n).
Lemma back_seq : forall p q, back p q -> back (sk_seq E p) (sk_seq E' q).
Proof. intros p q H. unfold sk_seq. rewrite (same_len E E' Hfw Hub). apply back_bind; [apply back_refl|]. intros n. apply back_rep, H. Qed.
Lemma back_ty : forall t, ty_all (declared E') t = true -> foreign_mirrors t = true -> back (sk_ty E rec drec t) (sk_ty E' rec' drec' t).
Proof.
  pose proof (underived_same E E' drec drec' Hfw Hspec Hub Hm Hm' Hlib) as Hu. pose proof (same_len E E' Hfw Hub) as Hn.
  induction t; cbn [foreign_mirrors ty_all]; intros Hc Hf; apply andb_prop in Hc; destruct Hc as [Hc0 Hc];
    try (apply andb_prop in Hf; destruct Hf as [Hf1 Hf2]); try (apply andb_prop in Hc; destruct Hc as [Hc1 Hc2]); cbn [sk_ty];
    try (rewrite Hu by reflexivity); try apply back_refl.
  - unfold sk_blob. rewrite Hn. apply back_refl.
  - unfold sk_blob. rewrite Hn. apply back_refl.
  - apply back_bind; [auto|intros; auto].
  - rewrite Hspec. destruct (if e_spec E' then bulk_of t else None) as [k|]; [|apply back_seq; auto].
    unfold sk_bulk. rewrite Hn, Hub. apply back_refl.
  - apply back_seq; auto.
  - apply back_rep; auto.
  - apply back_bind; [apply back_refl|]. intros b. destruct (b =? 0); [apply back_refl|]. destruct (b =? 1); [auto|apply back_refl].
  - rewrite Hfw. apply back_bind; [apply back_refl|]. intros b. destruct (b =? 0); [auto|]. destruct (b =? 1); [auto|apply back_refl].
  - rewrite Hfw. apply back_bind; [apply back_refl|]. intros b. destruct (b =? 0); [apply back_refl|]. destruct (b =? 1); [auto|]. destruct (b =? 2); [auto|apply back_refl].
  - apply back_seq, back_bind; [auto|intros; auto].
  - apply back_seq; auto.
  - apply back_seq; auto.
  - auto.
  - rewrite (Hu (TInt U32)) by reflexivity. apply back_refl.
  - destruct mirror; [|auto]. rewrite (Hu (TExt c true t)) by exact Hf. apply back_refl.
  - apply Hrec, Hc0.
Qed.
Lemma back_fields : forall r fs fs', edit_fields r fs fs' ->
  Forall (fun f => ty_all (declared E') (f_ty f) = true) fs -> Forall (fun f => foreign_mirrors (f_ty f) = true) fs ->
  back (sk_fields E rec drec r fs') (sk_fields E' rec' drec' r fs).
Proof.
  intros r fs fs' H. induction H as [|f f' fs fs' Hf Hfs IH|f' fs fs' Hf Hfs IH]; intros Hc Hall; cbn [sk_fields].
  - apply back_refl.
  - inversion Hall; subst. inversion Hc; subst. replace (falive r f') with (falive r f).
    + destruct Hf as (H1' & _ & H3' & _). rewrite H1', H3'. destruct (falive r f); [|auto]. apply back_bind; [|intros; auto].
      destruct (f_fixed f); [apply back_refl|apply back_ty; assumption].
    + destruct Hf as (_ & Hs & _ & _ & _ & He). unfold falive. rewrite Hs. symmetry. eapply exists_at_end; [exact He|lia].
  - unfold falive. rewrite exists_at_new by assumption. auto.
Qed.
End R.

Hypothesis W : forall n s, e_sch E' n = Some s -> wf_schema s.
Hypothesis Hsch : forall n s, e_sch E' n = Some s -> exists s', e_sch E n = Some s' /\ edit_schema s s'.
Hypothesis Hmir : program_mirrors E'.
Hypothesis Hclosed : env_all (fun f => ty_all (declared E') (f_ty f)) E'.

Lemma back_ref : forall d d' n, (d <= d')%nat -> declared E' (TRef n) = true -> back (sk_ref E d n) (sk_ref E' d' n).
Proof.
  induction d as [|d IH]; intros d' n Hd Hn; [intros bs a r H; discriminate H|]. destruct d' as [|d']; [lia|]. cbn [sk_ref].
  cbn [declared] in Hn. destruct (e_sch E' n) as [s|] eqn:Es; [|discriminate Hn]. destruct (Hsch n s Es) as (s' & Es' & (more & Hmore) & Hbody). rewrite Es'.
  assert (Hrec : forall n, declared E' (TRef n) = true -> back (sk_ref E d n) (sk_ref E' d' n)) by (intros; apply IH; [lia|assumption]).
  unfold sk_derived. rewrite Hfw. apply back_bind; [apply back_refl|]. intros r. unfold sk_body.
  destruct (sent s r) as [h|] eqn:Eh; [|intros bs a x H; right; reflexivity]. rewrite (sent_app s s' more r h Hmore Eh).
  assert (Hr : r <= scur s).
  { unfold sent in Eh. destruct (N.eqb_spec r 0); [discriminate|]. assert (Hl : (N.to_nat (r - 1) < length (s_hist s))%nat) by (apply nth_error_Some; congruence). unfold scur, len. lia. }
  pose proof (W n s Es) as (_ & _ & Wb). unfold edit_body in Hbody. pose proof (fun f => Hmir n s f Es) as Hf. unfold body_fields in Hf.
  pose proof (Hclosed n s Es) as Hcl. unfold fields_all in Hcl.
  destruct (s_body s) as [fs|vs], (s_body s') as [fs'|vs']; try contradiction.
  - destruct (h_opt h); [apply back_refl|]. apply back_fields; [exact Hrec|eapply (edit_fields_less E E' Hfw Hspec Hub); eauto|apply Forall_forall; rewrite forallb_forall in Hcl; exact Hcl|apply Forall_forall; exact Hf].
  - apply (edit_variants_less E E' Hfw Hspec Hub r) in Hbody; [|exact Hr]. destruct Wb as (_ & _ & Wr). destruct (Wr _ _ Eh) as (ds & Ed & _ & Hopt).
    assert (Hin : forall p, In p ds -> In (fst p) vs).
    { intros p Hp. pose proof (in_map fst _ _ Hp) as Hi. rewrite (DiscL.calc_disc_fst _ _ _ Ed) in Hi. apply filter_In in Hi. apply Hi. }
    assert (Hds : exists ds', calc_disc r vs' = Some ds' /\ Forall2 (fun p p' => edit_variant r (fst p) (fst p') /\ snd p = snd p') ds ds').
    { unfold calc_disc in *. pose proof (edit_gather _ _ _ Hbody []) as Hg. destruct (gather r vs []) as [u|]; [|discriminate]. rewrite Hg.
      injection Ed as <-. eexists. split; [reflexivity|]. apply edit_assign, Hbody. }
    destruct Hds as (ds' & Ed' & H2). destruct (h_opt h).
    + unfold sk_enum_opt. rewrite Ed, Ed'. apply back_bind; [apply back_refl|]. intros t. apply back_bind; [apply back_refl|]. intros c.
      rewrite (size_table_same r ds ds' H2); [apply back_refl|]. specialize (Hopt eq_refl). apply Forall_forall. intros p Hp Hz.
      rewrite forallb_forall in Hopt. specialize (Hopt p Hp). unfold opt_variant_ok in Hopt. rewrite Hz, andb_false_r in Hopt. discriminate.
    + unfold sk_enum_legacy. rewrite Ed, Ed', Hfw. apply back_bind; [apply back_refl|]. intros x. pose proof (find_disc_same r x ds ds' H2) as Hfd.
      destruct (find_disc x ds) as [[v y]|]; destruct (find_disc x ds') as [[v' y']|]; try contradiction; [|intros bs a z H; discriminate H].
      cbn [fst] in Hfd. destruct Hfd as [(_ & _ & _ & _ & _ & Hv) Hp]. rewrite forallb_forall in Hcl.
      apply back_fields; [exact Hrec|exact Hv| |].
      * apply Forall_forall. intros f Hff. specialize (Hcl v (Hin _ Hp)). rewrite forallb_forall in Hcl. apply Hcl, Hff.
      * apply Forall_forall. intros f Hff. apply Hf. apply in_flat_map. exists v. split; [exact (Hin _ Hp)|exact Hff].
Qed.
Lemma back_skip : forall d d' t, (d <= d')%nat -> ty_all (declared E') t = true -> foreign_mirrors t = true -> back (skip E d t) (skip E' d' t).
Proof. intros d d' t Hd Hc Ht. apply back_ty; [|exact Hc|exact Ht]. intros n Hn. apply back_ref; assumption. Qed.
End B.

(** Whatever bytes the newer version skips, the older one skips in the same way or refuses because of a revision
    it does not know. *)
Theorem C53_skip : forall old new d d' t bs rest,
  wf_env old -> later old new -> same_libraries new old -> program_mirrors old -> foreign_mirrors t = true -> closed old t -> (d <= d')%nat ->
  run (skip new d t) bs = Ok (tt, rest) ->
  or_oom old (run (skip old d' t) bs) (Ok (tt, rest)) \/ or_oom old (run (skip old d' t) bs) (Err (EDeserialize MInvalidRevision)).
Proof.
  intros old new d d' t bs rest W L S P Ht [C1 C2] Hd H. apply edit_program_star in L. destruct L as (L1 & L2 & L3 & L4).
  destruct (mem_skip new d t bs) as [Hs|(p0 & _ & Hs)]; [|rewrite H in Hs; discriminate Hs]. rewrite Hs in H.
  pose proof (back_skip (set_mem None new) (set_mem None old) (eq_sym L1) (eq_sym L2) (eq_sym L3) eq_refl eq_refl S (we_sch old W) L4 P C2 d d' t Hd C1 Ht bs tt rest H) as K.
  destruct (mem_skip old d' t bs) as [Hs'|(p & <- & Hs')].
  - rewrite Hs'. destruct K as [K|K]; [left|right]; left; exact K.
  - destruct (e_mem old) as [m|] eqn:Em.
    + left. right. split; [congruence|exact Hs'].
    + replace (set_mem None old) with old in K by (destruct old; cbn in Em; subst; reflexivity). rewrite Hs' in K. destruct K; discriminate.
Qed.
(** In particular what the newer version wrote, whatever follows. *)
Theorem C53_skip_data : forall old new d d' t v b rest,
  wf_env old -> wf_env new -> later old new -> same_libraries new old -> program_mirrors old -> foreign_mirrors t = true -> closed old t ->
  sizes_honest new -> spec_built new -> wt new d t v -> (d <= d')%nat -> to_vec new d t v = Ok b -> len (b ++ rest) < 2 ^ e_ub new ->
  or_oom old (run (skip old d' t) (b ++ rest)) (Ok (tt, rest)) \/ or_oom old (run (skip old d' t) (b ++ rest)) (Err (EDeserialize MInvalidRevision)).
Proof.
  intros old new d d' t v b rest W W' L S P Ht C Hh SB Hw Hd Hs Hl.
  pose proof (same0 new d d t v b rest W' Hh Hw (le_n d) Hs) as Hde.
  apply (C53_skip old (set_mem None new) d d' t (b ++ rest) rest W); auto.
  - apply edit_program_star in L. apply rt_step. exact L.
  - apply (cov_skip (set_mem None new) d t SB (b ++ rest) v rest Hl Hde).
Qed.
(** The same from a slice: the number of bytes to jump over, or the refusal. *)
Theorem C53_skip_slice : forall old new d d' t v b rest,
  wf_env old -> wf_env new -> later old new -> same_libraries new old -> program_mirrors old -> foreign_mirrors t = true -> closed old t ->
  sizes_honest new -> spec_built new -> wt new d t v -> (d <= d')%nat -> to_vec new d t v = Ok b -> len (b ++ rest) < 2 ^ e_ub new -> e_mem old = None ->
  skip_slice old d' t (b ++ rest) = Ok (len b) \/ skip_slice old d' t (b ++ rest) = Err (EDeserialize MInvalidRevision).
Proof.
  intros old new d d' t v b rest W W' L S P Ht C Hh SB Hw Hd Hs Hl Hm.
  assert (K : forall r, or_oom old (run (skip old d' t) (b ++ rest)) r -> run (skip old d' t) (b ++ rest) = r) by (intros r [K|[K _]]; [exact K|contradiction]).
  destruct (C53_skip_data old new d d' t v b rest W W' L S P Ht C Hh SB Hw Hd Hs Hl) as [H|H]; apply K in H.
  - left. apply C13_skip_slice. exists rest. split; [exact H|apply len_app].
  - right. unfold skip_slice. rewrite (fol_skip old d' t (sr_new (b ++ rest))). cbn [sr_new sr_inner]. rewrite H. reflexivity.
Qed.

(** ** Case *)
(** A record in an envelope around one that has since gained a field: the old program cannot read it, and skips it.
    Without the envelope it refuses to skip. *)
Definition r_outer : schema := mkSchema [opt] (SStruct [fld (TRef 2) 1 None; fld TStr 1 None]).
Definition r_inner (n : bool) : schema :=
  if n then mkSchema [leg; leg] (SStruct [fld TBool 1 None; mkField (TInt U32) 2 None (fun _ => Ok (VInt 0)) keep false false INone])
  else mkSchema [leg] (SStruct [fld TBool 1 None]).
Definition r_env (n : bool) : env := ex_env (fun k => if k =? 1 then Some r_outer else if k =? 2 then Some (r_inner n) else None).
Definition r_inval : val := VSeq [VBool true; VInt 5].
Definition r_val : val := VSeq [r_inval; a_str [97]].
Example C53_skip_case : wf_env (r_env false) /\ wf_env (r_env true) /\ later (r_env false) (r_env true) /\ same_libraries (r_env true) (r_env false)
  /\ program_mirrors (r_env false) /\ closed (r_env false) (TRef 1) /\ spec_built (r_env true) /\ sizes_honest (r_env true)
  /\ wt (r_env true) 2 (TRef 1) r_val /\ to_vec (r_env true) 2 (TRef 1) r_val = Ok [1; 5; 0; 0; 0; 2; 1; 5; 1; 97]
  /\ run (deserialize (r_env false) 2 (TRef 1)) ([1; 5; 0; 0; 0; 2; 1; 5; 1; 97] ++ [7]) = Err (EDeserialize MInvalidRevision)
  /\ run (skip (r_env false) 2 (TRef 1)) ([1; 5; 0; 0; 0; 2; 1; 5; 1; 97] ++ [7]) = Ok (tt, [7])
  /\ to_vec (r_env true) 2 (TRef 2) r_inval = Ok [2; 1; 5]
  /\ run (skip (r_env false) 2 (TRef 2)) ([2; 1; 5] ++ [7]) = Err (EDeserialize MInvalidRevision).
Proof.
  assert (Wf : forall n, wf_env (r_env n)).
  { intros n. apply wf_ex. intros k s Hs. destruct (k =? 1); [inversion Hs; subst; apply wf_schemab_ok; reflexivity|].
    destruct (k =? 2); inversion Hs; subst; destruct n; apply wf_schemab_ok; reflexivity. }
  split; [apply Wf|]. split; [apply Wf|]. split.
  { apply rt_step. repeat split. intros n t Hn. cbn in Hn |- *. destruct (n =? 1).
    - inversion Hn; subst. eexists. split; [reflexivity|]. split; [exists []; reflexivity|]. apply ef_keep; [|apply ef_keep; [|constructor]]; repeat split; left; reflexivity.
    - destruct (n =? 2); [|discriminate]. inversion Hn; subst. eexists. split; [reflexivity|]. split; [exists [leg]; reflexivity|].
      apply ef_keep; [|apply ef_add; [vm_compute; reflexivity|constructor]]. repeat split. left. reflexivity. }
  split; [repeat split|]. split.
  { intros n s f Hs Hf. cbn in Hs. destruct (n =? 1); [|destruct (n =? 2); [|discriminate]]; inversion Hs; subst.
    - destruct Hf as [<-|[<-|[]]]; reflexivity.
    - destruct Hf as [<-|[]]; reflexivity. }
  split. { split; [reflexivity|]. intros n s Hs. cbn in Hs. destruct (n =? 1); [|destruct (n =? 2); [|discriminate]]; inversion Hs; reflexivity. }
  split; [intros n s f _ _ _; reflexivity|]. split; [left; reflexivity|].
  split; [apply wtb_ok; vm_compute; reflexivity|]. repeat split; vm_compute; reflexivity.
Qed.

Print Assumptions C53_skip.
Print Assumptions C53_skip_data.
Print Assumptions C53_skip_slice.
