(** C82: what a failed [to_writer] leaves behind. *)

From Verif Require Import Base BaseL Prog ProgL Prim PrimL Utf8 Tag Ty Ser De Typed Mig Evol EvolL RtL RtSch RtId Agree Cross Parts PartsL Spec Ex Stream EofL SerL MigL PropMig PropWire WalkRef Partial PartialL RollL PartialRollL Journal.
From Coq Require Import List NArith ZArith Bool Lia Relations.
Import ListNotations.
Open Scope N_scope.

(** The write calls of [writes] and how they end are those of [to_writer], which the other theorems are about. *)
Theorem C82_same_calls : forall E d t v,
  match to_writer E d t v with
  | Ok ops => writes E d t v = (ops, Ok tt)
  | Err e => exists ops, writes E d t v = (ops, Err e)
  | Panic x => exists ops, writes E d t v = (ops, Panic x)
  end.
Proof.
  intros E d t v. rewrite <- collapse_writes. unfold collapse. destruct (writes E d t v) as [ops [[]|e|x]]; cbn [fst snd]; eauto.
Qed.

(** A reader with other limits on memory and nesting. *)
Lemma other_limits : forall E d d' t q (P : err -> Prop) (Q : pan -> Prop), ~ Q PStack -> bad P Q (run (deserialize (set_mem None E) d t) q) ->
  bad P (fun x => Q x \/ x = PStack \/ x = PMem /\ e_mem E <> None) (run (deserialize E d' t) q).
Proof.
  intros E d d' t q P Q HQ B.
  assert (B' : bad P (fun x => Q x \/ x = PStack) (run (deserialize (set_mem None E) d' t) q)).
  { destruct (Nat.le_ge_cases d d') as [H|H].
    - destruct (depth_agree (set_mem None E) d d' t H q) as [<-|(x & <- & Hx)]; [|rewrite Hx in B; contradiction].
      destruct (run _ q); [destruct B|exact B|left; exact B].
    - destruct (depth_agree (set_mem None E) d' d t H q) as [->|(x & <- & ->)]; [|right; reflexivity].
      destruct (run _ q); [destruct B|exact B|left; exact B]. }
  clear B. destruct (e_mem E) as [m|] eqn:Em.
  - destruct (mem_agree E d' t q) as [->|(x & <- & ->)]; [|right; right; split; [reflexivity|discriminate]].
    destruct (run _ q); [destruct B'|exact B'|cbn in B' |- *; tauto].
  - replace E with (set_mem None E) by (destruct E; cbn in *; subst; reflexivity).
    destruct (run _ q); [destruct B'|exact B'|cbn in B' |- *; tauto].
Qed.

(** C82.  If [to_writer] fails, no part of what it has written reads as a value: not in the program that wrote it and not
    in any later version of it, with any limits. *)
Theorem C82_nothing_reads : forall E E' d d' t v ops x q s y,
  wf_env E -> wf_env E' -> later E E' -> opt_safe E E' -> user_panics E' (fun x => x <> PStack) -> sizes_honest E ->
  wt E d t v -> writes E d t v = (ops, x) -> x <> Ok tt -> out ops = q ++ s ->
  from_slice E' d' t q <> Ok y.
Proof.
  intros E E' d d' t v ops x q s y W W' L O U Hh Hw He Hx Ho.
  pose proof (later_compatible E E' W L O) as C. pose proof C as (C1 & C2 & C3 & C4).
  assert (B : pbad (fun _ => True) (fun x => x <> PStack) (writes E d t v) (deserialize (set_mem None E') d t)).
  { apply (writes_bad (fun _ => True) (fun x => x <> PStack) I E (set_mem None E')) with (ok := fun _ => true); auto.
    - apply (we_time _ W).
    - apply (we_sch _ W').
    - intros n s0 Hs. unfold fields_all. destruct (s_body s0) as [fs|vs]; rewrite forallb_forall; intros z _; [apply ty_all_any; reflexivity|].
      rewrite forallb_forall. intros; apply ty_all_any; reflexivity.
    - intros n s0 s' f Hs Hs' Hin _ _. destruct (U n s' Hs') as [U1 _]. destruct (f_default f (scur s0)) as [a|e|p] eqn:Ef; cbn; auto.
      exact (proj1 (U1 f (scur s0) p Hin) Ef).
    - intros k t0 v0 ops0 Hw0 _. pose proof (migrate_nost E E' W W' C U k t0 v0 Hw0) as N0. unfold migrate in N0.
      change (mig_ty E (set_mem None E') (mig_ref E (set_mem None E') k) t0 v0) with (migrate E (set_mem None E') k t0 v0). rewrite migrate_set_mem. unfold migrate.
      destruct (mig_ty E E' (mig_ref E E' k) t0 v0) as [a|e|p]; cbn; auto. intros ->. apply N0. reflexivity.
    - apply ty_all_any. reflexivity. }
  unfold pbad in B. rewrite He in B. cbn [fst snd] in B.
  assert (B1 : bad (fun _ => True) (fun x => x <> PStack) (run (deserialize (set_mem None E') d t) (out ops))) by (destruct x as [[]|e|p]; [contradiction|exact B|exact B]).
  rewrite Ho in B1. clear B.
  assert (R : reads (fun _ => True) (deserialize (set_mem None E') d t)).
  { apply (reads_deserialize _ (fun _ => true)); auto; [|apply ty_all_any; reflexivity].
    intros n s0 Hs. unfold fields_all. destruct (s_body s0) as [fs|vs]; rewrite forallb_forall; intros z _; [apply ty_all_any; reflexivity|].
    rewrite forallb_forall. intros; apply ty_all_any; reflexivity. }
  pose proof (bad_cut _ _ _ _ q s R B1) as B2. apply (other_limits E' d d') in B2; [|tauto].
  unfold from_slice. destruct (run (deserialize E' d' t) q); [destruct B2|discriminate|discriminate].
Qed.

(** In the program that wrote it: reading reports the end of the input, or the [Deserialize] error that [Result] and
    [Bound] make of it. *)
Lemma own_remains : forall (P : err -> Prop) (ok : ty -> bool) E d d' t v ops x q s,
  P EIo -> P (EDeserialize MInner) \/ (forall a b, ok (TResult a b) = false) /\ (forall a, ok (TBound a) = false) ->
  ty_all ok t = true -> env_all (fun f => ty_all ok (f_ty f)) E ->
  wf_env E -> sizes_honest E -> wt E d t v -> (d <= d')%nat ->
  writes E d t v = (ops, x) -> x <> Ok tt -> out ops = q ++ s ->
  exists e, P e /\ or_oom E (run (deserialize E d' t) q) (Err e).
Proof.
  intros P ok E d d' t v ops x q s PIo Hwrap Ht HE W Hh Hw Hd He Hx Ho.
  assert (R : reads P (deserialize (set_mem None E) d t)) by (apply (reads_deserialize _ ok); auto).
  assert (B : pbad P (fun _ => False) (writes E d t v) (deserialize (set_mem None E) d t)).
  { apply (writes_bad P (fun _ => False) PIo E (set_mem None E)) with (ok := ok); auto.
    - apply (we_time _ W).
    - apply (compatible_refl E W).
    - apply (we_sch _ W).
    - intros n s0 s' f Hs Hs' _ H1 H2. cbn [set_mem e_sch] in Hs'. rewrite Hs in Hs'. inversion Hs'; subst. congruence.
    - intros k t0 v0 ops0 Hw0 Hs0. change (mig_ty E (set_mem None E) (mig_ref E (set_mem None E) k) t0 v0) with (migrate E (set_mem None E) k t0 v0).
      rewrite migrate_set_mem, (migrate_id E W k t0 v0 ops0 Hw0 Hs0). exact I. }
  unfold pbad in B. rewrite He in B. cbn [fst snd] in B.
  assert (B1 : bad P (fun _ => False) (run (deserialize (set_mem None E) d t) (out ops))) by (destruct x as [[]|e|p]; [contradiction|exact B|exact B]).
  rewrite Ho in B1. apply bad_cut in B1; [|exact R]. clear B.
  destruct (run (deserialize (set_mem None E) d t) q) as [y|e|p] eqn:Er; [destruct B1| |destruct B1]. exists e. split; [exact B1|].
  assert (Er' : run (deserialize (set_mem None E) d' t) q = Err e).
  { destruct (depth_agree (set_mem None E) d d' t Hd q) as [<-|(p & _ & Hp)]; [exact Er|rewrite Hp in Er; discriminate]. }
  destruct (e_mem E) as [m|] eqn:Em.
  - destruct (mem_agree E d' t q) as [H|(p & <- & H)]; [left; rewrite H; exact Er'|right; split; [rewrite Em; discriminate|exact H]].
  - left. replace E with (set_mem None E) by (destruct E; cbn in *; subst; reflexivity). exact Er'.
Qed.
Theorem C82_reports : forall E d d' t v ops x q s,
  wf_env E -> sizes_honest E -> wt E d t v -> (d <= d')%nat ->
  writes E d t v = (ops, x) -> x <> Ok tt -> out ops = q ++ s ->
  exists e, (e = EIo \/ e = EDeserialize MInner) /\ or_oom E (run (deserialize E d' t) q) (Err e).
Proof.
  intros E d d' t v ops x q s. apply (own_remains _ (fun _ => true)); auto; [apply ty_all_any; reflexivity|].
  intros n s' _. unfold fields_all. destruct (s_body s') as [fs|vs]; rewrite forallb_forall; intros z _; [apply ty_all_any; reflexivity|].
  rewrite forallb_forall. intros; apply ty_all_any; reflexivity.
Qed.
Theorem C82_end_of_input : forall E d d' t v ops x q s,
  wf_env E -> sizes_honest E -> wt E d t v -> (d <= d')%nat ->
  ty_all transparent t = true -> env_all (fun f => ty_all transparent (f_ty f)) E ->
  writes E d t v = (ops, x) -> x <> Ok tt -> out ops = q ++ s ->
  or_oom E (run (deserialize E d' t) q) (Err EIo).
Proof.
  intros E d d' t v ops x q s W Hh Hw Hd Ht HE He Hx Ho.
  destruct (own_remains (fun e => e = EIo) transparent E d d' t v ops x q s) as (e & -> & H); auto.
Qed.

(** In an earlier version of the program (after rolling back): the end of the input, or the errors that refuse newer data. *)
Theorem C82_rolled_back : forall old new d d' t v ops x q s,
  wf_env old -> wf_env new -> later old new -> same_libraries new old -> closed old t -> sizes_honest new ->
  wt new d t v -> (d <= d')%nat -> writes new d t v = (ops, x) -> x <> Ok tt -> out ops = q ++ s ->
  exists e, (e = EIo \/ e = EDeserialize MInvalidRevision \/ e = EDeserialize MInner) /\ or_oom old (run (deserialize old d' t) q) (Err e).
Proof.
  intros old new d d' t v ops x q s W W' HL Hlib HC Hh Hw Hd He Hx Ho. apply edit_program_star in HL.
  set (P := fun e => e = EIo \/ e = EDeserialize MInvalidRevision \/ e = EDeserialize MInner).
  assert (Pref : forall e, refusal e -> P e) by (intros e [->| ->]; unfold P; auto).
  assert (B : pbad P (fun _ => False) (writes new d t v) (deserialize (set_mem None old) d t)).
  { apply (writes_bad_old P (fun _ => False) (or_introl eq_refl) Pref new (set_mem None old)); auto. apply wf_set_mem, W. }
  unfold pbad in B. rewrite He in B. cbn [fst snd] in B.
  assert (B1 : bad P (fun _ => False) (run (deserialize (set_mem None old) d t) (out ops))) by (destruct x as [[]|e|p]; [contradiction|exact B|exact B]).
  rewrite Ho in B1. apply bad_cut in B1; [|apply (reads_old P (or_introl eq_refl) Pref)]. clear B.
  destruct (run (deserialize (set_mem None old) d t) q) as [y|e|p] eqn:Er; [destruct B1| |destruct B1]. exists e. split; [exact B1|].
  assert (Er' : run (deserialize (set_mem None old) d' t) q = Err e).
  { destruct (depth_agree (set_mem None old) d d' t Hd q) as [<-|(p & _ & Hp)]; [exact Er|rewrite Hp in Er; discriminate]. }
  destruct (e_mem old) as [m|] eqn:Em.
  - destruct (mem_agree old d' t q) as [H|(p & <- & H)]; [left; rewrite H; exact Er'|right; split; [rewrite Em; discriminate|exact H]].
  - left. replace old with (set_mem None old) by (destruct old; cbn in *; subst; reflexivity). exact Er'.
Qed.

(** In a later version: the end of the input, or a failure of the functions that migrate a part of the value. *)
Theorem C82_taken_over : forall E E' d t v ops x q s,
  wf_env E -> wf_env E' -> later E E' -> opt_safe E E' -> sizes_honest E -> reports E' t ->
  wt E d t v -> writes E d t v = (ops, x) -> x <> Ok tt -> out ops = q ++ s ->
  match run (deserialize E' d t) q with
  | Ok _ => False
  | Err e => e = EIo \/ part_fails E E' (Err e)
  | Panic p => (p = PMem /\ e_mem E' <> None) \/ part_fails E E' (Panic p)
  end.
Proof.
  intros E E' d t v ops x q s W W' L O Hh [Ht HR] Hw He Hx Ho.
  pose proof (later_compatible E E' W L O) as C. pose proof C as (C1 & C2 & C3 & C4).
  set (P := fun e => e = EIo \/ part_fails E E' (Err e)). set (Q := fun p => part_fails E E' (Panic p)).
  assert (HP : P EIo) by (left; reflexivity).
  assert (Hwrap : P (EDeserialize MInner) \/ (forall a b, transparent (TResult a b) = false) /\ (forall a, transparent (TBound a) = false)) by (right; split; reflexivity).
  assert (F : forall r, part_fails E E' r -> fine P Q r) by (intros [a|e|p] H; [exact I|right; exact H|exact H]).
  assert (B : pbad P Q (writes E d t v) (deserialize (set_mem None E') d t)).
  { apply (writes_bad P Q HP E (set_mem None E')) with (ok := transparent); auto.
    - apply (we_time _ W).
    - apply (we_sch _ W').
    - intros n s0 s' f Hs Hs' Hin _ _. apply F. right. exists n, s0, s', f. auto.
    - intros k t0 v0 ops0 Hw0 _. change (mig_ty E (set_mem None E') (mig_ref E (set_mem None E') k) t0 v0) with (migrate E (set_mem None E') k t0 v0).
      rewrite migrate_set_mem. apply F. left. exists k, t0, v0. auto. }
  unfold pbad in B. rewrite He in B. cbn [fst snd] in B.
  assert (B1 : bad P Q (run (deserialize (set_mem None E') d t) (out ops))) by (destruct x as [[]|e|p]; [contradiction|exact B|exact B]).
  rewrite Ho in B1. apply bad_cut in B1; [|apply (reads_deserialize _ transparent); auto]. clear B.
  destruct (e_mem E') as [m|] eqn:Em.
  - destruct (mem_agree E' d t q) as [->|(p & <- & ->)]; [|left; split; [reflexivity|discriminate]].
    destruct (run _ q); [destruct B1|exact B1|right; exact B1].
  - replace E' with (set_mem None E') by (destruct E'; cbn in *; subst; reflexivity).
    destruct (run _ q); [destruct B1|exact B1|right; exact B1].
Qed.

(** The application of C81: after an append that failed, opening the file gives the values appended before, and drops
    what the failed one left. *)
Theorem C82_reopen : forall E d n vs bs v ops x q s,
  wf_env E -> sizes_honest E -> e_mem E = None -> reports E (TRef n) ->
  Forall (wt E d (TRef n)) vs -> rmapM (to_vec E d (TRef n)) vs = Ok bs ->
  wt E d (TRef n) v -> writes E d (TRef n) v = (ops, x) -> x <> Ok tt -> out ops = q ++ s ->
  open d n E (concat bs ++ q) = Ok (vs, concat bs).
Proof.
  intros E d n vs bs v ops x q s W Hh Hm [Hr1 Hr2] Hvs Hbs Hw He Hx Ho.
  assert (Q : run (deserialize E d (TRef n)) q = Err EIo).
  { destruct (C82_end_of_input E d d (TRef n) v ops x q s W Hh Hw (le_n _) Hr1 Hr2 He Hx Ho) as [H|[H _]]; [exact H|contradiction]. }
  assert (S : forall fuel, (length (concat bs ++ q) <= fuel)%nat ->
    scan d n E fuel (concat bs ++ q) = (vs, q, match q with [] => Clean | _ => Failed (Err EIo) end)).
  { apply rmapM_ok in Hbs. clear He Ho. induction Hbs as [|u b vs bs Hb Hbs IH]; intros fuel Hf; cbn [concat app] in *.
    - destruct q as [|q0 q'] eqn:Eq; [destruct fuel; reflexivity|]. rewrite <- Eq in *. destruct fuel as [|k]; [rewrite Eq in Hf; cbn in Hf; lia|].
      rewrite Eq. cbn [scan]. rewrite <- Eq, Q. reflexivity.
    - inversion Hvs as [|? ? Hu Hvs']; subst. specialize (IH Hvs').
      assert (Hne : b <> []).
      { intros ->. pose proof (same0 E d d (TRef n) u [] [] W Hh Hu (le_n _) Hb) as H. cbn [app] in H.
        replace (set_mem None E) with E in H by (destruct E; cbn in *; subst; reflexivity).
        pose proof (bad_cut (fun e => True) (fun _ => True) _ (deserialize E d (TRef n)) [] q) as K.
        assert (K' : bad (fun _ => True) (fun _ => True) (run (deserialize E d (TRef n)) [])).
        { apply K; [apply (reads_deserialize _ transparent); auto|cbn [app]; rewrite Q; exact I]. }
        rewrite H in K'. destruct K'. }
      assert (Hrun : run (deserialize E d (TRef n)) (b ++ concat bs ++ q) = Ok (u, concat bs ++ q)).
      { pose proof (same0 E d d (TRef n) u b (concat bs ++ q) W Hh Hu (le_n _) Hb) as H.
        replace (set_mem None E) with E in H by (destruct E; cbn in *; subst; reflexivity). exact H. }
      rewrite <- app_assoc in *. destruct b as [|b0 b'] eqn:Eb; [contradiction|]. rewrite <- Eb in *.
      assert (Hl : (length (concat bs ++ q) < length (b ++ concat bs ++ q))%nat) by (rewrite (app_length b), Eb; cbn [length]; lia).
      destruct fuel as [|k]; [lia|].
      replace (scan d n E (Datatypes.S k) (b ++ concat bs ++ q)) with (match run (deserialize E d (TRef n)) (b ++ concat bs ++ q) with Ok (v, rest) => let '(vs, tail, s) := scan d n E k rest in (v :: vs, tail, s) | Err e => ([], b ++ concat bs ++ q, Failed (Err e)) | Panic x => ([], b ++ concat bs ++ q, Failed (Panic x)) end) by (rewrite Eb; reflexivity).
      rewrite Hrun, IH by lia. reflexivity. }
  unfold open. rewrite (S _ (le_n _)). destruct q as [|q0 q']; [rewrite app_nil_r; reflexivity|].
  do 2 f_equal. rewrite app_length, Nat.add_sub, firstn_app, Nat.sub_diag, firstn_all. cbn [firstn]. apply app_nil_r.
Qed.

(** ** Hypotheses met *)
(** A path that is not UTF-8, in the second entry of a vector in a struct; a later release that reads the remains. *)
Definition log1 : env := only (mkSchema [leg] (SStruct [fld (TInt U8) 1 None; fld (TVec TPath) 1 None])).
Definition log2 : env := only (mkSchema [leg; leg] (SStruct [fld (TInt U8) 1 None; fld (TVec TPath) 1 (Some 2)])).
Definition bad_log : val := VSeq [VInt 7; VSeq [VBytes [97]; VBytes [255]; VBytes [98]]].
Example C82_case : wf_env log1 /\ sizes_honest log1 /\ wt log1 1 (TRef 1) bad_log
  /\ writes log1 1 (TRef 1) bad_log = ([WAll [1]; WAll [7]; WAll [3]; WAll [1]; WAll [97]], Err EInvalidPath)
  /\ run (deserialize log1 1 (TRef 1)) [1; 7; 3; 1; 97] = Err EIo /\ run (deserialize log1 1 (TRef 1)) [1; 7; 3] = Err EIo.
Proof.
  split; [apply wf_only; reflexivity|]. split; [left; reflexivity|]. split; [apply wtb_ok; vm_compute; reflexivity|]. repeat split; vm_compute; reflexivity.
Qed.
Example C82_case_later : wf_env log2 /\ later log1 log2 /\ opt_safe log1 log2 /\ user_panics log2 (fun x => x <> PStack)
  /\ from_slice log2 1 (TRef 1) [1; 7; 3; 1; 97] = Err EIo.
Proof.
  split; [apply wf_only; reflexivity|]. split; [|split; [|split; [|vm_compute; reflexivity]]].
  - apply rt_step. repeat split; try reflexivity. intros n s. cbn [log1 log2 only ex_env e_sch]. destruct (n =? 1); intros H; inversion H; subst. eexists. split; [reflexivity|]. split; [eexists; reflexivity|].
    cbn [edit_body s_body]. apply ef_keep; [unfold edit_field, edit_end; repeat split; auto|]. apply ef_keep; [|apply ef_nil]. unfold edit_field, edit_end. repeat split. right. split; [reflexivity|]. exists 2. split; reflexivity.
  - intros n s s' h. cbn [log1 log2 only ex_env e_sch]. destruct (n =? 1); intros H H'; inversion H; inversion H'; subst. vm_compute. intros Hh. inversion Hh; subst. discriminate.
  - intros n s. cbn [log2 only ex_env e_sch]. destruct (n =? 1); intros H; inversion H; subst. cbn [s_body]. split; [|discriminate].
    intros f r x Hf. repeat destruct Hf as [<-|Hf]; try contradiction; (split; [discriminate|]); intros; discriminate.
Qed.
(** A newer release with one more field fails at the same path; the older one refuses what it finds, or finds too little. *)
Definition log3 : env := only (mkSchema [leg; leg] (SStruct [fld (TInt U8) 1 None; fld (TVec TPath) 1 None; fld TBool 2 None])).
Example C82_case_older : wf_env log3 /\ later log1 log3 /\ same_libraries log3 log1 /\ closed log1 (TPair TBool (TRef 1)) /\ sizes_honest log3
  /\ wt log3 1 (TPair TBool (TRef 1)) (VPair (VBool true) (VSeq [VInt 7; VSeq [VBytes [97]; VBytes [255]]; VBool false]))
  /\ writes log3 1 (TPair TBool (TRef 1)) (VPair (VBool true) (VSeq [VInt 7; VSeq [VBytes [97]; VBytes [255]]; VBool false])) = ([WOnce [1]; WAll [2]; WAll [7]; WAll [2]; WAll [1]; WAll [97]], Err EInvalidPath)
  /\ run (deserialize log1 1 (TPair TBool (TRef 1))) [1; 2; 7; 2; 1; 97] = Err (EDeserialize MInvalidRevision)
  /\ run (deserialize log1 1 (TPair TBool (TRef 1))) [1] = Err EIo.
Proof.
  split; [apply wf_only; reflexivity|]. split; [|split; [repeat split|split; [split; [reflexivity|]|split; [left; reflexivity|split; [apply wtb_ok; vm_compute; reflexivity|repeat split; vm_compute; reflexivity]]]]].
  - apply rt_step. repeat split; try reflexivity. intros n s. cbn [log1 log3 only ex_env e_sch]. destruct (n =? 1); intros H; inversion H; subst. eexists. split; [reflexivity|]. split; [eexists; reflexivity|].
    cbn [edit_body s_body]. do 2 (apply ef_keep; [unfold edit_field, edit_end; repeat split; auto|]). apply ef_add; [reflexivity|]. apply ef_nil.
  - intros n s. cbn [log1 only ex_env e_sch]. destruct (n =? 1); intros H; inversion H; subst. reflexivity.
Qed.
(** Inside a [Result]; a time before 1970; an optimised enum whose declared size is wrong (debug builds stop). *)
Definition late : env := only (mkSchema [opt] (SEnum [var 0 1 None (Some (SFixed 0)) [fld (TInt U8) 1 None]])).
Example C82_cases : writes log1 0 (TResult (TPair TBool TPath) TUnit) (VVar 0 [VPair (VBool true) (VBytes [200])]) = ([WAll [0]; WOnce [1]], Err EInvalidPath)
  /\ run (deserialize log1 0 (TResult (TPair TBool TPath) TUnit)) [0; 1] = Err (EDeserialize MInner)
  /\ writes log1 0 (TOption TSystemTime) (VVar 1 [VPair (VInt (-5)) (VInt 0)]) = ([WAll [1]], Err (ESerialize MPreEpoch))
  /\ writes late 1 (TRef 1) (VVar 0 [VInt 9]) = ([WAll [1]; WAll [32]], Panic PAssert)
  /\ run (deserialize late 1 (TRef 1)) [1; 32] = Err EIo.
Proof. repeat split; vm_compute; reflexivity. Qed.
Example C82_case_reopen : reports log1 (TRef 1) /\ open 1 1 log1 [1; 9; 1; 1; 99; 1; 7; 3; 1; 97] = Ok ([VSeq [VInt 9; VSeq [VBytes [99]]]], [1; 9; 1; 1; 99]).
Proof.
  split; [|vm_compute; reflexivity]. split; [reflexivity|]. intros n s. cbn [log1 only ex_env e_sch]. destruct (n =? 1); intros H; inversion H; subst; reflexivity.
Qed.

(** ** Where the application needs care *)
(** [to_writer] is not all or nothing.  If the next value is appended behind what a failed one left, the reader returns a
    value that nobody wrote, without an error. *)
Theorem C82_carry_on_refuted : exists E v v' ops b u, wf_env E /\ sizes_honest E /\ wt E 1 (TRef 1) v /\ wt E 1 (TRef 1) v'
  /\ writes E 1 (TRef 1) v = (ops, Err EInvalidPath) /\ to_vec E 1 (TRef 1) v' = Ok b
  /\ from_slice E 1 (TRef 1) (out ops ++ b) = Ok u /\ u <> v /\ u <> v'.
Proof.
  exists (only (mkSchema [leg] (SStruct [fld (TInt U8) 1 None; fld TPath 1 None]))), (VSeq [VInt 7; VBytes [255]]), (VSeq [VInt 9; VBytes [97]]), [WAll [1]; WAll [7]], [1; 9; 1; 97].
  exists (VSeq [VInt 7; VBytes [9]]).
  split; [apply wf_only; reflexivity|]. split; [left; reflexivity|]. split; [apply wtb_ok; vm_compute; reflexivity|]. split; [apply wtb_ok; vm_compute; reflexivity|].
  repeat split; try (vm_compute; reflexivity); discriminate.
Qed.

Print Assumptions C82_same_calls.
Print Assumptions C82_nothing_reads.
Print Assumptions C82_reports.
Print Assumptions C82_end_of_input.
Print Assumptions C82_rolled_back.
Print Assumptions C82_taken_over.
Print Assumptions C82_reopen.
Print Assumptions C82_carry_on_refuted.
