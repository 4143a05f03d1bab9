(** C17-C20, C22, C23, C25: revisions, variants, tags. *)

From Verif Require Import Base BaseL Prog ProgL Prim PrimL Tag Ty Ser De Typed Mig Evol EvolL SortL DiscL RtL RtTy RtId Agree Parts MigL Spec Cross Ex.
From Coq Require Import List NArith ZArith Bool Lia ZifyBool Relations Sorting.Sorted.
Import ListNotations.
Open Scope N_scope.

(** The restrictions on optimised revisions (Mig.v), for all types of the writing program. *)
Definition opt_safe (E E' : env) : Prop :=
  forall n s s' h, e_sch E n = Some s -> e_sch E' n = Some s' ->
    sent s (scur s) = Some h -> h_opt h = true -> opt_restricted (scur s) s'.

Lemma later_compatible : forall E E', wf_env E -> later E E' -> opt_safe E E' -> compatible E E'.
Proof. intros E E' W L O. apply edit_compatible; [exact W|apply edit_program_star, L|exact O]. Qed.

(** C17/C18: bytes written by a program decode, under every later version of that program, to the
    migrated value (Mig.v), and consume exactly the bytes written. *)
Theorem C17_later_programs_read : forall E E' d d' t v b rest,
  wf_env E -> wf_env E' -> later E E' -> opt_safe E E' -> user_panics E' (fun x => x <> PStack) ->
  sizes_honest E -> wt E d t v -> (d <= d')%nat ->
  to_vec E d t v = Ok b ->
  or_oom E' (run (deserialize E' d' t) (b ++ rest)) (rmap (fun v' => (v', rest)) (migrate E E' d t v)).
Proof.
  intros E E' d d' t v b rest W W' L O U Hh Hw Hd Hs. pose proof (later_compatible E E' W L O) as C.
  apply cross; auto. apply (migrate_nost E E' W W' C U). exact Hw.
Qed.

(** One field, by its encoding; the same as [migrate] unless the field is an indexed map or set, in
    which case entries are visited in the order of their encoded keys. *)
Definition migrate_field (E E' : env) (d : nat) (m : fmode) (t : ty) (v : val) : res val :=
  mig_mode E E' (mig_ref E E' d) (ser_ty E (ser_ref E d)) m t v.
Theorem C17_plain_fields : forall E E' d m t v, m <> MIdxMap -> m <> MIdxSet ->
  migrate_field E E' d m t v = migrate E E' d t v.
Proof.
  intros E E' d m t v H1 H2. unfold migrate_field, migrate, mig_mode. destruct m; try contradiction; destruct t, v; reflexivity.
Qed.

(** Fields of the old revision [r] with values [l]; [this]: the fields of the reader's revision
    [tgt]; [gone]: removed fields with their values. *)
Definition fields_migrated (E E' : env) (d : nat) (opt : bool) (r tgt : N) (fs : list field) (l this : list val)
  (gone : list (field * val)) : Prop :=
  length this = length (filter (falive tgt) fs) /\ length gone = length (filter (removed r tgt) fs) /\
  forall i f, nth_error fs i = Some f ->
    if falive r f then
      exists v v', nth_error l (slot (falive r) fs i) = Some v
        /\ migrate_field E E' d (mode_of opt f) (f_ty f) v = Ok v'
        /\ if falive tgt f then nth_error this (slot (falive tgt) fs i) = Some v'
           else nth_error gone (slot (removed r tgt) fs i) = Some (f, v')
    else falive tgt f = true ->
      exists v', f_default f r = Ok v' /\ nth_error this (slot (falive tgt) fs i) = Some v'.
(** The convert functions of the removed fields, each on the result of the one before. *)
Inductive converted (r : N) : list val -> list (field * val) -> list val -> Prop :=
| cv_nil : forall this, converted r this [] this
| cv_cons : forall this this' this'' f v gone, f_convert f this r v = Ok this' ->
    converted r this' gone this'' -> converted r this ((f, v) :: gone) this''.
Lemma converts_spec : forall r gone this l, mig_converts r this gone = Ok l -> converted r this gone l.
Proof.
  intros r. induction gone as [|[f v] gone IH]; intros this l H; cbn [mig_converts] in H.
  - injection H as <-. constructor.
  - apply rbind_ok in H. destruct H as (t' & H1 & H2). econstructor; eauto.
Qed.
Lemma body_spec : forall E E' d opt r tgt fs l l', mig_body E E' (mig_ref E E' d) (ser_ty E (ser_ref E d)) opt r tgt fs l = Ok l' ->
  exists this gone, fields_migrated E E' d opt r tgt fs l this gone /\ converted r this gone l'.
Proof.
  intros E E' d opt r tgt fs l l' H. apply rbind_ok in H. destruct H as ([this gone] & H1 & H2). exists this, gone.
  split; [exact (mig_fields_spec _ _ _ _ _ _ _ _ _ _ _ H1)|apply converts_spec, H2].
Qed.

(** C17 *)
Theorem C17_struct_migration : forall E E' d d' n s s' h fs' l b rest v' rest',
  wf_env E -> wf_env E' -> later E E' -> opt_safe E E' -> user_panics E' (fun x => x <> PStack) ->
  sizes_honest E -> wt E (S d) (TRef n) (VSeq l) -> (S d <= d')%nat ->
  e_sch E n = Some s -> e_sch E' n = Some s' -> s_body s' = SStruct fs' -> sent s (scur s) = Some h ->
  to_vec E (S d) (TRef n) (VSeq l) = Ok b ->
  run (deserialize E' d' (TRef n)) (b ++ rest) = Ok (v', rest') ->
  rest' = rest /\ exists this gone l', v' = VSeq l'
    /\ fields_migrated E E' d (h_opt h) (scur s) (scur s') fs' l this gone
    /\ converted (scur s) this gone l'.
Proof.
  intros E E' d d' n s s' h fs' l b rest v' rest' W W' L O U Hh Hw Hd Hs Hs' Hb Hn He Hr.
  pose proof (C17_later_programs_read E E' (S d) d' (TRef n) (VSeq l) b rest W W' L O U Hh Hw Hd He) as [H|[_ H]]; rewrite Hr in H; [|discriminate].
  unfold migrate in H. cbn [mig_ty mig_ref] in H. rewrite Hs, Hs', Hn in H. unfold mig_derived in H. rewrite Hb in H.
  destruct (mig_body E E' (mig_ref E E' d) (ser_ty E (ser_ref E d)) (h_opt h) (scur s) (scur s') fs' l) as [l'| |] eqn:Em; cbn in H; try discriminate.
  inversion H; subst. split; [reflexivity|]. destruct (body_spec _ _ _ _ _ _ _ _ _ Em) as (this & gone & H1 & H2). exists this, gone, l'. auto.
Qed.

(** C18 *)
Theorem C18_enum_migration : forall E E' d d' n s s' vs' k l b rest v' rest',
  wf_env E -> wf_env E' -> later E E' -> opt_safe E E' -> user_panics E' (fun x => x <> PStack) ->
  sizes_honest E -> wt E (S d) (TRef n) (VVar k l) -> (S d <= d')%nat ->
  e_sch E n = Some s -> e_sch E' n = Some s' -> s_body s' = SEnum vs' ->
  to_vec E (S d) (TRef n) (VVar k l) = Ok b ->
  run (deserialize E' d' (TRef n)) (b ++ rest) = Ok (v', rest') ->
  rest' = rest /\ exists vr this gone l', In vr vs' /\ v_name vr = k
    /\ fields_migrated E E' d false (scur s) (scur s') (v_fields vr) l this gone
    /\ converted (scur s) this gone l'
    /\ if valive (scur s') vr then v' = VVar k l' else v_convert vr l' (scur s) = Ok v'.
Proof.
  intros E E' d d' n s s' vs' k l b rest v' rest' W W' L O U Hh Hw Hd Hs Hs' Hb He Hr.
  pose proof (C17_later_programs_read E E' (S d) d' (TRef n) (VVar k l) b rest W W' L O U Hh Hw Hd He) as [H|[_ H]]; rewrite Hr in H; [|discriminate].
  unfold migrate in H. cbn [mig_ty mig_ref] in H. rewrite Hs, Hs' in H.
  destruct (sent s (scur s)) as [h|]; [|discriminate]. unfold mig_derived in H. rewrite Hb in H.
  destruct (find (fun vr => v_name vr =? k) vs') as [vr|] eqn:Ef; [|discriminate]. apply find_some in Ef. destruct Ef as [Hi Hk]. apply N.eqb_eq in Hk.
  destruct (mig_body E E' (mig_ref E E' d) (ser_ty E (ser_ref E d)) false (scur s) (scur s') (v_fields vr) l) as [l'| |] eqn:Em; cbn [rbind] in H; try discriminate.
  destruct (body_spec _ _ _ _ _ _ _ _ _ Em) as (this & gone & H1 & H2).
  destruct (valive (scur s') vr) eqn:Ea.
  - cbn in H. inversion H; subst. split; [reflexivity|]. exists vr, this, gone, l'. rewrite Ea. auto.
  - destruct (v_convert vr l' (scur s)) as [w| |] eqn:Ec; cbn in H; try discriminate. inversion H; subst. split; [reflexivity|].
    exists vr, this, gone, l'. rewrite Ea. auto.
Qed.

(** Values of built-in types are the same under both programs. *)
Lemma mig_same : forall E E' rec rec' t v, same_libraries E E' -> ty_all built_in t = true -> mig_ty E E' rec t v = mig_ty E E rec' t v.
Proof.
  intros E E' rec rec' t v (H1 & H2 & H3 & H4). revert v.
  induction t; intros v Ht; cbn [ty_all built_in] in Ht; try discriminate; repeat match goal with H : _ && _ = true |- _ => apply andb_prop in H; destruct H end; destruct v; cbn [mig_ty];
    rewrite ?H1, ?H2, ?H3, ?H4; try reflexivity; rewrite ?IHt1, ?IHt by assumption;
    try (rewrite (rmapM_ext _ _ _ (mig_ty E E rec' t)) by (intros; apply IHt; assumption); reflexivity); try reflexivity.
  - destruct (mig_ty E E rec' t1 v1); cbn [rbind]; [|reflexivity|reflexivity]. rewrite IHt2 by assumption. reflexivity.
  - rewrite (rmapM_ext _ _ _ (fun x => if k =? 0 then mig_ty E E rec' t1 x else mig_ty E E rec' t2 x)); [reflexivity|].
    intros x _. destruct (k =? 0); [apply IHt1|apply IHt2]; assumption.
  - rewrite (rmapM_ext _ _ _ (mig_entry (mig_ty E E rec' t1) (mig_ty E E rec' t2))); [reflexivity|].
    intros x _. destruct x; try reflexivity. cbn [mig_entry]. rewrite IHt1 by assumption.
    destruct (mig_ty E E rec' t1 x1); cbn [rbind]; [|reflexivity|reflexivity]. rewrite IHt2 by assumption. reflexivity.
Qed.
Theorem C17_built_in_fields_keep_their_value : forall E E' d t v b,
  wf_env E -> same_libraries E E' -> ty_all built_in t = true -> wt E d t v -> to_vec E d t v = Ok b ->
  migrate E E' d t v = Ok v.
Proof.
  intros E E' d t v b W L Ht Hw Hs. unfold migrate. rewrite (mig_same E E' _ (mig_ref E E d) t v L Ht).
  destruct (to_vec_ok _ _ _ _ _ Hs) as (ops & Ho & _). exact (migrate_id E W d t v ops Hw Ho).
Qed.

(** C19.  Whatever bytes spell the header, and whatever follows. *)
Theorem C19_deserialize_rejects : forall E d n s r bs rest,
  e_sch E n = Some s -> r = 0 \/ scur s < r ->
  run (deserialize E d (TInt U16)) bs = Ok (VInt (Z.of_N r), rest) ->
  run (deserialize E (S d) (TRef n)) bs = Err (EDeserialize MInvalidRevision).
Proof.
  intros E d n s r bs rest Hs Hr H. unfold deserialize in *. cbn [de_ty de_ref] in *. rewrite Hs. unfold de_derived.
  assert (Hu : run (de_u16 (e_fw E)) bs = Ok (r, rest)).
  { rewrite run_bind in H. unfold de_int in H. rewrite run_bind in H.
    destruct (run (de_u16 (e_fw E)) bs) as [[x y]| |]; cbn in H; try discriminate. inversion H; subst. f_equal. f_equal. lia. }
  rewrite run_bind, Hu. unfold de_body, sent. destruct (r =? 0) eqn:E0; [reflexivity|].
  assert (Hn : nth_error (s_hist s) (N.to_nat (r - 1)) = None) by (apply nth_error_None; unfold scur, len in Hr; lia).
  rewrite Hn. reflexivity.
Qed.

(** C20.  [scur s] is the last revision of the declared history (C21). *)
Theorem C20_header_is_current : forall E d n s v b,
  e_sch E n = Some s -> to_vec E (S d) (TRef n) v = Ok b ->
  exists header payload, b = header ++ payload /\ to_vec E d (TInt U16) (VInt (Z.of_N (scur s))) = Ok header.
Proof.
  intros E d n s v b Hs H. apply to_vec_ok in H. destruct H as (ops & H & ->). unfold to_writer in H. cbn [ser_ty ser_ref] in H.
  rewrite Hs in H. unfold ser_derived in H. destruct (sent s (scur s)) as [h|]; [|discriminate].
  apply sbind_ok in H. destruct H as (la & lb & Ha & _ & ->). apply Ok_inj in Ha. subst la. rewrite out_app.
  exists (ser_u16 (e_fw E) (scur s)), (out lb). split; [unfold out at 1; cbn [flat_map wop_bytes]; rewrite app_nil_r; reflexivity|].
  unfold to_vec, to_writer, ser_bytes. cbn [ser_ty ser_int]. unfold sall. cbn [rmap out flat_map wop_bytes]. rewrite app_nil_r, N2Z.id. reflexivity.
Qed.

(** C22. *)
Theorem C22_distinct : forall r vs ds, calc_disc r vs = Some ds ->
  map fst ds = filter (valive r) vs /\ NoDup (map snd ds)
  /\ forall v d o, In (v, d) ds -> v_over v r = Some o -> d = o.
Proof.
  intros r vs ds H. split; [eapply calc_disc_fst; eauto|]. split; [eapply calc_disc_nodup; eauto|]. intros; eapply calc_disc_over; eauto.
Qed.
Lemma overrides_overs : forall r vs, overrides r vs = overs r vs.
Proof.
  intros r. unfold overrides. induction vs as [|v vs IH]; cbn [filter overs]; [reflexivity|]. destruct (valive r v); [|exact IH].
  cbn [flat_map]. destruct (v_over v r); cbn [app]; rewrite IH; reflexivity.
Qed.
Theorem C22_rejected_iff_clash : forall r vs, calc_disc r vs = None <-> ~ NoDup (overrides r vs).
Proof.
  intros r vs. rewrite overrides_overs, calc_disc_defined. split.
  - intros H (ds & Hd). congruence.
  - intros H. destruct (calc_disc r vs) as [ds|]; [elim H; eauto|reflexivity].
Qed.
Theorem C22_automatic : forall r vs, (forall v, In v vs -> v_over v r = None) ->
  exists ds, calc_disc r vs = Some ds /\ map fst ds = filter (valive r) vs
             /\ map snd ds = map N.of_nat (seq 0 (length (filter (valive r) vs))).
Proof. exact calc_disc_seq. Qed.
(** Overrides or not: in declaration order, the variants without one get the lowest numbers that are no override. *)
Definition plain_disc (r : N) (p : variant * N) : bool := match v_over (fst p) r with None => true | Some _ => false end.
Lemma assign_lowest : forall r vs used n, (forall k, k < n -> In k used) ->
  StronglySorted N.lt (map snd (filter (plain_disc r) (assign r vs used n)))
  /\ forall d, In d (map snd (filter (plain_disc r) (assign r vs used n))) -> n <= d /\ ~ In d used
       /\ forall k, k < d -> In k (map snd (filter (plain_disc r) (assign r vs used n))) \/ In k used.
Proof.
  intros r. induction vs as [|v vs IH]; intros used n Hn; cbn [assign].
  - cbn. split; [constructor|intros d []].
  - destruct (valive r v); [|exact (IH used n Hn)]. destruct (v_over v r) as [o|] eqn:Eo.
    + cbn [filter]. assert (P : forall x, plain_disc r (v, x) = false) by (intros x; unfold plain_disc; cbn [fst]; rewrite Eo; reflexivity).
      rewrite P. exact (IH used n Hn).
    + set (d0 := next_free (length used) used n).
      assert (F : ~ In d0 used) by (apply next_free_fresh, above_len).
      assert (G : n <= d0) by apply next_free_ge.
      assert (L : forall k, k < d0 -> In k used).
      { intros k Hk. destruct (N.lt_ge_cases k n) as [H|H]; [apply Hn, H|]. exact (next_free_least _ _ _ _ H Hk). }
      destruct (IH (d0 :: used) d0) as [S I]; [intros k Hk; right; apply L, Hk|].
      cbn [filter]. assert (P : forall x, plain_disc r (v, x) = true) by (intros x; unfold plain_disc; cbn [fst]; rewrite Eo; reflexivity).
      rewrite P. cbn [map snd]. split.
      * constructor; [exact S|]. apply Forall_forall. intros x Hx. destruct (I x Hx) as (A & B & _).
        assert (x <> d0) by (intros ->; apply B; left; reflexivity). clear - A H. lia.
      * intros d [<-|Hd].
        -- split; [exact G|]. split; [exact F|]. intros k Hk. right. apply L, Hk.
        -- destruct (I d Hd) as (A & B & C). split; [clear - A G; lia|]. split; [intros X; apply B; right; exact X|].
           intros k Hk. destruct (C k Hk) as [X|[<-|X]]; [left; right; exact X|left; left; reflexivity|right; exact X].
Qed.
Theorem C22_lowest_free : forall r vs ds, calc_disc r vs = Some ds ->
  let automatic := map snd (filter (plain_disc r) ds) in
  StronglySorted N.lt automatic /\ forall d, In d automatic -> ~ In d (overrides r vs)
    /\ forall k, k < d -> In k automatic \/ In k (overrides r vs).
Proof.
  intros r vs ds H automatic. unfold automatic. clear automatic. unfold calc_disc in H. destruct (gather r vs []) as [u|] eqn:G; [|discriminate].
  injection H as <-. destruct (gather_spec r vs [] u (NoDup_nil _) G) as (_ & H2 & _).
  destruct (assign_lowest r vs u 0) as [S I]; [intros k Hk; clear - Hk; lia|].
  split; [exact S|]. intros d Hd. destruct (I d Hd) as (_ & B & C). rewrite overrides_overs. split.
  - intros X. apply B, H2. right. exact X.
  - intros k Hk. destruct (C k Hk) as [X|X]; [left; exact X|]. right. apply H2 in X. destruct X as [[]|X]. exact X.
Qed.
(** One override between two variants without. *)
Example mixed_discs : map snd (filter (plain_disc 1) [(mkVariant 0 1 None (fun _ => None) None [] (fun _ _ => Ok VUnit), 0);
    (mkVariant 1 1 None (fun _ => Some 1) None [] (fun _ _ => Ok VUnit), 1); (mkVariant 2 1 None (fun _ => None) None [] (fun _ _ => Ok VUnit), 2)]) = [0; 2]
  /\ option_map (map snd) (calc_disc 1 [mkVariant 0 1 None (fun _ => None) None [] (fun _ _ => Ok VUnit);
    mkVariant 1 1 None (fun _ => Some 1) None [] (fun _ _ => Ok VUnit); mkVariant 2 1 None (fun _ => None) None [] (fun _ _ => Ok VUnit)]) = Some [0; 1; 2].
Proof. split; vm_compute; reflexivity. Qed.

(** C23. *)
Theorem C23_append_keeps_discriminants : forall r vs new ds, (forall v, In v new -> v_over v r = None) ->
  calc_disc r vs = Some ds -> exists more, calc_disc r (vs ++ new) = Some (ds ++ more).
Proof. exact calc_disc_append. Qed.

(** C25. *)
Theorem C25_round_trip : forall id c, id < 32 -> variant_id (tag_new id c) = id /\ size_class (tag_new id c) = Ok c.
Proof. intros id c H. destruct (tag_round id c H) as (H1 & H2 & _). auto. Qed.
Theorem C25_distinct : forall id c id' c', id < 32 -> id' < 32 -> tag_new id c = tag_new id' c' -> id = id' /\ c = c'.
Proof.
  intros id c id' c' H H' Ht. destruct (C25_round_trip id c H) as [A1 A2]. destruct (C25_round_trip id' c' H') as [B1 B2].
  rewrite Ht in A1, A2. rewrite B2 in A2. split; [congruence|]. injection A2 as ->. reflexivity.
Qed.
Theorem C25_reserved_class_rejected : forall b rest, b < 256 ->
  (b / 32 mod 4 = 3 -> run read_optimised_tag (b :: rest) = Err (EInvalidTag b)) /\
  (b / 32 mod 4 <> 3 -> exists c, run read_optimised_tag (b :: rest) = Ok ((b, c), rest) /\ to_bits c = b / 32 mod 4 /\ variant_id b = b mod 32).
Proof.
  intros b rest Hb.
  assert (H : forallb (fun k => let b := N.of_nat k in
      match size_class b with
      | Ok c => negb (b / 32 mod 4 =? 3) && (to_bits c =? b / 32 mod 4) && (variant_id b =? b mod 32)
      | Err (EInvalidTag x) => (x =? b) && (b / 32 mod 4 =? 3)
      | _ => false end) (seq 0 256) = true) by (vm_compute; reflexivity).
  rewrite forallb_forall in H. specialize (H (N.to_nat b) ltac:(apply in_seq; lia)). cbv zeta in H. rewrite N2Nat.id in H.
  unfold read_optimised_tag, read_tag. rewrite run_bind, run_read_byte_cons, run_bind, run_of_res.
  destruct (size_class b) as [c|[]|]; try discriminate; cbn [rmap].
  - apply andb_prop in H. destruct H as [H H3]. apply andb_prop in H. destruct H as [H1 H2]. apply negb_true_iff in H1.
    apply N.eqb_neq in H1. apply N.eqb_eq in H2, H3. split; [contradiction|]. intros _. exists c. auto.
  - apply andb_prop in H. destruct H as [H1 H2]. apply N.eqb_eq in H1, H2. subst. split; [reflexivity|contradiction].
Qed.

(** ** The hypotheses are met *)
Example edit_old_new : edit_program old new.
Proof.
  repeat split; try reflexivity. intros n s. cbn [old ex_env e_sch new]. unfold sch1, sch3.
  destruct (n =? 1) eqn:E1; [|destruct (n =? 2) eqn:E2]; intros H; inversion H; subst; eexists; (split; [reflexivity|]).
  - split; [eexists; reflexivity|]. cbn [edit_body user1 user3 s_body].
    apply ef_keep; [unfold edit_field, edit_end; repeat split; auto|].
    apply ef_keep; [unfold edit_field, edit_end; repeat split; auto|].
    { right. split; [reflexivity|]. exists 3. split; reflexivity. }
    apply ef_keep; [unfold edit_field, edit_end; repeat split; auto|].
    repeat (apply ef_add; [reflexivity|]). apply ef_nil.
  - split; [eexists; reflexivity|]. cbn [edit_body shape1 shape2 s_body].
    apply ev_keep; [unfold edit_variant, edit_end; repeat split; auto using edit_fields_refl|].
    apply ev_keep; [unfold edit_variant, edit_end; repeat split; auto using edit_fields_refl|].
    { right. split; [reflexivity|]. exists 2. split; reflexivity. }
    repeat (apply ev_add; [reflexivity|]). apply ev_nil.
Qed.
Example later_old_new : later old new.
Proof. apply rt_step, edit_old_new. Qed.
Example opt_safe_old_new : opt_safe old new.
Proof.
  intros n s s' h. cbn [old ex_env e_sch new]. unfold sch1, sch3. destruct (n =? 1); [|destruct (n =? 2)]; intros H H'; inversion H; inversion H'; subst;
  vm_compute; intros Hh; inversion Hh; subst; discriminate.
Qed.
Example user_new : user_panics new (fun x => x <> PStack).
Proof.
  intros n s. cbn [ex_env e_sch new]. unfold sch3. destruct (n =? 1) eqn:E1; [|destruct (n =? 2) eqn:E2]; intros H; inversion H; subst; cbn [s_body user3 shape2].
  - split; [|discriminate]. intros f r x Hf. repeat destruct Hf as [<-|Hf]; try contradiction; (split; [discriminate|]); intros l v; try discriminate.
    cbn. unfold age_to_birth. destruct l as [|? [|? [|? [|? [|? [|]]]]]]; try discriminate. destruct v; discriminate.
  - split.
    + intros f r x (v & Hv & Hf). repeat destruct Hv as [<-|Hv]; try contradiction; cbn in Hf; repeat destruct Hf as [<-|Hf]; try contradiction; (split; [discriminate|]); intros; discriminate.
    + intros vs v l r x Hvs Hv. inversion Hvs; subst. repeat destruct Hv as [<-|Hv]; try contradiction; discriminate.
Qed.
(** The old program's user is read by the new one; [age] went through its convert function. *)
Example C17_instance : forall rest, run (deserialize new 5 (TRef 1)) ([1; 3; 97; 195; 169; 41; 0; 0; 0; 2; 3; 0; 255; 255] ++ rest) =
  Ok (VSeq [a_str [97; 195; 169]; VSeq [VInt 3; VInt 65535]; VSeq []; VInt 42; VVar 0 []], rest).
Proof.
  intros rest. destruct (C17_later_programs_read old new 1 5 (TRef 1) u_old _ rest wf_old wf_new later_old_new opt_safe_old_new user_new honest_old wt_old ltac:(lia) enc_old) as [H|[H _]].
  - rewrite mig_old in H. exact H.
  - elim H. reflexivity.
Qed.
Example C18_instance : forall b rest, to_vec old 1 (TRef 2) s_old = Ok b -> run (deserialize new 1 (TRef 2)) (b ++ rest) = Ok (VVar 0 [VInt 0], rest).
Proof.
  intros b rest Hb. destruct (C17_later_programs_read old new 1 1 (TRef 2) s_old _ rest wf_old wf_new later_old_new opt_safe_old_new user_new honest_old wt_s_old ltac:(lia) Hb) as [H|[H _]].
  - rewrite mig_s_old in H. exact H.
  - elim H. reflexivity.
Qed.
Example C19_instance : run (deserialize new 1 (TRef 1)) [4; 0; 0] = Err (EDeserialize MInvalidRevision).
Proof. apply (C19_deserialize_rejects new 0 1 user3 4 _ [0; 0]); [reflexivity|right; reflexivity|reflexivity]. Qed.
Example C22_instance : exists ds, calc_disc 2 (match s_body shape2 with SEnum vs => vs | _ => [] end) = Some ds /\ map snd ds = [0; 1; 2].
Proof. eexists. split; vm_compute; reflexivity. Qed.

Print Assumptions C17_later_programs_read.
Print Assumptions C17_plain_fields.
Print Assumptions C17_struct_migration.
Print Assumptions C17_built_in_fields_keep_their_value.
Print Assumptions C18_enum_migration.
Print Assumptions C19_deserialize_rejects.
Print Assumptions C20_header_is_current.
Print Assumptions C22_distinct.
Print Assumptions C22_rejected_iff_clash.
Print Assumptions C22_lowest_free.
Print Assumptions C22_automatic.
Print Assumptions C23_append_keeps_discriminants.
Print Assumptions C25_round_trip.
Print Assumptions C25_distinct.
Print Assumptions C25_reserved_class_rejected.
