(** Properties of the attributes of derived types: which declarations compile (C21) and what they declare (C50). *)

From Verif Require Import Base BaseL Prog ProgL Prim Ty Ser De Typed Mig RtL RtId Agree Spec Cross Ex DiscL OrdL Macro MacroSpec MacroL PropWire.
From Coq Require Import List NArith ZArith Bool Lia Permutation.
Import ListNotations.
Open Scope N_scope.

(** ** C21 *)

(** What compiles has its history in exactly one of the two places; it says [revision = N], or has one entry for
    each of 1..=N; and 1 <= N <= 65535, which is the current revision. *)
Theorem C21_accepted_histories : forall i s x, expand i = Done (s, x) ->
  ((silent (mi_attrs i) /\ declares (mi_args i) (s_hist s)) \/ (silent (mi_args i) /\ declares (mi_attrs i) (s_hist s)))
  /\ 1 <= scur s <= 65535.
Proof.
  intros i s x H. apply expand_accepted in H. destruct H as [H1 H2 _ _ _ _]. split; [exact H1|].
  change (2 ^ 16) with 65536 in H2. lia.
Qed.
Print Assumptions C21_accepted_histories.

(** The order of the entries does not matter. *)
Theorem C21_order_irrelevant : forall i i' r, mi_kind i' = mi_kind i ->
  others (mi_args i) = others (mi_args i') -> Permutation (entries (mi_args i)) (entries (mi_args i')) ->
  others (mi_attrs i) = others (mi_attrs i') -> Permutation (entries (mi_attrs i)) (entries (mi_attrs i')) ->
  (expand i = Done r <-> expand i' = Done r).
Proof.
  intros i i' [s x] Hk H1 P1 H2 P2. split; intros H.
  - eapply expand_order; eassumption.
  - eapply expand_order; try eassumption; try (symmetry; assumption); apply Permutation_sym; assumption.
Qed.
Print Assumptions C21_order_irrelevant.

(** Nor does anything else about the way a history is written, nor the place where it is written. *)
Theorem C21_only_history_matters : forall l l' h k r, declares l h -> declares l' h -> only_revisions l -> only_revisions l' -> len h <= 65535 ->
  (expand (mkItem l [] k) = Done r <-> expand (mkItem l' [] k) = Done r)
  /\ (expand (mkItem l [] k) = Done r <-> expand (mkItem [] l' k) = Done r).
Proof.
  intros l l' h k r Hd Hd' Ho Ho' Hl. assert (Hl2 : len h < 2 ^ 16) by (change (2 ^ 16) with 65536; lia).
  destruct (finish_item_hist _ _ Hd Ho Hl2) as (a & e & Hf). destruct (finish_item_hist _ _ Hd' Ho' Hl2) as (a' & e' & Hf').
  assert (Hn : finish_item [] = Done (iopts0, [])) by reflexivity.
  split; split; intros H; (eapply expand_cong; [..|exact H]); try eassumption; try reflexivity; auto.
Qed.
Print Assumptions C21_only_history_matters.

(** Every history of 1 to 65535 revisions can be declared, in any of these ways. *)
Theorem C21_complete : forall l h fs, declares l h -> only_revisions l -> len h <= 65535 -> (forall f, In f fs -> mf_opts f = []) ->
  exists fs', expand (mkItem l [] (KStruct fs)) = Done (MkSchema h (SStruct fs') false, mkImpls true true true true true)
              /\ Forall2 field_made fs fs'.
Proof.
  intros l h fs Hd Ho Hl Hfs. assert (Hl2 : len h < 2 ^ 16) by (change (2 ^ 16) with 65536; lia).
  destruct (finish_item_hist _ _ Hd Ho Hl2) as (a & e & Hf).
  set (fs' := map (fun m => field_of m fopts0) fs).
  assert (Hp : mmap parse_field fs = Done (map (fun f => (f, false)) fs')).
  { unfold fs'. clear - Hfs. induction fs as [|m fs IH]; [reflexivity|]. cbn [mmap map]. unfold parse_field at 1. rewrite (Hfs m (or_introl eq_refl)).
    cbn. rewrite IH by (intros f Hi; apply Hfs; right; exact Hi). reflexivity. }
  exists fs'. split.
  - unfold expand. cbn [mi_args mi_attrs mi_kind]. rewrite Hf. cbn [mbind fst snd parse_kind]. rewrite Hp. cbn [mbind finish_item mfold iopts0 resolve_history io_revision io_entries snd fst].
    assert (Hne := declares_ne _ _ Hd).
    assert (Hfst : map fst (numbered_hist h) = upto (length (numbered_hist h))).
    { unfold numbered_hist. rewrite combine_length. replace (length (upto (length h))) with (length h) by (unfold upto; rewrite map_length, seq_length; reflexivity).
      rewrite PeanoNat.Nat.min_id. assert (L : length (upto (length h)) = length h) by (unfold upto; rewrite map_length, seq_length; reflexivity).
      revert L. generalize (upto (length h)). clear. induction h; intros [|x l] L; cbn in *; try discriminate; [reflexivity|]. f_equal. apply IHh. lia. }
    assert (Hsnd : map snd (numbered_hist h) = h).
    { unfold numbered_hist. assert (L : length (upto (length h)) = length h) by (unfold upto; rewrite map_length, seq_length; reflexivity).
      revert L. generalize (upto (length h)). clear. induction h; intros [|x l] L; cbn in *; try discriminate; [reflexivity|]. f_equal. apply IHh. lia. }
    assert (Hlen : len (numbered_hist h) = len h) by (unfold len; rewrite <- Hsnd at 2; rewrite map_length; reflexivity).
    remember (numbered_hist h) as nh eqn:En. clear En. destruct nh as [|p nh]; [cbn in Hsnd; congruence|]. cbn [mbind].
    remember (p :: nh) as ph eqn:En. assert (Hpn : ph <> []) by (rewrite En; discriminate). clear En Hf p nh.
    rewrite (last_upto _ _ Hpn Hfst), Hlen. rewrite (proj2 (N.ltb_lt _ _) Hl2). cbn [guard mbind].
    assert (H0 : 0 < len h) by (destruct h; [congruence|]; unfold len; cbn [length]; lia). rewrite (proj2 (N.ltb_lt _ _) H0). cbn [guard mbind].
    assert (Hfl : forall f, In f fs' -> f_start f = 0 /\ f_end f = None /\ f_fixed f = false).
    { unfold fs'. intros f Hi. apply in_map_iff in Hi. destruct Hi as (m & <- & _). repeat split. }
    assert (He : existsb snd (map (fun f : field => (f, false)) fs') = false) by (clear; induction fs'; cbn; auto).
    rewrite map_map, map_id, He. cbn [validate_revision].
    assert (Hv : mall (field_range (len h)) fs' = Done tt).
    { apply mall_intro, Forall_forall. intros f Hi. destruct (Hfl f Hi) as (E1 & E2 & _). unfold field_range, in_range. rewrite E1, E2. replace (0 <=? len h) with true by (symmetry; apply N.leb_le; lia). reflexivity. }
    assert (Hx : forall r, mall (fixed_type r) fs' = Done tt).
    { intros r. apply mall_intro, Forall_forall. intros f Hi. destruct (Hfl f Hi) as (_ & _ & E). unfold fixed_type. rewrite E, andb_false_r. reflexivity. }
    rewrite Hv. cbn [mbind].
    assert (Ho2 : mall (validate_optimised (SStruct fs')) ph = Done tt) by (apply mall_intro, Forall_forall; intros; reflexivity).
    rewrite Ho2. cbn [mbind emit_serialize]. rewrite Hx.
    assert (Ho3 : mall (emit_deserialize (SStruct fs')) ph = Done tt).
    { apply mall_intro, Forall_forall. intros y _. cbn [emit_deserialize]. rewrite Hx. destruct (h_opt (snd y)); reflexivity. }
    rewrite Ho3, Hsnd. cbn [io_skip io_walk io_de io_ser]. destruct (h_opt _); reflexivity.
  - apply mmap_done in Hp. unfold fs' in *. clear - Hp. induction fs as [|m fs IH]; [constructor|]. cbn [map] in *. inversion Hp; subst.
    constructor; [|auto]. match goal with H : parse_field m = _ |- _ => apply parse_field_made in H; apply H end.
Qed.
Print Assumptions C21_complete.

(** Rejected: *)
Lemma not_done_rejected : forall i, (forall s x, expand i <> Done (s, x)) -> rejected i.
Proof. intros i H. unfold rejected. destruct (expand i) as [[s x]|e] eqn:E; [exfalso; exact (H _ _ eq_refl)|eauto]. Qed.
Lemma declares_twice : forall l h n o o' a b c, declares l h -> entries l = a ++ (n, o) :: b ++ (n, o') :: c -> False.
Proof.
  intros l h n o o' a b c [(m & _ & E & _)|(_ & _ & P & _)] He; [rewrite E in He; destruct a; discriminate|].
  assert (Hn : NoDup (map fst (entries l))) by (apply (Permutation_NoDup (Permutation_sym P)), upto_nodup).
  rewrite He, map_app in Hn. cbn [map fst] in Hn. apply NoDup_remove_2 in Hn. apply Hn, in_or_app. right. rewrite map_app. apply in_or_app. right. left. reflexivity.
Qed.
(** - an entry given twice, *)
Theorem C21_duplicate_rejected : forall i l n o o' a b c, l = mi_args i \/ l = mi_attrs i ->
  entries l = a ++ (n, o) :: b ++ (n, o') :: c -> rejected i.
Proof.
  intros i l n o o' a b c Hl He. apply not_done_rejected. intros s x H. apply C21_accepted_histories in H. destruct H as [[[[Sn Se] D]|[[Sn Se] D]] _];
    destruct Hl; subst l; try (rewrite Se in He; destruct a; discriminate); eapply declares_twice; eassumption.
Qed.
Print Assumptions C21_duplicate_rejected.
(** - revision 0, in either syntax, *)
Theorem C21_zero_rejected : forall i l o, l = mi_args i \/ l = mi_attrs i -> In (IRevision 0) l \/ In (IEntry 0 o) l -> rejected i.
Proof.
  intros i l o Hl H0. apply not_done_rejected. intros s x H. apply C21_accepted_histories in H. destruct H as [H _].
  assert (Hz : In 0 (numbers l) \/ In (0, o) (entries l)).
  { unfold numbers, entries. destruct H0 as [H0|H0]; [left|right]; apply in_flat_map; eexists; split; try exact H0; left; reflexivity. }
  assert (Hd : (exists h, declares l h) \/ silent l) by (destruct Hl; subst l; destruct H as [[? ?]|[? ?]]; eauto).
  destruct Hd as [(h & [(n & E1 & E2 & Hn & _)|(E1 & _ & P & _)])|[E1 E2]].
  - rewrite E1, E2 in Hz. destruct Hz as [[->|[]]|[]]. lia.
  - rewrite E1 in Hz. destruct Hz as [[]|Hz]. apply (in_map fst), (Permutation_in _ P) in Hz. apply In_nth_error in Hz. destruct Hz as (i0 & Hz). apply upto_nth in Hz. cbn [fst] in Hz. lia.
  - rewrite E1, E2 in Hz. destruct Hz as [[]|[]].
Qed.
Print Assumptions C21_zero_rejected.
(** - a revision left out below another one, *)
Theorem C21_gap_rejected : forall i l n o m, l = mi_args i \/ l = mi_attrs i -> In (IEntry n o) l -> 1 <= m < n ->
  (forall o', ~ In (IEntry m o') l) -> rejected i.
Proof.
  intros i l n o m Hl Hn Hm Hno. apply not_done_rejected. intros s x H. apply C21_accepted_histories in H. destruct H as [H _].
  assert (Hz : In (n, o) (entries l)) by (unfold entries; apply in_flat_map; eexists; split; [exact Hn|left; reflexivity]).
  assert (Hd : (exists h, declares l h) \/ silent l) by (destruct Hl; subst l; destruct H as [[? ?]|[? ?]]; eauto).
  destruct Hd as [(h & [(q & E1 & E2 & Hq & _)|(E1 & _ & P & _)])|[E1 E2]]; try (rewrite E2 in Hz; destruct Hz).
  apply (in_map fst), (Permutation_in _ P) in Hz. cbn [fst] in Hz. apply In_nth_error in Hz. destruct Hz as (i0 & Hz). apply upto_nth in Hz. destruct Hz as [-> Hi].
  assert (Hmi : In m (upto (length h))) by (unfold upto; apply in_map_iff; exists (N.to_nat m); split; [lia|apply in_seq; lia]).
  apply (Permutation_in _ (Permutation_sym P)) in Hmi. apply in_map_iff in Hmi. destruct Hmi as ([m' o'] & E & Hi'). cbn [fst] in E. subst m'.
  unfold entries in Hi'. apply in_flat_map in Hi'. destruct Hi' as (y & Hy & Hi'). destruct y; try (destruct Hi'; fail). destruct Hi' as [Hi'|[]]. inversion Hi'; subst. eapply Hno, Hy.
Qed.
Print Assumptions C21_gap_rejected.
(** - both syntaxes at once, *)
Theorem C21_mixed_rejected : forall i l n m o, l = mi_args i \/ l = mi_attrs i -> In (IRevision n) l -> In (IEntry m o) l -> rejected i.
Proof.
  intros i l n m o Hl Hn Hm. apply not_done_rejected. intros s x H. apply C21_accepted_histories in H. destruct H as [H _].
  assert (H1 : In n (numbers l)) by (unfold numbers; apply in_flat_map; eexists; split; [exact Hn|left; reflexivity]).
  assert (H2 : In (m, o) (entries l)) by (unfold entries; apply in_flat_map; eexists; split; [exact Hm|left; reflexivity]).
  assert (Hd : (exists h, declares l h) \/ silent l) by (destruct Hl; subst l; destruct H as [[? ?]|[? ?]]; eauto).
  destruct Hd as [(h & [(q & E1 & E2 & _)|(E1 & _)])|[E1 E2]]; try (rewrite E1 in H1; destruct H1; fail). rewrite E2 in H2; destruct H2.
Qed.
Print Assumptions C21_mixed_rejected.
(** - revisions in both places, or in none, *)
Theorem C21_one_source : forall i, (silent (mi_args i) /\ silent (mi_attrs i)) \/ (~ silent (mi_args i) /\ ~ silent (mi_attrs i)) -> rejected i.
Proof.
  intros i Hi. apply not_done_rejected. intros s x H. apply C21_accepted_histories in H. destruct H as [H _].
  assert (Hns : forall l h, declares l h -> ~ silent l) by (intros l h [(n & E & _)|(_ & E & _)] [S1 S2]; [congruence|contradiction]).
  destruct H as [[S D]|[S D]]; apply Hns in D; tauto.
Qed.
Print Assumptions C21_one_source.
(** - more than 65535 revisions. *)
Theorem C21_too_many_rejected : forall i l n o, l = mi_args i \/ l = mi_attrs i -> In (IRevision n) l \/ In (IEntry n o) l -> 65535 < n -> rejected i.
Proof.
  intros i l n o Hl Hn Hb. apply not_done_rejected. intros s x H. apply C21_accepted_histories in H. destruct H as [H Hc].
  assert (Hz : In n (numbers l) \/ In (n, o) (entries l)).
  { unfold numbers, entries. destruct Hn as [H0|H0]; [left|right]; apply in_flat_map; eexists; split; try exact H0; left; reflexivity. }
  assert (Hd : declares l (s_hist s) \/ silent l) by (destruct Hl; subst l; destruct H as [[? ?]|[? ?]]; eauto).
  unfold scur, len in Hc. destruct Hd as [[(q & E1 & E2 & Hq & Eh)|(E1 & _ & P & _)]|[E1 E2]].
  - rewrite E1, E2 in Hz. destruct Hz as [[->|[]]|[]]. rewrite Eh, repeat_length in Hc. lia.
  - rewrite E1 in Hz. destruct Hz as [[]|Hz]. apply (in_map fst), (Permutation_in _ P) in Hz. apply In_nth_error in Hz. destruct Hz as (i0 & Hz). apply upto_nth in Hz. cbn [fst] in Hz. lia.
  - rewrite E1, E2 in Hz. destruct Hz as [[]|[]].
Qed.
Print Assumptions C21_too_many_rejected.

(** Entries out of order, and the schema they give. *)
Definition shuffled : list iopt := [IEntry 3 [EOptimised; EIndexedStruct]; IEntry 1 []; IEntry 2 [EOptimised]].
Example shuffled_declares : declares shuffled [legacy; mkHent true false; mkHent true true] /\ only_revisions shuffled.
Proof.
  split.
  - right. split; [reflexivity|]. split; [discriminate|]. split.
    + change (Permutation [3; 1; 2] [1; 2; 3]). apply perm_trans with [1; 3; 2]; [apply perm_swap|apply perm_skip, perm_swap].
    + intros n o [H|[H|[H|[]]]]; inversion H; subst; reflexivity.
  - repeat constructor; cbn; try (intros d [H|H]; repeat destruct H as [H|H]; try discriminate; try destruct H); auto; intros [H|H]; try discriminate; try destruct H.
Qed.
Example shuffled_compiles : exists s x, expand (mkItem shuffled [] (KStruct [mkMfield (TInt U32) (Ok (VInt 0)) []])) = Done (s, x)
  /\ s_hist s = [legacy; mkHent true false; mkHent true true].
Proof. eexists; eexists. split; reflexivity. Qed.
Example rejections : rejected (mkItem [IEntry 1 []; IEntry 1 []] [] (KStruct [])) /\ rejected (mkItem [IEntry 1 []; IEntry 3 []] [] (KStruct []))
  /\ rejected (mkItem [IRevision 1; IEntry 1 []] [] (KStruct [])) /\ rejected (mkItem [IRevision 1] [IRevision 1] (KStruct []))
  /\ rejected (mkItem [] [] (KStruct [])) /\ rejected (mkItem [IRevision 0] [] (KStruct [])).
Proof. repeat split; eexists; reflexivity. Qed.

(** ** C50 *)

(** The schema says what the declaration says: fields and variants in order, with their types, the revisions they
    live in, their functions and encodings. *)
Theorem C50_schema_of_declaration : forall i s x, expand i = Done (s, x) ->
  body_made (mi_kind i) (s_body s) /\ (s_conv s = true <-> converts_somewhere (mi_kind i)).
Proof. intros i s x H. apply expand_accepted in H. destruct H as [_ _ H _ _ _]. apply parse_kind_made, H. Qed.
Print Assumptions C50_schema_of_declaration.

(** Accepted declarations, if rustc accepts them too, satisfy all that the other theorems ask of a program's types. *)
Theorem C50_accepted_is_well_formed : forall i s x, expand i = Done (s, x) -> type_checks i -> wf_schema s.
Proof. exact expand_wf. Qed.
Print Assumptions C50_accepted_is_well_formed.

(** All types of a program come from declarations. *)
Definition declared (E : env) : Prop := forall n s, e_sch E n = Some s -> exists i x, type_checks i /\ expand i = Done (s, x).
(** So the round trip of C01 holds of programs as they are written. *)
Theorem C50_round_trip_of_declarations : forall E d d' t v b,
  declared E -> (e_ub E = 32 \/ e_ub E = 64) -> (forall u, lawful (e_cmp E u)) -> (forall u l, Permutation (e_iter E u l) l) ->
  (forall c, wfb c -> len c = 16 -> wfb (e_dec E c) /\ len (e_dec E c) = 16 /\ e_dec E (e_dec E c) = e_dec E c) ->
  (forall c u w, e_ext E c u = Some w -> e_ext E c w = Some w) -> (0 <= e_time E < 2 ^ 64)%Z ->
  sizes_honest E -> wt E d t v -> (d <= d')%nat ->
  to_vec E d t v = Ok b -> or_oom E (from_slice E d' t b) (Ok v).
Proof.
  intros E d d' t v b Hd H1 H2 H3 H4 H5 H6. apply C01_round_trip. constructor; try assumption.
  intros n s Hs. destruct (Hd n s Hs) as (i & x & Ht & Hx). eapply expand_wf; eassumption.
Qed.
Print Assumptions C50_round_trip_of_declarations.

(** A field or variant that has ended has a [convert_fn], so that the decoder always has what to call. *)
Theorem C50_removed_have_convert : forall i s x, expand i = Done (s, x) ->
  (forall fs m r, fields_of i fs -> In m fs -> r <= scur s -> field_lives r m -> ~ field_lives (scur s) m -> exists c, In (FConvert c) (mf_opts m))
  /\ (forall ms v r, mi_kind i = KEnum ms -> In v ms -> r <= scur s -> variant_lives r v -> ~ variant_lives (scur s) v -> exists c, In (VConvert c) (mv_opts v)).
Proof.
  intros i s x H. destruct (expand_converts _ _ _ H) as [H1 H2].
  split.
  - intros fs m r Hfs Hm Hr [L1 L2] Hd.
    assert (He : exists n, In (FEnd n) (mf_opts m)).
    { destruct (existsb (fun o => match o with FEnd _ => true | _ => false end) (mf_opts m)) eqn:E.
      - apply existsb_exists in E. destruct E as (o & Ho & E). destruct o; try discriminate. eauto.
      - exfalso. apply Hd. split; [intros n Hn; specialize (L1 n Hn); lia|]. intros n Hn. exfalso.
        assert (existsb (fun o => match o with FEnd _ => true | _ => false end) (mf_opts m) = true) by (apply existsb_exists; exists (FEnd n); auto). congruence. }
    destruct He as (n & Hn). eapply H1; eassumption.
  - intros ms v r Ek Hv Hr [L1 L2] Hd.
    assert (He : exists n, In (VEnd n) (mv_opts v)).
    { destruct (existsb (fun o => match o with VEnd _ => true | _ => false end) (mv_opts v)) eqn:E.
      - apply existsb_exists in E. destruct E as (o & Ho & E). destruct o; try discriminate. eauto.
      - exfalso. apply Hd. split; [intros n Hn; specialize (L1 n Hn); lia|]. intros n Hn. exfalso.
        assert (existsb (fun o => match o with VEnd _ => true | _ => false end) (mv_opts v) = true) by (apply existsb_exists; exists (VEnd n); auto). congruence. }
    destruct He as (n & Hn). eapply H2; eassumption.
Qed.
Print Assumptions C50_removed_have_convert.

(** No revision named by a field or variant lies after the type's current one. *)
Definition start_in (cur : N) (o : fopt) : Prop := match o with FStart n | FEnd n => n <= cur | _ => True end.
Definition vstart_in (cur : N) (o : vopt) : Prop := match o with VStart n | VEnd n => n <= cur | _ => True end.
Theorem C50_lifetimes_in_range : forall i s x, expand i = Done (s, x) ->
  (forall fs m o, fields_of i fs -> In m fs -> In o (mf_opts m) -> start_in (scur s) o)
  /\ (forall ms v o, mi_kind i = KEnum ms -> In v ms -> In o (mv_opts v) -> vstart_in (scur s) o).
Proof. exact expand_ranges. Qed.
Print Assumptions C50_lifetimes_in_range.

(** Which traits are implemented: by the flags among the macro's own arguments. *)
Theorem C50_traits_implemented : forall i s x, expand i = Done (s, x) ->
  let ser := or_else (last_flag serialize_flag (mi_args i)) true in
  let de := or_else (last_flag deserialize_flag (mi_args i)) true in
  im_ser x = ser /\ im_de x = de
  /\ im_skip x = or_else (last_flag skip_flag (mi_args i)) de
  /\ im_check x = im_skip x && de
  /\ im_walk x = or_else (last_flag walk_flag (mi_args i)) de
  /\ (im_walk x = true -> converts_somewhere (mi_kind i) -> ser = true /\ de = true).
Proof.
  intros i s x H. destruct (expand_impls _ _ _ H) as (H1 & H2 & H3 & H4 & H5 & H6). repeat split; auto.
  all: intros; apply H6; auto; apply (C50_schema_of_declaration _ _ _ H); assumption.
Qed.
Print Assumptions C50_traits_implemented.
(** The documented spelling of the flags, [#[revision(serialize = false)]] on the item, has no effect. *)
Theorem C50_attribute_flags_refuted : exists i s x, In (ISerialize false) (mi_attrs i) /\ In (IDeserialize false) (mi_attrs i)
  /\ expand i = Done (s, x) /\ im_ser x = true /\ im_de x = true.
Proof.
  exists (mkItem [IRevision 1] [ISerialize false; IDeserialize false] (KStruct [])). do 2 eexists.
  split; [cbn; auto|]. split; [cbn; auto|]. split; [reflexivity|]. split; reflexivity.
Qed.
Print Assumptions C50_attribute_flags_refuted.

(** A declaration that compiles: an enum with an optimised second revision, a removed variant and a removed field. *)
Definition shape : mitem :=
  mkItem [IEntry 2 [EOptimised]; IEntry 1 []] []
    (KEnum [ mkMvariant 0 [VSize SInline; VOverride [ORevision 2; ODiscriminant 4]] [];
             mkMvariant 1 [VSize SVarlen]
               [mkMfield (TInt U32) (Ok (VInt 0)) []; mkMfield TStr (Ok (VBytes [])) [FStart 2; FDefault (fun _ => Ok (VBytes [1]))];
                mkMfield TBool (Ok (VBool false)) [FEnd 2; FConvert (fun l _ _ => Ok l)]];
             mkMvariant 2 [VEnd 2; VConvert (fun _ _ => Ok (VVar 0 []))] [] ]).
Example shape_compiles : exists s x, expand shape = Done (s, x) /\ s_conv s = true /\ type_checks shape /\ wf_schema s.
Proof.
  assert (Ht : type_checks shape).
  { split.
    - intros fs f (v & Hv & ->) Hf. repeat destruct Hv as [<-|Hv]; try destruct Hv; cbn in Hf; repeat destruct Hf as [<-|Hf]; try destruct Hf;
        repeat split; intros H; repeat destruct H as [H|H]; try discriminate; destruct H.
    - split; [|vm_compute; discriminate]. repeat constructor; cbn; intuition discriminate. }
  assert (He : exists s x, expand shape = Done (s, x) /\ s_conv s = true) by (do 2 eexists; split; reflexivity).
  destruct He as (s & x & He & Hc). exists s, x. exact (conj He (conj Hc (conj Ht (expand_wf _ _ _ He Ht)))).
Qed.
(** Rejected: an ended field without [convert_fn], a clash of overrides, a field that starts later than the type's
    revision, an inline variant with fields in the current optimised revision, a missing size class, walking with a
    [convert_fn] when the type is not serialised. *)
Example other_rejections :
  rejected (mkItem [IRevision 2] [] (KStruct [mkMfield TBool (Ok (VBool false)) [FEnd 2]]))
  /\ rejected (mkItem [IRevision 1] [] (KEnum [mkMvariant 0 [VOverride [ORevision 1; ODiscriminant 3]] []; mkMvariant 1 [VOverride [ORevision 1; ODiscriminant 3]] []]))
  /\ rejected (mkItem [IRevision 1] [] (KStruct [mkMfield TBool (Ok (VBool false)) [FStart 2]]))
  /\ rejected (mkItem [IEntry 1 [EOptimised]] [] (KEnum [mkMvariant 0 [VSize SInline] [mkMfield TBool (Ok (VBool false)) []]]))
  /\ rejected (mkItem [IEntry 1 [EOptimised]] [] (KEnum [mkMvariant 0 [] []]))
  /\ rejected (mkItem [IRevision 2; ISerialize false] [] (KStruct [mkMfield TBool (Ok (VBool false)) [FEnd 2; FConvert (fun l _ _ => Ok l)]])).
Proof. repeat split; eexists; reflexivity. Qed.
(** Not rejected: two overrides for one revision; the later one counts. *)
Example repeated_override : exists v c, parse_variant (mkMvariant 0 [VOverride [ORevision 1; ODiscriminant 3]; VOverride [ORevision 1; ODiscriminant 5]] []) = Done (v, c)
  /\ v_over v 1 = Some 5.
Proof. do 2 eexists. split; reflexivity. Qed.
