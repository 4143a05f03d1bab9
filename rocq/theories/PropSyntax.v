(** Properties of declarations as they are written: how attributes are read (C69) and what type is emitted (C70). *)

From Verif Require Import Base Prim Ty Typed Ex Macro MacroSpec MacroL Syntax SyntaxSpec SyntaxL.
From Coq Require Import List NArith ZArith Bool Ascii String Lia.
Import ListNotations.
Open Scope N_scope.
Open Scope list_scope.
Open Scope string_scope.

(** ** C69 *)

(** The options of a field, of a variant, of a type and of the macro itself are read exactly when they are written as
    the grammar says: to the last token, all of them, in order. *)
Theorem C69_field_options : forall sc ts l, all_terminated (field_option sc) ts = Done l <-> listed (field_option_text sc) l ts.
Proof. intros sc ts l. apply all_terminated_iff, field_option_reads. Qed.
Print Assumptions C69_field_options.
Theorem C69_variant_options : forall sc ts l, all_terminated (variant_option sc) ts = Done l <-> listed (variant_option_text sc) l ts.
Proof. intros sc ts l. apply all_terminated_iff, variant_option_reads. Qed.
Print Assumptions C69_variant_options.
Theorem C69_item_options : forall ts l, all_terminated item_option ts = Done l <-> listed item_option_text l ts.
Proof. intros ts l. apply all_terminated_iff, item_option_reads. Qed.
Print Assumptions C69_item_options.
(** The text of [size = ".."]. *)
Theorem C69_size : forall s z, parse_variant_size s = Done z <-> size_text z s.
Proof. intros s z. apply size_iff. Qed.
Print Assumptions C69_size.
(** Whole declarations: a declaration is read exactly when it is written as the grammar says. *)
Theorem C69_items : forall sc ts i, parse2 sc ts = Done i <-> item_text sc true i ts.
Proof. exact item_iff. Qed.
Print Assumptions C69_items.
(** Nothing can be read in two ways. *)
Theorem C69_unambiguous : forall sc ts i j, item_text sc true i ts -> item_text sc true j ts -> i = j.
Proof. intros sc ts i j Hi Hj. apply item_iff in Hi, Hj. congruence. Qed.
Print Assumptions C69_unambiguous.

(** [#[revisioned(args)] input] derives [r] exactly when the arguments and the declaration can be read and their options
    mean [r] (C21, C50 say what options mean). *)
Theorem C69_accepts : forall sc args input r, (exists out, revisioned sc args input = Done (r, out))
  <-> exists a i, listed item_option_text a args /\ item_text sc true i input /\ expand (mkItem a (si_opts i) (mkind_of (si_kind i))) = Done r.
Proof.
  intros sc args input r. unfold revisioned. split.
  - intros (out & H). apply mbind_done in H. destruct H as (a & Ha & H). apply mbind_done in H. destruct H as (i & Hi & H). apply mbind_done in H. destruct H as (x & Hx & H). inversion H; subst.
    exists a, i. split; [apply C69_item_options, Ha|]. split; [apply item_iff, Hi|exact Hx].
  - intros (a & i & Ha & Hi & Hx). apply C69_item_options in Ha. apply item_iff in Hi. exists (reexport (scur (fst r)) i). rewrite Ha. cbn [mbind]. rewrite Hi. cbn [mbind]. rewrite Hx. reflexivity.
Qed.
Print Assumptions C69_accepts.

(** A word at the place of an option's name that names no option is an error, wherever in the list it is. *)
Definition field_keys : list string := ["start"; "end"; "convert_fn"; "default_fn"; "indexed_map"; "indexed_seq"; "indexed_set"; "fixed"; "specialised"].
Definition variant_keys : list string := ["start"; "end"; "convert_fn"; "default_fn"; "fields_name"; "override"; "size"].
Definition item_keys : list string := ["revision"; "serialize"; "deserialize"; "skip"; "walk"].
Definition at_name (pre : list tok) : Prop := pre = [] \/ exists q, pre = (q ++ [comma])%list.
Lemma name_place : forall A (R : A -> list tok -> Prop) keys, (forall x a, R x a -> a <> [] /\ ~ In comma a) -> (forall x k a, R x (Id k :: a) -> In k keys) ->
  forall l pre k post, at_name pre -> listed R l (pre ++ Id k :: post) -> In k keys.
Proof.
  intros A R keys Hc Hk l pre k post [->|(q & ->)] [tr H].
  - destruct (separated_head R Hc _ _ _ _ H) as (x & a & _ & Hx). exact (Hk _ _ _ Hx).
  - rewrite <- app_assoc in H. cbn [app] in H. destruct (separated_split R Hc _ _ _ H q (Id k :: post) eq_refl) as (l1 & l2 & tr2 & _ & _ & _ & H2 & _).
    destruct (separated_head R Hc _ _ _ _ H2) as (x & a & _ & Hx). exact (Hk _ _ _ Hx).
Qed.
Ltac key_in := let H := fresh in intros ? ? ? H; inversion H; subst; repeat (first [left; reflexivity|right]).
Theorem C69_unknown_field_option : forall sc pre k post l, at_name pre -> ~ In k field_keys -> all_terminated (field_option sc) (pre ++ Id k :: post) <> Done l.
Proof. intros sc pre k post l Hp Hk H. apply C69_field_options in H. apply Hk. revert H. apply name_place; [apply field_option_clean|key_in|exact Hp]. Qed.
Print Assumptions C69_unknown_field_option.
Theorem C69_unknown_variant_option : forall sc pre k post l, at_name pre -> ~ In k variant_keys -> all_terminated (variant_option sc) (pre ++ Id k :: post) <> Done l.
Proof. intros sc pre k post l Hp Hk H. apply C69_variant_options in H. apply Hk. revert H. apply name_place; [apply variant_option_clean|key_in|exact Hp]. Qed.
Print Assumptions C69_unknown_variant_option.
Theorem C69_unknown_item_option : forall pre k post l, at_name pre -> ~ In k item_keys -> all_terminated item_option (pre ++ Id k :: post) <> Done l.
Proof. intros pre k post l Hp Hk H. apply C69_item_options in H. apply Hk. revert H. apply name_place; [apply item_option_clean|key_in|exact Hp]. Qed.
Print Assumptions C69_unknown_item_option.

(** Several [#[revision(..)]] on a type mean what one with all their options means. *)
Definition rev_attr (d : delim) (g : list tok) : list tok := [pound; Grp Brack [Id "revision"; Grp d g]].
Definition more_options (o : list iopt) (i : sitem) : sitem := mkSitem (o ++ si_opts i) (si_other i) (si_vis i) (si_name i) (si_gen i) (si_kind i).
Lemma attributes_front : forall A (R : A -> list tok -> Prop) o oth a b d g ts, attributes_text true R o oth a -> match b with Pu _ :: _ => False | _ => True end ->
  (a ++ b = rev_attr d g ++ ts)%list -> exists o1 o2 a', o = (o1 ++ o2)%list /\ listed R o1 g /\ attributes_text true R o2 oth a' /\ (a' ++ b = ts)%list.
Proof.
  intros A R o oth a b d g ts H Hb E. destruct H as [|y x opts others a Hn Ha Hat|l g' d' opts others a _ Hl Hat].
  - cbn [app] in E. subst b. destruct Hb.
  - exfalso. destruct Ha as (Hp & m & Hm & ->). unfold rev_attr in E. cbn [app] in E. injection E as E1 _. subst m. inversion Hm as [p E|p dd ll E F|p z ll E F]; subst y; cbn [a_path] in *.
    + subst p. destruct Hp as [Hp|(q & Hq & _)]; [inversion Hp|discriminate Hq].
    + change [Id "revision"; Grp d g] with ([Id "revision"] ++ [Grp d g])%list in F. apply app_inj_tail in F. destruct F as [F _]. congruence.
    + destruct p as [|t [|u p]]; cbn [app] in F; try discriminate F. injection F as _ _ F. destruct p; discriminate F.
  - unfold rev_attr in E. cbn [app] in E. injection E as _ <- E. exists l, opts, a. auto.
Qed.
Lemma item_front : forall sc d g ts i, item_text sc true i (rev_attr d g ++ ts) <-> exists o j, i = more_options o j /\ listed item_option_text o g /\ item_text sc true j ts.
Proof.
  intros sc d g ts i. split.
  - intros H. remember (rev_attr d g ++ ts)%list as us eqn:E. destruct H as [o oth v n gn fs a b Ha Hv Hn Hg Hb|o oth v n gn l tr a bs Ha Hv Hn Hg Hl].
    + pose proof (fun P => attributes_front _ item_option_text o oth a _ d g ts Ha P E) as K. destruct K as (o1 & o2 & a' & -> & H1 & H2 & <-); [destruct Hv; exact I|].
      exists o1, (mkSitem o2 oth v n gn (SkStruct fs)). split; [reflexivity|]. split; [exact H1|]. constructor; assumption.
    + pose proof (fun P => attributes_front _ item_option_text o oth a _ d g ts Ha P E) as K. destruct K as (o1 & o2 & a' & -> & H1 & H2 & <-); [destruct Hv; exact I|].
      exists o1, (mkSitem o2 oth v n gn (SkEnum l tr)). split; [reflexivity|]. split; [exact H1|]. constructor; assumption.
  - intros (o & j & -> & Ho & Hj). unfold more_options. destruct Hj as [o' oth v n gn fs a b Ha Hv Hn Hg Hb|o' oth v n gn l tr a bs Ha Hv Hn Hg Hl]; cbn [si_opts si_other si_vis si_name si_gen si_kind]; rewrite app_assoc; constructor; try assumption; (apply at_revision; [reflexivity|exact Ho|exact Ha]).
Qed.
Theorem C69_split : forall sc d d' g1 g2 ts i, g1 <> [] -> g2 <> [] -> last g1 pound <> comma ->
  parse2 sc (rev_attr d g1 ++ rev_attr d' g2 ++ ts) = Done i <-> parse2 sc (rev_attr d (g1 ++ comma :: g2) ++ ts) = Done i.
Proof.
  intros sc d d' g1 g2 ts i N1 N2 N3. rewrite !item_iff, !item_front. split.
  - intros (o1 & j & -> & (tr1 & H1) & H2). apply item_front in H2. destruct H2 as (o2 & k & -> & (tr2 & H2) & Hk). exists (o1 ++ o2)%list, k. split; [unfold more_options; cbn; rewrite app_assoc; reflexivity|]. split; [|exact Hk].
    assert (O1 : o1 <> []) by (intros ->; apply separated_nil in H1; congruence). assert (O2 : o2 <> []) by (intros ->; apply separated_nil in H2; congruence).
    exists tr2. apply (separated_join _ _ _ _ H1); [|exact O1|exact O2|exact H2]. destruct tr1; [|reflexivity]. exfalso. apply N3.
    assert (K : forall l tr b, separated item_option_text l tr b -> tr = true -> exists c, b = (c ++ [comma])%list).
    { clear. intros l tr b H. induction H as [|x a Hx|x a Hx|x a l tr b Hx Hl H IH]; intros E; try discriminate E; [exists a; reflexivity|]. destruct (IH E) as (c & ->). exists (a ++ comma :: c)%list. rewrite <- app_assoc. reflexivity. }
    destruct (K _ _ _ H1 eq_refl) as (c & ->). apply last_last.
  - intros (o & k & -> & (tr & H1) & Hk). destruct (separated_split _ item_option_clean _ _ _ H1 g1 g2 eq_refl) as (l1 & l2 & tr2 & -> & _ & K1 & K2 & _).
    exists l1, (more_options l2 k). split; [unfold more_options; cbn; rewrite app_assoc; reflexivity|]. split; [exists false; exact K1|]. apply item_front. exists l2, k. split; [reflexivity|]. split; [exists tr2; exact K2|exact Hk].
Qed.
Print Assumptions C69_split.

(** Found on the way: [=] stands nowhere between the braces of a declaration that is read, so no enum with an explicit
    discriminant ([A = 1]) is, although the parser has a place for one. *)
Lemma attributes_no_equals : forall A (R : A -> list tok -> Prop) o oth ts, attributes_text true R o oth ts -> ~ In equals ts.
Proof.
  intros A R o oth ts H. induction H as [|a x opts others ts Hn Ha Hat IH|l g d opts others ts _ Hl Hat IH]; intros K.
  - destruct K.
  - rewrite (attribute_tokens _ _ Ha) in K. apply in_app_or in K. destruct K as [K|K]; [|exact (IH K)]. destruct K as [K|[K|[]]]; discriminate K.
  - destruct K as [K|[K|K]]; [discriminate K|discriminate K|exact (IH K)].
Qed.
Lemma visibility_no_equals : forall v, visibility_text v -> ~ In equals v.
Proof. intros v H K. destruct H; cbn [In] in K; repeat (destruct K as [K|K]; [discriminate K|]); destruct K. Qed.
Lemma field_no_equals : forall sc f ts, field_text sc true f ts -> ~ In equals ts.
Proof.
  intros sc f ts H K. destruct H as [o oth v n t d a Ha Hv Hn|o oth v t d a Ha Hv]; apply in_app_or in K; (destruct K as [K|K]; [exact (attributes_no_equals _ _ _ _ _ Ha K)|]); apply in_app_or in K; (destruct K as [K|K]; [exact (visibility_no_equals _ Hv K)|]); cbn [In] in K; repeat (destruct K as [K|K]; [discriminate K|]); destruct K.
Qed.
Lemma fields_no_equals : forall sc f ts, fields_text sc true f ts -> ~ In equals ts.
Proof. intros sc f ts H K. destruct H; cbn [In] in K; repeat (destruct K as [K|K]; [discriminate K|]); destruct K. Qed.
Lemma variant_no_equals : forall sc f ts, variant_text sc true f ts -> ~ In equals ts.
Proof.
  intros sc f ts H K. destruct H as [o oth n fs a b Ha Hn Hb]. apply in_app_or in K. destruct K as [K|[K|K]]; [exact (attributes_no_equals _ _ _ _ _ Ha K)|discriminate K|exact (fields_no_equals _ _ _ Hb K)].
Qed.
Lemma separated_no_equals : forall A (R : A -> list tok -> Prop) l tr ts, (forall x a, R x a -> ~ In equals a) -> separated R l tr ts -> ~ In equals ts.
Proof.
  intros A R l tr ts HR H. induction H as [|x a Hx|x a Hx|x a l tr b Hx Hl H IH]; intros K.
  - destruct K.
  - exact (HR _ _ Hx K).
  - apply in_app_or in K. destruct K as [K|[K|[]]]; [exact (HR _ _ Hx K)|discriminate K].
  - apply in_app_or in K. destruct K as [K|[K|K]]; [exact (HR _ _ Hx K)|discriminate K|exact (IH K)].
Qed.
Theorem C69_discriminants_refuted : forall sc pre body i, parse2 sc (pre ++ [Grp Brace body]) = Done i -> ~ In equals body.
Proof.
  intros sc pre body i H K. apply item_iff in H. remember (pre ++ [Grp Brace body])%list as ts eqn:E. destruct H as [o oth v n g fs a b Ha Hv Hn Hg Hb|o oth v n g l tr a bs Ha Hv Hn Hg Hl].
  - destruct Hb as [l tr bs Hl|l tr bs Hl|]; cbn [app] in E.
    + rewrite (app_assoc a v) in E. change (Id "struct" :: Id n :: (g ++ [Grp Brace bs]))%list with ((Id "struct" :: Id n :: g) ++ [Grp Brace bs])%list in E. rewrite app_assoc in E. apply app_inj_tail in E. destruct E as [_ E]. injection E as ->.
      revert K. apply (separated_no_equals _ _ _ _ _ (fun x a Hx => field_no_equals sc x a (proj1 Hx)) Hl).
    + rewrite (app_assoc a v) in E. change (Id "struct" :: Id n :: (g ++ [Grp Paren bs; semi]))%list with ((Id "struct" :: Id n :: g) ++ [Grp Paren bs] ++ [semi])%list in E. rewrite !app_assoc in E. apply app_inj_tail in E. destruct E as [_ E]. discriminate E.
    + rewrite (app_assoc a v) in E. change (Id "struct" :: Id n :: (g ++ [semi]))%list with ((Id "struct" :: Id n :: g) ++ [semi])%list in E. rewrite !app_assoc in E. apply app_inj_tail in E. destruct E as [_ E]. discriminate E.
  - rewrite (app_assoc a v) in E. change (Id "enum" :: Id n :: (g ++ [Grp Brace bs]))%list with ((Id "enum" :: Id n :: g) ++ [Grp Brace bs])%list in E. rewrite app_assoc in E. apply app_inj_tail in E. destruct E as [_ E]. injection E as ->.
    revert K. apply (separated_no_equals _ _ _ _ _ (variant_no_equals sc) Hl).
Qed.
Print Assumptions C69_discriminants_refuted.

(** ** C70 *)

(** The type that takes the place of the declaration is the declaration with the fields and variants that live at the
    current revision, with the names, types, visibility and other attributes that they had, in the order they had; and
    without any [#[revision(..)]]. *)
Theorem C70_emitted : forall sc args input s x out, revisioned sc args input = Done (s, x, out) ->
  exists i j, item_text sc true i input /\ item_text sc false j out /\ bare_item (scur s) i j.
Proof.
  intros sc args input s x out H. unfold revisioned in H. apply mbind_done in H. destruct H as (a & Ha & H). apply mbind_done in H. destruct H as (i & Hi & H). apply mbind_done in H. destruct H as (y & Hy & H). inversion H; subst y out. cbn [fst] in *.
  apply item_iff in Hi. pose proof (acc_body _ _ _ (expand_accepted _ _ _ Hy)) as Hk. cbn [mi_kind] in Hk. destruct (reexport_text sc true (scur s) i input _ Hi Hk) as (j & Hj & Hb). exists i, j. auto.
Qed.
Print Assumptions C70_emitted.

(** Its fields and variants are those that the derived code encodes and decodes at the current revision. *)
Theorem C70_shape : forall sc args input s x out j, revisioned sc args input = Done (s, x, out) -> item_text sc false j out ->
  shape_of (scur s) (s_body s) (si_kind j).
Proof.
  intros sc args input s x out j H Hj. destruct (C70_emitted _ _ _ _ _ _ H) as (i & j' & Hi & Hj' & Hb).
  assert (j' = j) as -> by (exact (C69_unambiguous sc out j' j (item_weaken sc _ _ Hj') (item_weaken sc _ _ Hj))).
  unfold revisioned in H. apply mbind_done in H. destruct H as (a & Ha & H). apply mbind_done in H. destruct H as (i' & Hi' & H). apply mbind_done in H. destruct H as (y & Hy & H). inversion H; subst y. apply item_iff in Hi. rewrite Hi in Hi'. injection Hi' as <-.
  pose proof (acc_body _ _ _ (expand_accepted _ _ _ Hy)) as Hk. cbn [mi_kind] in Hk. destruct Hb as (_ & _ & _ & _ & _ & Hb). unfold shape_of.
  destruct (si_kind i) as [l tr|fs], (si_kind j) as [l' tr'|gs]; try contradiction; cbn [mkind_of parse_kind] in Hk; apply mbind_done in Hk; destruct Hk as (xs & Hxs & Hk); injection Hk as <- _.
  - exact (kept_shapes _ _ _ _ Hb Hxs).
  - exact (bare_fields_types _ _ _ _ Hb Hxs).
Qed.
Print Assumptions C70_shape.

(** A declaration without revision attributes is left as it is, token for token; so is what was emitted before. *)
Theorem C70_unchanged : forall sc args input i r out, item_text sc false i input -> revisioned sc args input = Done (r, out) -> out = input.
Proof.
  intros sc args input i r out Hi H. unfold revisioned in H. apply mbind_done in H. destruct H as (a & Ha & H). apply mbind_done in H. destruct H as (i' & Hi' & H). apply mbind_done in H. destruct H as (y & Hy & H). inversion H; subst.
  pose proof (item_weaken sc _ _ Hi) as Hw. apply item_iff in Hw. rewrite Hw in Hi'. injection Hi' as <-. apply (plain_item sc i input _ Hi).
Qed.
Print Assumptions C70_unchanged.
Theorem C70_again : forall sc args input r out args' r' out', revisioned sc args input = Done (r, out) -> revisioned sc args' out = Done (r', out') -> out' = out.
Proof. intros sc args input [s x] out args' r' out' H H'. destruct (C70_emitted _ _ _ _ _ _ H) as (i & j & _ & Hj & _). exact (C70_unchanged _ _ _ _ _ _ Hj H'). Qed.
Print Assumptions C70_again.
(** Names are told apart by their codes in the schema. *)
Theorem C70_names : forall s t, name_code s = name_code t -> s = t.
Proof.
  induction s as [|a s IH]; intros [|b t] H; cbn [name_code] in H; [reflexivity|lia|lia|].
  pose proof (N_ascii_bounded a) as Ha. pose proof (N_ascii_bounded b) as Hb.
  assert (N_of_ascii a = N_of_ascii b /\ name_code s = name_code t) as [E1 E2] by lia.
  rewrite (IH t E2). f_equal. rewrite <- (ascii_N_embedding a), <- (ascii_N_embedding b), E1. reflexivity.
Qed.
Print Assumptions C70_names.

(** ** Examples *)

(** #[revisioned(revision = 3)]
    pub struct Config {
        #[serde(rename = "n")] #[revision(start = 1)] pub id: u32,
        #[revision(end = 2, convert_fn = "split")] name: String,
        #[revision(start = 2)] #[revision(default_fn = "none",)] #[doc(hidden)] pub(crate) tags: Vec<u8>,
    } *)
Definition a_scope : scope := mkScope (fun _ vs _ _ => Ok vs) (fun _ _ _ => Ok VUnit) (fun _ _ => Ok (VSeq [])).
Definition attribute (l : list tok) : list tok := [pound; Grp Brack l].
Definition serde : list tok := attribute [Id "serde"; Grp Paren [Id "rename"; equals; Lit (chars "n")]].
Definition hidden : list tok := attribute [Id "doc"; Grp Paren [Id "hidden"]].
Definition of_revision (l : list tok) : list tok := attribute [Id "revision"; Grp Paren l].
Definition u32_ : tok := Type_ (TInt U32) (Ok (VInt 0%Z)).
Definition str_ : tok := Type_ TStr (Ok (VBytes [])).
Definition vec_ : tok := Type_ (TVec (TInt U8)) (Ok (VSeq [])).
Definition config : list tok :=
  [Id "pub"; Id "struct"; Id "Config"; Grp Brace (
    serde ++ of_revision [Id "start"; equals; Int 1] ++ [Id "pub"; Id "id"; colon; u32_; comma]
    ++ of_revision [Id "end"; equals; Int 2; comma; Id "convert_fn"; equals; Lit (chars "split")] ++ [Id "name"; colon; str_; comma]
    ++ of_revision [Id "start"; equals; Int 2] ++ of_revision [Id "default_fn"; equals; Lit (chars "none"); comma] ++ hidden
    ++ [Id "pub"; Grp Paren [Id "crate"]; Id "tags"; colon; vec_; comma])%list].
Definition config_now : list tok :=
  [Id "pub"; Id "struct"; Id "Config"; Grp Brace (
    serde ++ [Id "pub"; Id "id"; colon; u32_; comma] ++ hidden ++ [Id "pub"; Grp Paren [Id "crate"]; Id "tags"; colon; vec_; comma])%list].
Example C70_case : exists s x, revisioned a_scope [Id "revision"; equals; Int 3] config = Done (s, x, config_now) /\ scur s = 3
  /\ match s_body s with SStruct fs => map (fun f => (f_ty f, f_start f, f_end f)) fs = [(TInt U32, 1, None); (TStr, 0, Some 2); (TVec (TInt U8), 2, None)] | _ => False end.
Proof. do 2 eexists. split; [vm_compute; reflexivity|]. split; reflexivity. Qed.
Example C70_case_again : exists r, revisioned a_scope [Id "revision"; equals; Int 3] config_now = Done (r, config_now).
Proof. eexists. vm_compute. reflexivity. Qed.
(** The same history as entries, in the arguments; [serialize = false]. *)
Example C69_case : exists s x out, revisioned a_scope [Id "walk"; equals; Id "false"; comma; Id "revision"; Grp Paren [Int 2; comma; Id "optimised"]; comma; Id "serialize"; equals; Id "false"; comma; Id "revision"; Grp Paren [Int 1]; comma;
    Id "revision"; Grp Paren [Int 3; comma; Id "indexed_struct"; comma; Id "optimised"; comma]] config = Done (s, x, out) /\ im_ser x = false /\ map h_opt (s_hist s) = [false; true; true].
Proof. do 3 eexists. split; [vm_compute; reflexivity|]. split; reflexivity. Qed.
(** #[revision(starts = 2)], and the same later in the list. *)
Example C69_misspelt : all_terminated (field_option a_scope) [Id "starts"; equals; Int 2] = Fail MSyntax
  /\ all_terminated (field_option a_scope) [Id "fixed"; comma; Id "starts"; equals; Int 2] = Fail MSyntax /\ ~ In "starts" field_keys /\ at_name [Id "fixed"; comma].
Proof. split; [reflexivity|]. split; [reflexivity|]. split; [intros H; cbn in H; repeat (destruct H as [H|H]; [discriminate H|]); exact H|]. right. exists [Id "fixed"]. reflexivity. Qed.
(** An enum: one variant went at revision 2, one came then; one has a size and an override. *)
Definition shapes : list tok :=
  [Id "enum"; Id "Shape"; Grp Brace (
    of_revision [Id "end"; equals; Int 2; comma; Id "convert_fn"; equals; Lit (chars "f")] ++ [Id "Dot"; comma]
    ++ of_revision [Id "size"; equals; Lit (chars " fixed( 4 ) "); comma; Id "override"; Grp Paren [Id "revision"; equals; Int 2; comma; Id "discriminant"; equals; Int 7]]
    ++ [Id "Line"; Grp Paren ([u32_; comma] ++ of_revision [Id "start"; equals; Int 2] ++ [u32_])%list; comma]
    ++ of_revision [Id "start"; equals; Int 2] ++ [Id "Box"; Grp Brace [Id "side"; colon; u32_]])%list].
Definition shapes_now : list tok :=
  [Id "enum"; Id "Shape"; Grp Brace [Id "Line"; Grp Paren [u32_; comma; u32_]; comma; Id "Box"; Grp Brace [Id "side"; colon; u32_]]].
Example C70_enum_case : exists s x, revisioned a_scope [Id "revision"; equals; Int 2] shapes = Done (s, x, shapes_now)
  /\ match s_body s with SEnum vs => map (fun v => (v_name v, v_size v, v_over v 2)) vs = [(name_code "Dot", None, None); (name_code "Line", Some (SFixed 4), Some 7); (name_code "Box", None, None)] | _ => False end.
Proof. do 2 eexists. split; vm_compute; reflexivity. Qed.
Example C69_split_case : exists i, parse2 a_scope (rev_attr Paren [Id "revision"; equals; Int 3] ++ rev_attr Paren [Id "serialize"; equals; Id "false"] ++ config) = Done i /\ si_opts i = [IRevision 3; ISerialize false].
Proof. eexists. split; [vm_compute; reflexivity|reflexivity]. Qed.
(** Discriminants, [where] clauses, unions, trailing tokens: not read. *)
Example C69_not_read :
  parse2 a_scope [Id "enum"; Id "E"; Grp Brace [Id "A"; equals; Int 1]] = Fail MSyntax
  /\ parse2 a_scope [Id "struct"; Id "S"; Gen 0; Id "where"; Grp Brace []] = Fail MSyntax
  /\ parse2 a_scope [Id "union"; Id "U"; Grp Brace []] = Fail MSyntax
  /\ parse2 a_scope ([Id "struct"; Id "S"; semi] ++ config) = Fail MSyntax.
Proof. repeat split. Qed.
Example C69_size_case : size_text (SFixed 4) (chars " fixed( 4 ) ") /\ ~ (exists z, size_text z (chars "fixed(256)")) /\ ~ (exists z, size_text z (chars "fixed 4")).
Proof.
  split; [apply C69_size; reflexivity|]. split; intros (z & H); apply C69_size in H; vm_compute in H; discriminate H.
Qed.
