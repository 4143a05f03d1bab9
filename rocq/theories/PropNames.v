(** C79: which names of fields and variants the generated code bears. *)

From Verif Require Import Base BaseL Prog Prim Ty De Macro MacroSpec MacroL Syntax SyntaxSpec SyntaxL Names Ex.
From Coq Require Import List NArith ZArith Bool Lia Ascii String DecimalString DecimalNat.
Import ListNotations.
Open Scope N_scope.
Open Scope string_scope.

(** ** Text *)

Definition chars := list_ascii_of_string.
Lemma chars_app : forall a b, chars (a ++ b) = (chars a ++ chars b)%list.
Proof. induction a as [|c a IH]; intros b; [reflexivity|]. cbn. f_equal. apply IH. Qed.
Lemma chars_inj : forall a b, chars a = chars b -> a = b.
Proof. intros a b H. rewrite <- (string_of_list_ascii_of_string a), <- (string_of_list_ascii_of_string b). unfold chars in H. rewrite H. reflexivity. Qed.
Lemma app_cancel : forall p a b : string, p ++ a = p ++ b -> a = b.
Proof. intros p a b H. apply (f_equal chars) in H. rewrite !chars_app in H. apply app_inv_head in H. apply chars_inj, H. Qed.
Lemma app_cancel_r : forall p a b : string, a ++ p = b ++ p -> a = b.
Proof. intros p a b H. apply (f_equal chars) in H. rewrite !chars_app in H. apply app_inv_tail in H. apply chars_inj, H. Qed.
(** Two ways to cut a text at an underscore. *)
Lemma cut : forall p q x y : string, ~ In "_"%char (chars p) ->
  (p ++ "_" ++ x = y ++ "_" ++ q <-> (y = p /\ x = q) \/ exists z, y = p ++ "_" ++ z /\ x = z ++ "_" ++ q).
Proof.
  intros p q x y Hp. split.
  - intros H. apply (f_equal chars) in H. rewrite !chars_app in H. apply app_eq_app in H. destruct H as (l & [[H1 H2]|[H1 H2]]); destruct l as [|c l]; cbn [chars list_ascii_of_string app] in *.
    + left. rewrite app_nil_r in H1. split; apply chars_inj; [congruence|]. injection H2 as H2. symmetry. exact H2.
    + exfalso. injection H2 as Hc _. apply Hp. rewrite H1, Hc. apply in_or_app. right. left. reflexivity.
    + left. rewrite app_nil_r in H1. split; apply chars_inj; [congruence|]. injection H2 as H2. exact H2.
    + right. injection H2 as Hc H2. subst c. exists (string_of_list_ascii l). split; apply chars_inj; rewrite !chars_app; unfold chars; rewrite list_ascii_of_string_of_list_ascii; assumption.
  - intros [[-> ->]|(z & -> & ->)]; [reflexivity|]. apply chars_inj. rewrite !chars_app, <- !app_assoc. reflexivity.
Qed.

(** ** Lists of names *)

Definition apart {A} (l m : list A) : Prop := forall x, In x l -> ~ In x m.
Lemma nodup_app : forall A (l m : list A), NoDup (l ++ m) <-> NoDup l /\ NoDup m /\ apart l m.
Proof.
  intros A l m. induction l as [|a l IH]; cbn [app].
  - split; [intros H; repeat split; [constructor|exact H|intros x []]|tauto].
  - rewrite !NoDup_cons_iff, IH, in_app_iff. unfold apart. split.
    + intros (H1 & H2 & H3 & H4). split; [split; [intros H; apply H1; left; exact H|exact H2]|]. split; [exact H3|]. intros x [<-|Hx]; [intros H; apply H1; right; exact H|exact (H4 x Hx)].
    + intros ((H1 & H2) & H3 & H4). split; [intros [H|H]; [exact (H1 H)|exact (H4 a (or_introl eq_refl) H)]|]. split; [exact H2|]. split; [exact H3|]. intros x Hx. exact (H4 x (or_intror Hx)).
Qed.
Lemma nodup_flat : forall A B (f : A -> list B) l, NoDup l ->
  (NoDup (flat_map f l) <-> (forall a, In a l -> NoDup (f a)) /\ (forall a b, In a l -> In b l -> a <> b -> apart (f a) (f b))).
Proof.
  intros A B f l. induction l as [|a l IH]; intros Hl; cbn [flat_map].
  - split; [intros _; split; [intros a []|intros a b []]|constructor].
  - apply NoDup_cons_iff in Hl. destruct Hl as [Ha Hl]. rewrite nodup_app, (IH Hl). split.
    + intros (H1 & (H2 & H3) & H4). split; [intros x [<-|Hx]; auto|].
      intros x y [<-|Hx] [<-|Hy] Hn; [congruence| | |exact (H3 x y Hx Hy Hn)].
      * intros m Hm Hm'. apply (H4 m Hm). apply in_flat_map. eauto.
      * intros m Hm Hm'. apply (H4 m Hm'). apply in_flat_map. eauto.
    + intros (H1 & H2). split; [auto using in_eq|]. split; [split; [intros x Hx; apply H1; right; exact Hx|intros x y Hx Hy; apply H2; right; assumption]|].
      intros m Hm Hm'. apply in_flat_map in Hm'. destruct Hm' as (b & Hb & Hm'). refine (H2 a b (or_introl eq_refl) (or_intror Hb) _ m Hm Hm'). intros ->. contradiction.
Qed.

(** ** Raw identifiers: their text is [r#name], and no other identifier has a [#]. *)

Definition raw (n : string) : Prop := In "#"%char (chars n).
Lemma has_hash_iff : forall s, has_hash s = true <-> raw s.
Proof.
  intros s. unfold has_hash, raw. rewrite existsb_exists. split; [intros (c & Hc & E); apply Ascii.eqb_eq in E; subst; exact Hc|]. intros H. exists "#"%char. split; [exact H|reflexivity].
Qed.
Lemma hash_app : forall a b, has_hash (a ++ b) = has_hash a || has_hash b.
Proof. intros a b. unfold has_hash. fold (chars (a ++ b)) (chars a) (chars b). rewrite chars_app, existsb_app. reflexivity. Qed.
Lemma mk_ident_plain : forall s, has_hash s = false -> mk_ident s = Some s.
Proof.
  intros s H. unfold mk_ident. destruct s as [|c s]; [reflexivity|]. destruct s as [|d s].
  - destruct c as [[] [] [] [] [] [] [] []]; rewrite ?H; reflexivity.
  - assert (Hd : d <> "#"%char) by (intros ->; cbn in H; rewrite orb_true_r in H; discriminate).
    rewrite H. destruct c as [[] [] [] [] [] [] [] []]; try reflexivity. destruct d as [[] [] [] [] [] [] [] []]; try reflexivity. congruence.
Qed.
Lemma mk_ident_none : forall c s, c <> "r"%char -> has_hash (String c s) = true -> mk_ident (String c s) = None.
Proof. intros c s Hc H. unfold mk_ident. rewrite H. destruct c as [[] [] [] [] [] [] [] []]; try reflexivity. congruence. Qed.
Lemma mk_idents_plain : forall l, Forall (fun s => has_hash s = false) l -> mk_idents l = Some l.
Proof. induction l as [|s l IH]; intros H; [reflexivity|]. inversion H; subst. cbn [mk_idents]. rewrite mk_ident_plain, IH; auto. Qed.
Lemma mk_idents_in : forall l ms s, mk_idents l = Some ms -> In s l -> mk_ident s <> None.
Proof.
  induction l as [|x l IH]; intros ms s H Hs; [destruct Hs|]. cbn [mk_idents] in H. destruct (mk_ident x) eqn:E, (mk_idents l) eqn:E'; try discriminate.
  destruct Hs as [<-|Hs]; [congruence|exact (IH _ s eq_refl Hs)].
Qed.
(** The names can be made unless the name of a field, or of a variant, is raw. *)
Lemma made_iff : forall A (methods : A -> list string) (base : A -> string) pre l,
  Forall (fun s => has_hash s = false) pre ->
  (forall a m, has_hash (base a) = false -> In m (methods a) -> has_hash m = false) ->
  (forall a, has_hash (base a) = true -> exists m, In m (methods a) /\ mk_ident m = None) ->
  ((exists ms, mk_idents (pre ++ flat_map methods l) = Some ms /\ NoDup ms) <-> (forall a, In a l -> ~ raw (base a)) /\ NoDup (pre ++ flat_map methods l)).
Proof.
  intros A methods base pre l Hp H1 H2. split.
  - intros (ms & Hm & Hn). assert (Hr : forall a, In a l -> has_hash (base a) = false).
    { intros a Ha. destruct (has_hash (base a)) eqn:E; [|reflexivity]. destruct (H2 a E) as (m & Hi & Hm'). exfalso. apply (mk_idents_in _ _ m Hm); [|exact Hm'].
      apply in_or_app. right. apply in_flat_map. eauto. }
    split; [intros a Ha Hraw; apply has_hash_iff in Hraw; rewrite (Hr a Ha) in Hraw; discriminate|].
    rewrite mk_idents_plain in Hm; [congruence|]. apply Forall_app. split; [exact Hp|]. apply Forall_forall. intros m Hi. apply in_flat_map in Hi. destruct Hi as (a & Ha & Hi). exact (H1 a m (Hr a Ha) Hi).
  - intros [Hr Hn]. exists (pre ++ flat_map methods l)%list. split; [|exact Hn]. apply mk_idents_plain. apply Forall_app. split; [exact Hp|]. apply Forall_forall. intros m Hi. apply in_flat_map in Hi. destruct Hi as (a & Ha & Hi).
    apply (H1 a m); [|exact Hi]. destruct (has_hash (base a)) eqn:E; [|reflexivity]. apply has_hash_iff in E. destruct (Hr a Ha E).
Qed.

(** ** Structs *)

Lemma field_methods_hash : forall b m, has_hash b = false -> In m (field_methods b) -> has_hash m = false.
Proof. intros b m H Hm. unfold field_methods in Hm. repeat (destruct Hm as [<-|Hm]; [rewrite ?hash_app, H; reflexivity|]). destruct Hm. Qed.
Lemma field_methods_own : forall b, NoDup (field_methods b).
Proof.
  intros b. unfold field_methods. repeat constructor; cbn [In]; intros H; repeat (destruct H as [H|H]; [try discriminate H|]); try exact H.
  apply (f_equal (fun s => List.length (chars s))) in H. rewrite !chars_app, !app_length in H. cbn in H. lia.
Qed.
(** The methods [into_walk_<field>] and [into_<field>_bytes] of two fields are the same. *)
Definition walk_bytes (a b : string) : Prop := (a = "walk" /\ b = "bytes") \/ exists z, a = "walk_" ++ z /\ b = z ++ "_bytes".
Lemma walk_bytes_iff : forall a b, "into_walk_" ++ b = "into_" ++ a ++ "_bytes" <-> walk_bytes a b.
Proof.
  intros a b. unfold walk_bytes. change ("into_walk_" ++ b) with ("into_" ++ ("walk" ++ "_" ++ b)). change (a ++ "_bytes") with (a ++ "_" ++ "bytes").
  rewrite <- (cut "walk" "bytes" b a) by (cbn; intuition discriminate). split; [apply app_cancel|intros ->; reflexivity].
Qed.
Lemma field_methods_apart : forall a b, a <> b -> (apart (field_methods a) (field_methods b) <-> ~ walk_bytes a b /\ ~ walk_bytes b a).
Proof.
  intros a b Hn. split.
  - intros H. split; intros W; apply walk_bytes_iff in W.
    + apply (H ("into_" ++ a ++ "_bytes")); [cbn; tauto|]. rewrite <- W. cbn. tauto.
    + apply (H ("into_walk_" ++ a)); [cbn; tauto|]. rewrite W. cbn. tauto.
  - intros [H1 H2] m Ha Hb. unfold field_methods in Ha, Hb. cbn [In] in Ha, Hb.
    destruct Ha as [<-|[<-|[<-|[<-|[<-|[]]]]]]; destruct Hb as [E|[E|[E|[E|[E|[]]]]]]; try discriminate E;
      try (apply app_cancel in E; congruence); try (apply H1, walk_bytes_iff; congruence); try (apply H2, walk_bytes_iff; congruence).
    do 1 apply app_cancel in E. apply app_cancel_r in E. congruence.
Qed.
Lemma struct_iff : forall B, NoDup B ->
  ((exists ms, mk_idents ("revision" :: flat_map field_methods B) = Some ms /\ NoDup ms) <->
   (forall b, In b B -> ~ raw b) /\ ~ (exists a b, In a B /\ In b B /\ walk_bytes a b)).
Proof.
  intros B HB. change ("revision" :: flat_map field_methods B) with (["revision"] ++ flat_map field_methods B)%list.
  rewrite (made_iff _ field_methods (fun b => b)); [|repeat constructor|exact field_methods_hash|].
  2:{ intros b Hb. exists ("decode_" ++ b). split; [cbn; tauto|]. apply mk_ident_none; [discriminate|]. change (has_hash ("decode_" ++ b) = true). rewrite hash_app, Hb. reflexivity. }
  cbn [app]. rewrite NoDup_cons_iff, (nodup_flat _ _ field_methods B HB). split.
  - intros (H1 & _ & _ & H2). split; [exact H1|]. intros (a & b & Ha & Hb & W). destruct (string_dec a b) as [->|Hn].
    + pose proof (field_methods_own b) as Q. apply walk_bytes_iff in W. unfold field_methods in Q. rewrite W in Q. repeat (apply NoDup_cons_iff in Q; destruct Q as [? Q]). cbn in *. tauto.
    + destruct (proj1 (field_methods_apart a b Hn) (H2 a b Ha Hb Hn)) as [Q _]. exact (Q W).
  - intros (H1 & H2). split; [exact H1|]. split; [|split; [intros a _; apply field_methods_own|]].
    + intros Hi. apply in_flat_map in Hi. destruct Hi as (b & _ & Hi). unfold field_methods in Hi. repeat (destruct Hi as [Hi|Hi]; [discriminate Hi|]). destruct Hi.
    + intros a b Ha Hb Hn. apply field_methods_apart; [exact Hn|]. split; intros W; apply H2; eauto.
Qed.

Lemma bases_named : forall l i, (forall f, In f l -> sf_name f <> None) -> map sf_name l = map Some (bases i l).
Proof.
  induction l as [|f l IH]; intros i H; [reflexivity|]. cbn [map bases]. rewrite <- (IH (S i)) by (intros g Hg; apply H; right; exact Hg). f_equal.
  unfold field_method_base. pose proof (H f (or_introl eq_refl)). destruct (sf_name f); congruence.
Qed.
Lemma nodup_map_some : forall A (l : list A), NoDup (map Some l) <-> NoDup l.
Proof.
  intros A l. split; [apply NoDup_map_inv|]. intros H. apply FinFun.Injective_map_NoDup; [|exact H]. intros x y E. congruence.
Qed.
Lemma nodup_map_filter : forall A B (f : A -> B) p l, NoDup (map f l) -> NoDup (map f (filter p l)).
Proof.
  intros A B f p l. induction l as [|a l IH]; intros H; [constructor|]. cbn [map] in H. apply NoDup_cons_iff in H. destruct H as [Ha Hl]. cbn [filter]. destruct (p a); [|auto].
  cbn [map]. constructor; [|auto]. intros Hi. apply Ha. apply in_map_iff in Hi. destruct Hi as (b & E & Hb). apply filter_In in Hb. apply in_map_iff. exists b. tauto.
Qed.
(** The fields of the current revision, as named in the declaration. *)
Definition field_there (r : N) (l : list sfield) (n : string) : Prop := exists f, In f l /\ field_exists r f = true /\ sf_name f = Some n.
Lemma live_bases : forall r l i n, (forall f, In f l -> sf_name f <> None) -> (In n (bases i (filter (field_exists r) l)) <-> field_there r l n).
Proof.
  intros r l i n H. assert (H' : forall f, In f (filter (field_exists r) l) -> sf_name f <> None) by (intros f Hf; apply filter_In in Hf; apply H, Hf).
  pose proof (bases_named _ i H') as E. transitivity (In (Some n) (map Some (bases i (filter (field_exists r) l)))).
  - rewrite in_map_iff. split; [eauto|]. intros (x & Ex & Hx). congruence.
  - rewrite <- E, in_map_iff. unfold field_there. split; intros (f & Hf); exists f; rewrite filter_In in *; tauto.
Qed.
Lemma names_struct : forall r l tr, (forall f, In f l -> sf_name f <> None) -> NoDup (map sf_name l) ->
  ((exists ms, walker_methods r (SkStruct (Named l tr)) = Some ms /\ NoDup ms) <->
   (forall n, field_there r l n -> ~ raw n)
   /\ ~ (field_there r l "walk" /\ field_there r l "bytes")
   /\ ~ (exists x, field_there r l ("walk_" ++ x) /\ field_there r l (x ++ "_bytes"))).
Proof.
  intros r l tr H Hn. unfold walker_methods, struct_methods. cbn [fields_in].
  assert (H' : forall f, In f (filter (field_exists r) l) -> sf_name f <> None) by (intros f Hf; apply filter_In in Hf; apply H, Hf).
  rewrite struct_iff. 2:{ apply nodup_map_some. rewrite <- (bases_named _ 0%nat H'). apply nodup_map_filter, Hn. }
  split.
  - intros [H1 H2]. split; [intros n Hf; apply H1; apply (live_bases r l 0%nat n H); exact Hf|]. split.
    + intros [Ha Hb]. apply H2. exists "walk", "bytes". rewrite !(live_bases r l 0%nat _ H). repeat split; auto. left. auto.
    + intros (x & Ha & Hb). apply H2. exists ("walk_" ++ x), (x ++ "_bytes"). rewrite !(live_bases r l 0%nat _ H). repeat split; auto. right. eauto.
  - intros (H1 & H2 & H3). split; [intros b Hb; apply H1; apply (live_bases r l 0%nat b H); exact Hb|].
    intros (a & b & Ha & Hb & [[-> ->]|(x & -> & ->)]); apply (live_bases r l 0%nat _ H) in Ha; apply (live_bases r l 0%nat _ H) in Hb; [apply H2; auto|apply H3; eauto].
Qed.

(** A tuple struct: the methods are named by the positions. *)
Lemma decimal_inj : forall m n, decimal m = decimal n -> m = n.
Proof.
  intros m n H. unfold decimal in H. apply (f_equal NilEmpty.uint_of_string) in H. rewrite !NilEmpty.usu in H. injection H as H. apply Unsigned.to_uint_inj, H.
Qed.
Lemma decimal_hash : forall n, has_hash (decimal n) = false.
Proof.
  intros n. unfold decimal. generalize (Nat.to_uint n). induction u; [reflexivity|..]; exact IHu.
Qed.
Lemma bases_unnamed : forall l i b, (forall f, In f l -> sf_name f = None) -> In b (bases i l) -> exists j, (i <= j)%nat /\ b = "field_" ++ decimal j.
Proof.
  induction l as [|f l IH]; intros i b H Hb; [destruct Hb|]. cbn [bases] in Hb. destruct Hb as [<-|Hb].
  - exists i. split; [lia|]. unfold field_method_base. rewrite (H f (or_introl eq_refl)). reflexivity.
  - destruct (IH (S i) b (fun g Hg => H g (or_intror Hg)) Hb) as (j & Hj & E). exists j. split; [lia|exact E].
Qed.
Lemma bases_unnamed_nodup : forall l i, (forall f, In f l -> sf_name f = None) -> NoDup (bases i l).
Proof.
  induction l as [|f l IH]; intros i H; [constructor|]. cbn [bases]. constructor; [|apply IH; intros g Hg; apply H; right; exact Hg].
  intros Hi. destruct (bases_unnamed l (S i) _ (fun g Hg => H g (or_intror Hg)) Hi) as (j & Hj & E). unfold field_method_base in E. rewrite (H f (or_introl eq_refl)) in E.
  apply app_cancel, decimal_inj in E. lia.
Qed.
Lemma names_tuple : forall r l tr, (forall f, In f l -> sf_name f = None) -> exists ms, walker_methods r (SkStruct (Unnamed l tr)) = Some ms /\ NoDup ms.
Proof.
  intros r l tr H. unfold walker_methods, struct_methods. cbn [fields_in].
  assert (H' : forall f, In f (filter (field_exists r) l) -> sf_name f = None) by (intros f Hf; apply filter_In in Hf; apply H, Hf).
  apply struct_iff; [apply bases_unnamed_nodup, H'|]. split.
  - intros b Hb Hr. destruct (bases_unnamed _ _ _ H' Hb) as (j & _ & ->). apply has_hash_iff in Hr. rewrite hash_app, decimal_hash in Hr. discriminate.
  - intros (a & b & Ha & _ & [[-> _]|(z & -> & _)]); destruct (bases_unnamed _ _ _ H' Ha) as (j & _ & E); discriminate E.
Qed.

(** ** Enums *)

Lemma upper_range : forall c, is_upper c = true -> 65 <= N_of_ascii c <= 90.
Proof. intros c H. unfold is_upper in H. apply andb_prop in H. destruct H as [H1 H2]. apply N.leb_le in H1, H2. lia. Qed.
Lemma lower_code : forall c, is_upper c = true -> N_of_ascii (to_lower c) = N_of_ascii c + 32.
Proof. intros c H. pose proof (upper_range c H). unfold to_lower. rewrite H. apply N_ascii_embedding. lia. Qed.
Lemma lower_hash : forall c, Ascii.eqb "#" (to_lower c) = Ascii.eqb "#" c.
Proof.
  intros c. destruct (is_upper c) eqn:E; [|unfold to_lower; rewrite E; reflexivity]. pose proof (upper_range c E). pose proof (lower_code c E) as L.
  destruct (Ascii.eqb "#" (to_lower c)) eqn:E1; [apply Ascii.eqb_eq in E1; rewrite <- E1 in L; cbn in L; lia|].
  destruct (Ascii.eqb "#" c) eqn:E2; [apply Ascii.eqb_eq in E2; subst c; discriminate E|reflexivity].
Qed.
Lemma snake_hash : forall s f, has_hash (snake_from f s) = has_hash s.
Proof.
  induction s as [|c s IH]; intros f; [reflexivity|]. cbn [snake_from]. rewrite hash_app. change (String (to_lower c) (snake_from false s)) with (String (to_lower c) "" ++ snake_from false s).
  rewrite hash_app, IH. change (String c s) with (String c "" ++ s). rewrite hash_app.
  assert (E1 : has_hash (String (to_lower c) "") = has_hash (String c "")) by (unfold has_hash; cbn [list_ascii_of_string existsb]; rewrite lower_hash; reflexivity).
  rewrite E1. destruct (is_upper c && negb f); reflexivity.
Qed.

(** The prefixes of the methods of a variant: [is_<variant>], and [into_<variant>], [decode_<variant>] unless the variant is a
    struct variant or a tuple variant of another width than one. *)
Definition prefixed (k : vshape) (p : string) : Prop := p = "is" \/ (k <> OfMany /\ (p = "into" \/ p = "decode")).
Lemma prefixed_plain : forall k p, prefixed k p -> ~ In "_"%char (chars p).
Proof. intros k p [->|[_ [->| ->]]]; cbn; intuition discriminate. Qed.
Lemma variant_methods_in : forall k b m, In m (variant_methods k b) <-> (exists p, prefixed k p /\ m = p ++ "_" ++ b) \/ (k <> OfUnit /\ m = b ++ "_view").
Proof.
  intros k b m. unfold prefixed. split.
  - intros H. destruct k; cbn [variant_methods In] in H; repeat (destruct H as [<-|H]); try contradiction.
    1,4,8: left; exists "is"; auto.
    1,3: left; exists "into"; split; [right; split; [discriminate|auto]|reflexivity].
    1,2: left; exists "decode"; split; [right; split; [discriminate|auto]|reflexivity].
    all: right; split; [discriminate|reflexivity].
  - intros [(p & [->|[Hk [->| ->]]] & ->)|[Hk ->]]; destruct k; try congruence; cbn; tauto.
Qed.
(** The [_view] method of [a] is one of the other methods of [b]. *)
Definition view_clash (k : vshape) (a : string) (k' : vshape) (b : string) : Prop :=
  k <> OfUnit /\ exists p, prefixed k' p /\ ((a = p /\ b = "view") \/ exists z, a = p ++ "_" ++ z /\ b = z ++ "_view").
Lemma view_clash_iff : forall k a k' b, view_clash k a k' b <-> k <> OfUnit /\ exists p, prefixed k' p /\ p ++ "_" ++ b = a ++ "_view".
Proof.
  intros k a k' b. unfold view_clash. split; intros [Hk (p & Hp & H)]; (split; [exact Hk|]); exists p; (split; [exact Hp|]); apply (cut p "view" b a (prefixed_plain _ _ Hp)); exact H.
Qed.
Lemma prefixes_differ : forall p q x y k k', prefixed k p -> prefixed k' q -> p ++ "_" ++ x = q ++ "_" ++ y -> p = q /\ x = y.
Proof.
  intros p q x y k k' Hp Hq H. assert (p = q) as ->; [|split; [reflexivity|apply app_cancel in H; apply app_cancel in H; exact H]].
  destruct Hp as [->|[_ [->| ->]]], Hq as [->|[_ [->| ->]]]; try reflexivity; discriminate H.
Qed.
Lemma variant_own : forall k b, NoDup (variant_methods k b) <-> ~ view_clash k b k b.
Proof.
  intros k b. rewrite view_clash_iff. unfold prefixed. split.
  - intros H [Hk (p & Hp & E)]. destruct k; [exfalso; apply Hk; reflexivity|..]; unfold variant_methods in H; rewrite <- E in H; destruct Hp as [->|[Hm [->| ->]]]; try congruence;
      repeat (apply NoDup_cons_iff in H; destruct H as [? H]); cbn in *; tauto.
  - intros H. assert (Q : forall p, k <> OfUnit -> p = "is" \/ k <> OfMany /\ (p = "into" \/ p = "decode") -> p ++ "_" ++ b <> b ++ "_view") by (intros p Hk Hp E; apply H; eauto). clear H.
    assert (Q1 : k <> OfUnit -> "is_" ++ b <> b ++ "_view") by (intros Hk; apply (Q "is" Hk); auto).
    destruct k; cbn [variant_methods]; repeat constructor; cbn [In]; intros H; repeat (destruct H as [H|H]; [try discriminate H|]); try exact H.
    + apply Q1; [discriminate|auto].
    + apply (Q "into"); [discriminate|right; split; [discriminate|auto]|symmetry; exact H].
    + apply (Q "decode"); [discriminate|right; split; [discriminate|auto]|symmetry; exact H].
    + apply Q1; [discriminate|auto].
Qed.
Lemma variant_apart : forall k a k' b, apart (variant_methods k a) (variant_methods k' b) <-> a <> b /\ ~ view_clash k a k' b /\ ~ view_clash k' b k a.
Proof.
  intros k a k' b. unfold apart. split.
  - intros H. split; [|split].
    + intros ->. apply (H ("is_" ++ b)); apply variant_methods_in; left; exists "is"; split; auto; left; reflexivity.
    + intros W. apply view_clash_iff in W. destruct W as [Hk (p & Hp & E)]. apply (H (a ++ "_view")); apply variant_methods_in; [right; auto|left; exists p; auto].
    + intros W. apply view_clash_iff in W. destruct W as [Hk (p & Hp & E)]. apply (H (b ++ "_view")); apply variant_methods_in; [left; exists p; auto|right; auto].
  - intros (Hn & H1 & H2) m Ha Hb. apply variant_methods_in in Ha, Hb. rewrite view_clash_iff in H1, H2.
    destruct Ha as [(p & Hp & ->)|[Hk ->]], Hb as [(q & Hq & E)|[Hk' E]].
    + destruct (prefixes_differ _ _ _ _ _ _ Hp Hq E) as [_ ->]. congruence.
    + apply H2. eauto.
    + apply H1. split; [exact Hk|]. exists q. auto.
    + apply app_cancel_r in E. congruence.
Qed.
Lemma nodup_of_map : forall A B (f : A -> B) l x y, NoDup (map f l) -> In x l -> In y l -> f x = f y -> x = y.
Proof.
  intros A B f l x y. induction l as [|a l IH]; intros Hn Hx Hy E; [destruct Hx|]. cbn [map] in Hn. apply NoDup_cons_iff in Hn. destruct Hn as [Ha Hl].
  destruct Hx as [->|Hx], Hy as [->|Hy]; auto.
  - exfalso. apply Ha. rewrite E. apply in_map, Hy.
  - exfalso. apply Ha. rewrite <- E. apply in_map, Hx.
Qed.
Definition variant_there (r : N) (vs : list svariant) (v : svariant) : Prop := In v vs /\ variant_exists r v = true.
Lemma names_enum : forall r vs tr, NoDup (map sv_name vs) ->
  ((exists ms, walker_methods r (SkEnum vs tr) = Some ms /\ NoDup ms) <->
   (forall v, variant_there r vs v -> ~ raw (sv_name v))
   /\ (forall v w, variant_there r vs v -> variant_there r vs w -> snake_case (sv_name v) = snake_case (sv_name w) -> v = w)
   /\ ~ (exists v w p, variant_there r vs v /\ variant_there r vs w /\ shape r (sv_fields v) <> OfUnit /\ prefixed (shape r (sv_fields w)) p
          /\ ((snake_case (sv_name v) = p /\ snake_case (sv_name w) = "view")
              \/ exists z, snake_case (sv_name v) = p ++ "_" ++ z /\ snake_case (sv_name w) = z ++ "_view"))).
Proof.
  intros r vs tr Hn. unfold walker_methods, enum_methods.
  set (F := fun v => variant_methods (shape r (sv_fields v)) (snake_case (sv_name v))). set (L := filter (variant_exists r) vs).
  assert (HL : forall v, In v L <-> variant_there r vs v) by (intros v; apply filter_In).
  assert (NL : NoDup L) by (apply (NoDup_map_inv sv_name), nodup_map_filter, Hn).
  change ("revision" :: "discriminant" :: flat_map F L) with (["revision"; "discriminant"] ++ flat_map F L)%list.
  rewrite (made_iff _ F sv_name); [|repeat constructor|..].
  2:{ intros v m Hv Hm. unfold F in Hm. apply variant_methods_in in Hm. unfold snake_case in Hm. destruct Hm as [(p & Hp & ->)|[_ ->]]; rewrite !hash_app, snake_hash, Hv; [|reflexivity].
      destruct Hp as [->|[_ [->| ->]]]; reflexivity. }
  2:{ intros v Hv. exists ("is_" ++ snake_case (sv_name v)). split; [left; reflexivity|]. apply mk_ident_none; [discriminate|].
      change (has_hash ("is_" ++ snake_case (sv_name v)) = true). rewrite hash_app. unfold snake_case. rewrite snake_hash, Hv. reflexivity. }
  rewrite nodup_app, (nodup_flat _ _ F L NL). split.
  - intros (H1 & _ & (H2 & H3) & _). split; [intros v Hv; apply H1, HL, Hv|]. split.
    + intros v w Hv Hw E. apply HL in Hv, Hw. destruct (string_dec (sv_name v) (sv_name w)) as [Es|Es].
      * apply HL in Hv, Hw. exact (nodup_of_map _ _ sv_name vs v w Hn (proj1 Hv) (proj1 Hw) Es).
      * exfalso. assert (v <> w) by congruence. pose proof (H3 v w Hv Hw H) as Q. apply variant_apart in Q. tauto.
    + intros (v & w & p & Hv & Hw & Hs & Hp & E). apply HL in Hv, Hw.
      assert (W : view_clash (shape r (sv_fields v)) (snake_case (sv_name v)) (shape r (sv_fields w)) (snake_case (sv_name w))) by (split; [exact Hs|]; exists p; auto).
      destruct (string_dec (sv_name v) (sv_name w)) as [Es|Es].
      * apply HL in Hv, Hw. assert (v = w) as -> by exact (nodup_of_map _ _ sv_name vs v w Hn (proj1 Hv) (proj1 Hw) Es). apply HL in Hw. pose proof (H2 w Hw) as Q. apply variant_own in Q. exact (Q W).
      * assert (Hne : v <> w) by congruence. pose proof (H3 v w Hv Hw Hne) as Q. apply variant_apart in Q. tauto.
  - intros (H1 & H2 & H3). split; [intros v Hv; apply H1, HL, Hv|].
    assert (H4 : forall v w, In v L -> In w L -> ~ view_clash (shape r (sv_fields v)) (snake_case (sv_name v)) (shape r (sv_fields w)) (snake_case (sv_name w))).
    { intros v w Hv Hw [Hs (p & Hp & E)]. apply HL in Hv, Hw. apply H3. exists v, w, p. auto. }
    split; [|split; [split|]].
    + repeat constructor; cbn; intuition discriminate.
    + intros v Hv. apply variant_own. auto.
    + intros v w Hv Hw Hne. apply variant_apart. split; [|auto]. intros E. apply Hne. apply H2; [apply HL, Hv|apply HL, Hw|exact E].
    + intros m Hm Hi. apply in_flat_map in Hi. destruct Hi as (v & Hv & Hi). unfold F in Hi. apply variant_methods_in in Hi. cbn [In] in Hm.
      destruct Hi as [(p & Hp & ->)|[_ ->]].
      * destruct Hm as [Hm|[Hm|[]]]; destruct Hp as [->|[_ [->| ->]]]; discriminate Hm.
      * destruct Hm as [Hm|[Hm|[]]]; apply (f_equal (fun s => rev (chars s))) in Hm; rewrite chars_app, rev_app_distr in Hm; cbn in Hm; discriminate Hm.
Qed.

(** What the snake-case name of a variant is: the words of the name, each starting at a capital letter, in small letters and
    joined by underscores. *)
Definition capitals : list ascii := chars "ABCDEFGHIJKLMNOPQRSTUVWXYZ".
Definition small : list ascii := chars "abcdefghijklmnopqrstuvwxyz".
Definition word (w w' : string) : Prop := exists k c c' rest, nth_error capitals k = Some c /\ nth_error small k = Some c'
  /\ w = String c rest /\ w' = String c' rest /\ forall x, In x (chars rest) -> ~ In x capitals.
Lemma upper_capitals : forall c, is_upper c = true <-> In c capitals.
Proof.
  intros c. assert (E : is_upper c = existsb (Ascii.eqb c) capitals) by (destruct c as [[] [] [] [] [] [] [] []]; reflexivity).
  rewrite E, existsb_exists. split; [intros (x & H & Hx); apply Ascii.eqb_eq in Hx; subst x; exact H|intros H; exists c; split; [exact H|apply Ascii.eqb_refl]].
Qed.
Lemma lower_small : forall k c c', nth_error capitals k = Some c -> nth_error small k = Some c' -> to_lower c = c'.
Proof.
  intros k c c' H H'. do 26 (destruct k as [|k]; [injection H as <-; injection H' as <-; reflexivity|]). destruct k; discriminate H.
Qed.
Lemma snake_small : forall s t f, (forall x, In x (chars s) -> ~ In x capitals) -> snake_from f (s ++ t) = s ++ snake_from (f && match s with "" => true | _ => false end) t.
Proof.
  induction s as [|c s IH]; intros t f H; [cbn [append]; rewrite andb_true_r; reflexivity|]. cbn [append snake_from].
  assert (E : is_upper c = false) by (destruct (is_upper c) eqn:E; [|reflexivity]; exfalso; apply (H c); [left; reflexivity|apply upper_capitals; exact E]).
  unfold to_lower. rewrite E. cbn [andb append]. rewrite IH by (intros x Hx; apply H; right; exact Hx). cbn [andb]. rewrite andb_false_r. reflexivity.
Qed.
Lemma string_app_nil : forall s : string, s ++ "" = s.
Proof. induction s as [|c s IH]; [reflexivity|]. cbn [append]. rewrite IH. reflexivity. Qed.
Theorem C79_snake : forall ws ws', Forall2 word ws ws' -> snake_case (String.concat "" ws) = String.concat "_" ws'.
Proof.
  unfold snake_case. intros ws ws' F. enough (G : forall f, snake_from f (String.concat "" ws) = (if f then "" else match ws' with [] => "" | _ => "_" end) ++ String.concat "_" ws') by apply (G true).
  induction F as [|w w' ws ws' (k & c & c' & rest & H1 & H2 & -> & -> & H5) F IH]; intros f; [destruct f; reflexivity|].
  assert (Hc : is_upper c = true) by (apply upper_capitals, (nth_error_In _ k), H1). pose proof (lower_small _ _ _ H1 H2) as Hl.
  assert (E : String.concat "" (String c rest :: ws) = String c (rest ++ String.concat "" ws)).
  { destruct ws as [|x ws]; cbn [String.concat append]; rewrite ?string_app_nil; reflexivity. }
  rewrite E. cbn [snake_from]. rewrite Hc, Hl. cbn [andb]. rewrite snake_small by exact H5. cbn [andb].
  specialize (IH false). cbn [negb] in IH. rewrite IH. inversion F; subst; destruct f; cbn [negb String.concat append]; rewrite ?string_app_nil; reflexivity.
Qed.

(** Names in camel case differ in snake case. *)
Definition camel (n : string) : Prop := match n with EmptyString => False | String c n' => In c capitals /\ ~ In "_"%char (chars n') end.
Lemma lower_inj : forall c d, is_upper c = true -> is_upper d = true -> to_lower c = to_lower d -> c = d.
Proof.
  intros c d Hc Hd E. pose proof (lower_code c Hc) as Lc. pose proof (lower_code d Hd) as Ld. rewrite E in Lc. rewrite <- (ascii_N_embedding c), <- (ascii_N_embedding d). f_equal. lia.
Qed.
Lemma snake_inj : forall s t, ~ In "_"%char (chars s) -> ~ In "_"%char (chars t) -> snake_from false s = snake_from false t -> s = t.
Proof.
  induction s as [|c s IH]; intros [|d t] Hs Ht E; cbn [snake_from negb] in E; rewrite ?andb_true_r in E.
  - reflexivity.
  - destruct (is_upper d); discriminate E.
  - destruct (is_upper c); discriminate E.
  - assert (Hs' : ~ In "_"%char (chars s)) by (intros H; apply Hs; right; exact H). assert (Ht' : ~ In "_"%char (chars t)) by (intros H; apply Ht; right; exact H).
    destruct (is_upper c) eqn:Ec, (is_upper d) eqn:Ed; cbn [append] in E.
    + injection E as E1 E2. rewrite (lower_inj c d Ec Ed E1), (IH t Hs' Ht' E2). reflexivity.
    + exfalso. injection E as E1 _. unfold to_lower in E1. rewrite Ed in E1. apply Ht. left. congruence.
    + exfalso. injection E as E1 _. unfold to_lower in E1. rewrite Ec in E1. apply Hs. left. congruence.
    + injection E as E1 E2. unfold to_lower in E1. rewrite Ec, Ed in E1. rewrite E1, (IH t Hs' Ht' E2). reflexivity.
Qed.
Theorem C79_camel : forall a b, camel a -> camel b -> snake_case a = snake_case b -> a = b.
Proof.
  intros [|c a] [|d b] Ha Hb E; try contradiction. destruct Ha as [Hc Ha], Hb as [Hd Hb]. apply upper_capitals in Hc, Hd. unfold snake_case in E. cbn [snake_from negb] in E. rewrite !andb_false_r in E. cbn [append] in E.
  injection E as E1 E2. rewrite (lower_inj c d Hc Hd E1), (snake_inj a b Ha Hb E2). reflexivity.
Qed.

(** ** Items: those that one declaration adds to its module have different names. *)
Theorem C79_items : forall i, (forall vs tr, si_kind i = SkEnum vs tr -> NoDup (map sv_name vs)) -> NoDup (item_names i).
Proof.
  intros i H. unfold item_names. set (T := si_name i).
  assert (HT : forall x, x <> "" -> T <> T ++ x).
  { intros x Hx E. apply Hx. apply (app_cancel T). rewrite <- E. apply chars_inj. rewrite chars_app. cbn. symmetry. apply app_nil_r. }
  assert (Hv : forall x, In x (match si_kind i with SkStruct _ => [] | SkEnum vs _ => map (fun v => T ++ sv_name v ++ "Fields") vs end) -> exists v, x = T ++ sv_name v ++ "Fields").
  { intros x Hx. destruct (si_kind i); [|destruct Hx]. apply in_map_iff in Hx. destruct Hx as (v & <- & _). eauto. }
  assert (Hl : forall x v, T ++ x <> T ++ sv_name v ++ "Fields" \/ exists y, x = y ++ "s").
  { intros x v. destruct (string_dec x (sv_name v ++ "Fields")) as [->|Hn]; [right; exists (sv_name v ++ "Field")|left; intros E; apply app_cancel in E; auto].
    apply chars_inj. rewrite !chars_app, <- app_assoc. reflexivity. }
  assert (Hr : forall y, "Walker" <> y ++ "s" /\ "WalkerRepr" <> y ++ "s").
  { intros y. split; intros E; apply (f_equal (fun s => rev (chars s))) in E; rewrite chars_app, rev_app_distr in E; discriminate E. }
  constructor; [|constructor; [|constructor]].
  - cbn [In]. intros [E|[E|E]]; [symmetry in E; revert E; apply HT; discriminate..|]. destruct (Hv _ E) as (v & E'). revert E'. apply HT. destruct (sv_name v); discriminate.
  - cbn [In]. intros [E|E]; [apply app_cancel in E; discriminate E|]. destruct (Hv _ E) as (v & E'). destruct (Hl "Walker" v) as [Q|(y & Q)]; [exact (Q E')|]. exact (proj1 (Hr y) Q).
  - intros E. destruct (Hv _ E) as (v & E'). destruct (Hl "WalkerRepr" v) as [Q|(y & Q)]; [exact (Q E')|]. exact (proj2 (Hr y) Q).
  - destruct (si_kind i) as [vs tr|fs]; [|constructor]. specialize (H vs tr eq_refl). rewrite <- (map_map sv_name (fun n => T ++ n ++ "Fields")).
    apply FinFun.Injective_map_NoDup; [|exact H]. intros a b E. apply app_cancel, app_cancel_r in E. exact E.
Qed.

(** ** Local variables *)

(** Wherever a function uses its parameter [x], no variable of that name is bound before.  (Shadowed, it would be a field
    or a reference to one, which is not the [&mut] reference that the called function takes: the code does not compile.) *)
Definition keeps (x : string) (b : list stmt) : Prop := forall pre post, b = (pre ++ Uses x :: post)%list -> ~ In (Binds x) pre.
Lemma keeps_nil : forall x, keeps x [].
Proof. intros x [|] post H; discriminate H. Qed.
Lemma keeps_binds : forall x l, keeps x (map Binds l).
Proof.
  intros x l pre post H. exfalso. assert (Hi : In (Uses x) (map Binds l)) by (rewrite H; apply in_or_app; right; left; reflexivity).
  apply in_map_iff in Hi. destruct Hi as (y & E & _). discriminate E.
Qed.
Lemma keeps_cons_use : forall x y b, keeps x (Uses y :: b) <-> keeps x b.
Proof.
  intros x y b. split; intros H pre post E.
  - intros Hi. apply (H (Uses y :: pre) post); [cbn; rewrite E; reflexivity|right; exact Hi].
  - destruct pre as [|s pre]; [intros []|]. cbn in E. injection E as <- E. intros [Hi|Hi]; [discriminate Hi|exact (H pre post E Hi)].
Qed.
Lemma keeps_cons_bind : forall x y b, keeps x (Binds y :: b) <-> (y = x -> ~ In (Uses x) b) /\ keeps x b.
Proof.
  intros x y b. split.
  - intros H. split.
    + intros -> Hi. apply in_split in Hi. destruct Hi as (p & q & E). apply (H (Binds x :: p) q); [cbn; rewrite E; reflexivity|left; reflexivity].
    + intros pre post E Hi. apply (H (Binds y :: pre) post); [cbn; rewrite E; reflexivity|right; exact Hi].
  - intros [H1 H2] pre post E. destruct pre as [|s pre]; [intros []|]. cbn in E. injection E as <- E. intros [Hi|Hi].
    + injection Hi as ->. apply (H1 eq_refl). rewrite E. apply in_or_app. right. left. reflexivity.
    + exact (H2 pre post E Hi).
Qed.
Lemma keeps_uses : forall x n, keeps x (repeat (Uses x) n).
Proof. intros x n. induction n; [apply keeps_nil|]. cbn [repeat]. apply keeps_cons_use, IHn. Qed.
Lemma keeps_binds_then : forall x l b, keeps x b -> (keeps x (map Binds l ++ b) <-> (In x l -> ~ In (Uses x) b)).
Proof.
  intros x l b Hb. induction l as [|y l IH]; cbn [map app In]; [tauto|]. rewrite keeps_cons_bind, IH, in_app_iff. split.
  - intros [H1 H2] [->|Hi] Hu; [apply (H1 eq_refl); right; exact Hu|exact (H2 Hi Hu)].
  - intros H. split; [|intros Hi; apply H; right; exact Hi]. intros -> [Hi|Hi]; [apply in_map_iff in Hi; destruct Hi as (z & E & _); discriminate E|exact (H (or_introl eq_refl) Hi)].
Qed.

(** Fields named [x], among those of revision [r]. *)
Lemma binding_name : forall l i x f, In (x, f) (bindings i l) -> In f l /\ (sf_name f = Some x \/ exists j, x = "field_" ++ decimal j).
Proof.
  induction l as [|g l IH]; intros i x f H; [destruct H|]. cbn [bindings] in H. destruct H as [H|H].
  - injection H as <- <-. split; [left; reflexivity|]. unfold field_method_base. destruct (sf_name g); [left; reflexivity|right; eauto].
  - destruct (IH _ _ _ H) as [H1 H2]. split; [right; exact H1|exact H2].
Qed.
Lemma named_binding : forall l i x f, In f l -> sf_name f = Some x -> In (x, f) (bindings i l).
Proof.
  induction l as [|g l IH]; intros i x f H E; [destruct H|]. cbn [bindings]. destruct H as [->|H]; [left; unfold field_method_base; rewrite E; reflexivity|right; auto].
Qed.
Lemma alive_named : forall r fs x, (forall j, x <> "field_" ++ decimal j) -> (In x (alive_bindings r fs) <-> field_there r (fields_in fs) x).
Proof.
  intros r fs x Hx. unfold alive_bindings, field_there. rewrite in_map_iff. split.
  - intros ([y f] & <- & Hi). apply filter_In in Hi. cbn [fst snd] in *. destruct Hi as [Hi Hf]. destruct (binding_name _ _ _ _ Hi) as [H1 [H2|(j & Hj)]]; [eauto|destruct (Hx j Hj)].
  - intros (f & Hf & He & Hn). exists (x, f). split; [reflexivity|]. apply filter_In. split; [apply named_binding; assumption|exact He].
Qed.
Lemma keeps_writes : forall r fs b, (forall s, In s b -> s = Uses "writer") -> (b = [] -> alive_bindings r fs = []) ->
  (keeps "writer" (map Binds (alive_bindings r fs) ++ b) <-> ~ field_there r (fields_in fs) "writer").
Proof.
  intros r fs b Hb Hn. assert (Hk : keeps "writer" b).
  { intros pre post E Hi. assert (Q : In (Binds "writer") b) by (rewrite E; apply in_or_app; left; exact Hi). discriminate (Hb _ Q). }
  rewrite (keeps_binds_then _ _ _ Hk), (alive_named r fs "writer") by (intros j; discriminate). split; [|tauto].
  intros H Hl. apply (H Hl). destruct b as [|s b]; [|left; apply Hb; left; reflexivity].
  apply (alive_named r fs "writer") in Hl; [|intros j; discriminate]. rewrite (Hn eq_refl) in Hl. destruct Hl.
Qed.
Lemma names_writer : forall h t k, Forall (keeps "writer") (ser_bodies h t k) <->
  match k with
  | SkStruct fs => ~ field_there t (fields_in fs) "writer"
  | SkEnum vs _ => forall v, variant_there t vs v -> ~ field_there t (fields_in (sv_fields v)) "writer"
  end.
Proof.
  intros h t [vs tr|fs]; unfold ser_bodies.
  - rewrite Forall_map, Forall_forall. assert (Q : forall v, keeps "writer" (ser_variant (if h_opt h then Some (size_of v) else None) t (sv_fields v)) <-> ~ field_there t (fields_in (sv_fields v)) "writer").
    { intros v. unfold ser_variant. apply keeps_writes; [|discriminate]. intros s [<-|Hs]; [reflexivity|]. destruct (h_opt h).
      - destruct (size_of v) as [[]|]; cbn [In] in Hs; intuition congruence.
      - apply in_map_iff in Hs. destruct Hs as (y & <- & _). reflexivity. }
    unfold variant_there. split; intros H v Hv; [apply Q, H, filter_In, Hv|apply filter_In in Hv; apply Q, H, Hv].
  - rewrite Forall_cons_iff. assert (Q : keeps "writer" (ser_struct (h_opt h) t fs) <-> ~ field_there t (fields_in fs) "writer").
    { unfold ser_struct. apply keeps_writes.
      - intros s Hs. destruct (h_opt h); [cbn [In] in Hs; intuition congruence|]. apply in_map_iff in Hs. destruct Hs as (y & <- & _). reflexivity.
      - destruct (h_opt h); [discriminate|]. destruct (alive_bindings t fs); [reflexivity|discriminate]. }
    rewrite Q. intuition.
Qed.

(** A field named [reader], read or filled in, with a field behind it that is read. *)
Definition late_there (r t : N) (l : list sfield) : Prop := exists l1 f l2 g l3, l = (l1 ++ f :: l2 ++ g :: l3)%list
  /\ sf_name f = Some "reader" /\ field_exists r f || field_exists t f = true /\ field_exists r g = true.
Lemma late_cons : forall r t f l, late_there r t (f :: l) <-> (sf_name f = Some "reader" /\ field_exists r f || field_exists t f = true /\ exists g, In g l /\ field_exists r g = true) \/ late_there r t l.
Proof.
  intros r t f l. split.
  - intros (l1 & f' & l2 & g & l3 & E & H). destruct l1 as [|x l1]; cbn [app] in E; injection E as <- E.
    + left. destruct H as (H1 & H2 & H3). split; [exact H1|]. split; [exact H2|]. exists g. split; [rewrite E; apply in_or_app; right; left; reflexivity|exact H3].
    + right. exists l1, f', l2, g, l3. auto.
  - intros [(H1 & H2 & g & Hg & H3)|(l1 & f' & l2 & g & l3 & E & H)].
    + apply in_split in Hg. destruct Hg as (l2 & l3 & ->). exists [], f, l2, g, l3. auto.
    + exists (f :: l1), f', l2, g, l3. rewrite E. auto.
Qed.
Lemma de_uses : forall r t l i, In (Uses "reader") (flat_map (de_field r t) (bindings i l)) <-> exists g, In g l /\ field_exists r g = true.
Proof.
  intros r t l. induction l as [|f l IH]; intros i; cbn [bindings flat_map In]; [split; [intros []|intros (g & [] & _)]|].
  rewrite in_app_iff, IH. unfold de_field. split.
  - intros [H|(g & Hg & H)]; [|eauto]. destruct (field_exists r f) eqn:E; [eauto|]. destruct (field_exists t f); [|destruct H]. destruct H as [H|[]]. discriminate H.
  - intros (g & [->|Hg] & H); [left; rewrite H; left; reflexivity|right; eauto].
Qed.
Lemma keeps_reads : forall r t l i, keeps "reader" (flat_map (de_field r t) (bindings i l)) <-> ~ late_there r t l.
Proof.
  intros r t l. induction l as [|f l IH]; intros i; cbn [bindings flat_map].
  - split; [intros _ (l1 & f & l2 & g & l3 & E & _); destruct l1; discriminate E|intros _; apply keeps_nil].
  - rewrite late_cons. assert (Q : field_method_base f i = "reader" <-> sf_name f = Some "reader").
    { unfold field_method_base. destruct (sf_name f) as [n|]; split; intros H; try congruence; discriminate H. }
    unfold de_field at 1. destruct (field_exists r f) eqn:E; [|destruct (field_exists t f) eqn:E']; cbn [app orb].
    + rewrite keeps_cons_use, keeps_cons_bind, IH, de_uses. split; [intros [H1 H2] [(H3 & _ & H4)|H3]; [exact (H1 (proj2 Q H3) H4)|exact (H2 H3)]|].
      intros H. split; [intros Hb Hg; apply H; left; split; [apply Q, Hb|auto]|tauto].
    + rewrite keeps_cons_bind, IH, de_uses. split; [intros [H1 H2] [(H3 & _ & H4)|H3]; [exact (H1 (proj2 Q H3) H4)|exact (H2 H3)]|].
      intros H. split; [intros Hb Hg; apply H; left; split; [apply Q, Hb|auto]|tauto].
    + rewrite IH. split; [intros H [(_ & H1 & _)|H1]; [discriminate H1|exact (H H1)]|tauto].
Qed.
Lemma keeps_payload : forall n r t fs, keeps "reader" (de_opt n r t fs).
Proof.
  intros n r t fs. unfold de_opt. induction n as [|n IH]; cbn [repeat app]; [|apply keeps_cons_use, IH].
  intros pre post E. exfalso. assert (Hi : In (Uses "reader") (pre ++ Uses "reader" :: post)%list) by (apply in_or_app; right; left; reflexivity). rewrite <- E in Hi.
  apply in_flat_map in Hi. destruct Hi as (p & _ & Hi). destruct (field_exists r (snd p) || field_exists t (snd p)); [destruct Hi as [Hi|[]]; discriminate Hi|destruct Hi].
Qed.
Lemma de_body_iff : forall h r t k, Forall (keeps "reader") (de_body h r t k) <->
  (h_opt h = false -> match k with SkStruct fs => ~ late_there r t (fields_in fs) | SkEnum vs _ => forall v, variant_there r vs v -> ~ late_there r t (fields_in (sv_fields v)) end).
Proof.
  intros h r t [vs tr|fs]; unfold de_body.
  - rewrite Forall_map, Forall_forall. unfold variant_there. split.
    + intros H Ho v Hv. specialize (H v (proj2 (filter_In _ _ _) Hv)). apply keeps_cons_use in H. rewrite Ho in H. apply (keeps_reads r t _ 0%nat), H.
    + intros H v Hv. apply filter_In in Hv. apply keeps_cons_use. destruct (h_opt h); [apply keeps_payload|]. apply keeps_reads. auto.
  - rewrite Forall_cons_iff. destruct (h_opt h).
    + split; [discriminate|]. intros _. split; [apply keeps_payload|constructor].
    + split; [intros [H _] _; apply (keeps_reads r t _ 0%nat), H|]. intros H. split; [apply keeps_reads; auto|constructor].
Qed.
Lemma names_reader : forall hs t k, Forall (keeps "reader") (de_bodies 1 hs t k) <->
  forall n h, nth_error hs n = Some h -> h_opt h = false ->
  match k with
  | SkStruct fs => ~ late_there (1 + N.of_nat n) t (fields_in fs)
  | SkEnum vs _ => forall v, variant_there (1 + N.of_nat n) vs v -> ~ late_there (1 + N.of_nat n) t (fields_in (sv_fields v))
  end.
Proof.
  intros hs t k. generalize 1. induction hs as [|h hs IH]; intros r; cbn [de_bodies].
  - split; [intros _ [|n] h H; discriminate H|constructor].
  - rewrite Forall_app, IH, de_body_iff. split.
    + intros [H1 H2] [|n] h' Hn Ho; cbn [nth_error] in Hn; [injection Hn as <-; cbn [N.of_nat]; rewrite !N.add_0_r; exact (H1 Ho)|]. specialize (H2 n h' Hn Ho).
      replace (r + N.of_nat (S n)) with (r + 1 + N.of_nat n) by lia. exact H2.
    + intros H. split; [intros Ho; specialize (H 0%nat h eq_refl Ho); cbn [N.of_nat] in H; rewrite !N.add_0_r in H; exact H|].
      intros n h' Hn Ho. specialize (H (S n) h' Hn Ho). replace (r + N.of_nat (S n)) with (r + 1 + N.of_nat n) in H by lia. exact H.
Qed.

(** ** Declarations that the macro accepts *)

(** The declaration [i], written as [input], is accepted, and [s] is what is made of it. *)
Definition takes (sc : scope) (args input : list tok) (s : schema) (i : sitem) : Prop :=
  (exists x out, revisioned sc args input = Done (s, x, out)) /\ item_text sc true i input.
(** A field named [n], a variant [v], at revision [r]. *)
Definition live_field (r : N) (l : list sfield) (n : string) : Prop := exists f, In f l /\ opts_live r f /\ sf_name f = Some n.
Definition live_variant (r : N) (vs : list svariant) (v : svariant) : Prop := In v vs /\ vopts_live r v.
(** A variant without fields, and a tuple variant with one field of revision [r]. *)
Definition no_field (v : svariant) : Prop := sv_fields v = NoFields.
Definition one_field (r : N) (v : svariant) : Prop := exists l tr f, sv_fields v = Unnamed l tr /\ kept (opts_live r) eq l [f].
Definition variant_prefix (r : N) (v : svariant) (p : string) : Prop := p = "is" \/ ((no_field v \/ one_field r v) /\ (p = "into" \/ p = "decode")).
(** A field named [reader], read at [r] or filled in for [t], with a field behind it that is read. *)
Definition late (r t : N) (l : list sfield) : Prop := exists l1 f l2 g l3, l = (l1 ++ f :: l2 ++ g :: l3)%list
  /\ sf_name f = Some "reader" /\ (opts_live r f \/ opts_live t f) /\ opts_live r g.

Definition field_ok (f : sfield) : Prop := forall r, field_exists r f = true <-> opts_live r f.
Definition fields_ok (fs : sfields) : Prop := forall f, In f (fields_in fs) -> field_ok f.
Definition variant_ok (v : svariant) : Prop := (forall r, variant_exists r v = true <-> vopts_live r v) /\ fields_ok (sv_fields v).
Lemma fields_parsed : forall l xs, mmap parse_field (map mfield_of l) = Done xs -> forall f, In f l -> field_ok f.
Proof. intros l xs H f Hf r. destruct (mmap_in _ _ _ _ _ H (mfield_of f)) as (y & Hy); [apply in_map, Hf|]. exact (proj1 (field_exists_iff r f y Hy)). Qed.
Lemma takes_ok : forall sc args input s i, takes sc args input s i -> match si_kind i with SkStruct fs => fields_ok fs | SkEnum vs _ => forall v, In v vs -> variant_ok v end.
Proof.
  intros sc args input s i [(x & out & H) Hi]. unfold revisioned in H. apply mbind_done in H. destruct H as (a & Ha & H). apply mbind_done in H. destruct H as (i' & Hi' & H). apply mbind_done in H. destruct H as (y & Hy & H). inversion H; subst y out.
  apply item_iff in Hi. rewrite Hi in Hi'. injection Hi' as <-. pose proof (acc_body _ _ _ (expand_accepted _ _ _ Hy)) as Hk. cbn [mi_kind] in Hk. clear - Hk.
  destruct (si_kind i) as [vs tr|fs]; cbn [mkind_of parse_kind] in Hk; apply mbind_done in Hk; destruct Hk as (xs & Hxs & _).
  - intros v Hv. destruct (mmap_in _ _ _ _ _ Hxs (mvariant_of v)) as ([z c] & Hz); [apply in_map, Hv|]. split; [intros r; exact (proj1 (variant_exists_iff r v _ Hz))|].
    unfold parse_variant in Hz. apply mbind_done in Hz. destruct Hz as (o & _ & Hz). apply mbind_done in Hz. destruct Hz as (ys & Hys & _). exact (fields_parsed _ _ Hys).
  - exact (fields_parsed _ _ Hxs).
Qed.
Lemma live_field_iff : forall r l n, (forall f, In f l -> field_ok f) -> (field_there r l n <-> live_field r l n).
Proof. intros r l n H. split; intros (f & Hf & He & Hn); exists f; (split; [exact Hf|]); (split; [apply (H f Hf r), He|exact Hn]). Qed.
Lemma live_variant_iff : forall r vs v, (forall v, In v vs -> variant_ok v) -> (variant_there r vs v <-> live_variant r vs v).
Proof. intros r vs v H. split; intros [Hv He]; (split; [exact Hv|]); apply (proj1 (H v Hv) r), He. Qed.
Lemma late_iff : forall r t l, (forall f, In f l -> field_ok f) -> (late_there r t l <-> late r t l).
Proof.
  intros r t l H. split; intros (l1 & f & l2 & g & l3 & -> & Hn & Hf & Hg); exists l1, f, l2, g, l3; (split; [reflexivity|]); (split; [exact Hn|]);
    assert (Qf : field_ok f) by (apply H, in_or_app; right; left; reflexivity);
    assert (Qg : field_ok g) by (apply H, in_or_app; right; right; apply in_or_app; right; left; reflexivity).
  - split; [|apply Qg, Hg]. apply orb_prop in Hf. rewrite <- (Qf r), <- (Qf t). exact Hf.
  - split; [|apply Qg, Hg]. apply orb_true_iff. rewrite (Qf r), (Qf t). exact Hf.
Qed.
Lemma kept_one : forall r l, (forall f, In f l -> field_ok f) -> ((exists f, kept (opts_live r) eq l [f]) <-> List.length (filter (field_exists r) l) = 1%nat).
Proof.
  intros r l H.
  assert (Q : forall l l', (forall f, In f l -> field_ok f) -> (kept (opts_live r) eq l l' <-> filter (field_exists r) l = l')).
  { clear. intros l l' H. split.
    - intros K. induction K as [|x y l l' Hx <- K IH|x l l' Hx K IH]; [reflexivity|..]; cbn [filter]; pose proof (H x (or_introl eq_refl) r) as Q.
      + apply Q in Hx. rewrite Hx, IH by (intros f Hf; apply H; right; exact Hf). reflexivity.
      + destruct (field_exists r x); [exfalso; apply Hx, Q; reflexivity|]. apply IH. intros f Hf. apply H. right. exact Hf.
    - intros <-. induction l as [|x l IH]; [constructor|]. cbn [filter]. pose proof (H x (or_introl eq_refl) r) as Q. destruct (field_exists r x) eqn:E.
      + constructor; [apply Q; reflexivity|reflexivity|]. apply IH. intros f Hf. apply H. right. exact Hf.
      + constructor; [intros K; apply Q in K; discriminate K|]. apply IH. intros f Hf. apply H. right. exact Hf. }
  split.
  - intros (f & K). apply (Q _ _ H) in K. rewrite K. reflexivity.
  - intros E. destruct (filter (field_exists r) l) as [|f [|g m]] eqn:F; try discriminate E. exists f. apply (Q _ _ H), F.
Qed.
Lemma shape_unit : forall r v, shape r (sv_fields v) = OfUnit <-> no_field v.
Proof. intros r v. unfold no_field, shape. destruct (sv_fields v) as [l tr|l tr|]; [| |tauto]; try (split; intros H; discriminate H). destruct (Nat.eqb _ 1); split; intros H; discriminate H. Qed.
Lemma shape_one : forall r v, variant_ok v -> (shape r (sv_fields v) = OfOne <-> one_field r v).
Proof.
  intros r v [_ H]. unfold one_field, shape, fields_ok in *. destruct (sv_fields v) as [l tr|l tr|]; cbn [fields_in] in H; try (split; [discriminate|intros (l' & tr' & f & E & _); discriminate E]).
  split.
  - intros E. destruct (Nat.eqb_spec (List.length (filter (field_exists r) l)) 1) as [E'|]; [|discriminate E]. apply (kept_one r l H) in E'. destruct E' as (f & K). exists l, tr, f. auto.
  - intros (l' & tr' & f & E & K). injection E as <- <-. rewrite (proj1 (kept_one r l H) (ex_intro _ f K)). reflexivity.
Qed.
Lemma prefix_iff : forall r v p, variant_ok v -> (prefixed (shape r (sv_fields v)) p <-> variant_prefix r v p).
Proof.
  intros r v p H. unfold prefixed, variant_prefix. rewrite <- (shape_unit r v), <- (shape_one r v H). destruct (shape r (sv_fields v)); intuition congruence.
Qed.

(** A struct with named fields: rustc makes sure that they differ.  The walker's methods have different names exactly if no
    field is named by a raw identifier and no two fields are [walk] and [bytes], or [walk_x] and [x_bytes]. *)
Theorem C79_struct : forall sc args input s i l tr, takes sc args input s i -> si_kind i = SkStruct (Named l tr) -> NoDup (map sf_name l) ->
  ((exists ms, walker_methods (scur s) (si_kind i) = Some ms /\ NoDup ms) <->
   (forall n, live_field (scur s) l n -> ~ raw n)
   /\ ~ (live_field (scur s) l "walk" /\ live_field (scur s) l "bytes")
   /\ ~ (exists x, live_field (scur s) l ("walk_" ++ x) /\ live_field (scur s) l (x ++ "_bytes"))).
Proof.
  intros sc args input s i l tr H E Hn. pose proof (takes_ok _ _ _ _ _ H) as Hk. rewrite E in Hk |- *. unfold fields_ok in Hk. cbn [fields_in] in Hk.
  assert (Hl : forall f, In f l -> sf_name f <> None).
  { destruct H as [_ H]. intros f Hf. inversion H; subst; cbn [si_kind] in E; [|discriminate E]. injection E as ->. match goal with K : fields_text _ _ (Named _ _) _ |- _ => inversion K; subst end.
    match goal with K : separated _ _ _ _ |- _ => destruct (separated_in _ _ _ _ _ K f Hf) as (c & Hc) end. exact (proj2 Hc). }
  rewrite (names_struct (scur s) l tr Hl Hn), !(live_field_iff (scur s) l _ Hk). split; intros (H1 & H2 & H3); (split; [intros n K; apply H1, live_field_iff, K; exact Hk|]); (split; [exact H2|]);
    intros (x & K); apply H3; exists x; [rewrite <- !(live_field_iff (scur s) l _ Hk) in K|rewrite !(live_field_iff (scur s) l _ Hk) in K]; rewrite ?(live_field_iff (scur s) l _ Hk) in *; exact K.
Qed.
(** All others have. *)
Theorem C79_tuple : forall sc args input s i fs, takes sc args input s i -> si_kind i = SkStruct fs -> (forall l tr, fs <> Named l tr) ->
  exists ms, walker_methods (scur s) (si_kind i) = Some ms /\ NoDup ms.
Proof.
  intros sc args input s i fs H E Hf. rewrite E. destruct fs as [l tr|l tr|]; [destruct (Hf l tr eq_refl)| |eexists; split; [reflexivity|]; repeat constructor; intros []].
  apply names_tuple. destruct H as [_ H]. intros f Hi. inversion H; subst; cbn [si_kind] in E; [|discriminate E]. injection E as ->. match goal with K : fields_text _ _ (Unnamed _ _) _ |- _ => inversion K; subst end.
  match goal with K : separated _ _ _ _ |- _ => destruct (separated_in _ _ _ _ _ K f Hi) as (c & Hc) end. exact (proj2 Hc).
Qed.
(** An enum: rustc makes sure that the variants' names differ.  The walker's methods have different names exactly if no
    variant is named by a raw identifier, the names differ in snake case too, and no [<variant>_view] is at the same
    time an [is_<variant>], [into_<variant>] or [decode_<variant>]. *)
Theorem C79_enum : forall sc args input s i vs tr, takes sc args input s i -> si_kind i = SkEnum vs tr -> NoDup (map sv_name vs) ->
  ((exists ms, walker_methods (scur s) (si_kind i) = Some ms /\ NoDup ms) <->
   (forall v, live_variant (scur s) vs v -> ~ raw (sv_name v))
   /\ (forall v w, live_variant (scur s) vs v -> live_variant (scur s) vs w -> snake_case (sv_name v) = snake_case (sv_name w) -> v = w)
   /\ ~ (exists v w p, live_variant (scur s) vs v /\ live_variant (scur s) vs w /\ ~ no_field v /\ variant_prefix (scur s) w p
          /\ ((snake_case (sv_name v) = p /\ snake_case (sv_name w) = "view")
              \/ exists z, snake_case (sv_name v) = p ++ "_" ++ z /\ snake_case (sv_name w) = z ++ "_view"))).
Proof.
  intros sc args input s i vs tr H E Hn. pose proof (takes_ok _ _ _ _ _ H) as Hk. rewrite E in Hk |- *. rewrite (names_enum (scur s) vs tr Hn).
  assert (L : forall v, variant_there (scur s) vs v <-> live_variant (scur s) vs v) by (intros v; apply live_variant_iff, Hk).
  split; intros (H1 & H2 & H3); (split; [intros v Hv; apply H1, L, Hv|]); (split; [intros v w Hv Hw; apply H2; apply L; assumption|]);
    intros (v & w & p & Hv & Hw & Hu & Hp & Q); apply H3; exists v, w, p; rewrite (L v), (L w), <- ?(L v), <- ?(L w) in *; pose proof (Hk w (proj1 Hw)) as Kw.
  - rewrite (shape_unit (scur s) v), (prefix_iff (scur s) w p Kw). auto.
  - rewrite (shape_unit (scur s) v) in Hu. rewrite (prefix_iff (scur s) w p Kw) in Hp. auto.
Qed.
(** Encoding keeps its [writer] exactly if no field is named so. *)
Theorem C79_writer : forall sc args input s i h, takes sc args input s i ->
  (Forall (keeps "writer") (ser_bodies h (scur s) (si_kind i)) <->
   match si_kind i with
   | SkStruct fs => ~ live_field (scur s) (fields_in fs) "writer"
   | SkEnum vs _ => forall v, live_variant (scur s) vs v -> ~ live_field (scur s) (fields_in (sv_fields v)) "writer"
   end).
Proof.
  intros sc args input s i h H. pose proof (takes_ok _ _ _ _ _ H) as Hk. rewrite names_writer. destruct (si_kind i) as [vs tr|fs].
  - split; intros Q v Hv; pose proof (proj2 (Hk v (proj1 Hv))) as Kv; [rewrite <- (live_field_iff (scur s) _ _ Kv)|rewrite (live_field_iff (scur s) _ _ Kv)]; apply Q, (live_variant_iff (scur s) vs v Hk), Hv.
  - rewrite (live_field_iff (scur s) (fields_in fs) _ Hk). reflexivity.
Qed.
(** Decoding keeps its [reader] exactly if at no legacy revision a field named so comes before one that is read. *)
Theorem C79_reader : forall sc args input s i, takes sc args input s i ->
  (Forall (keeps "reader") (de_bodies 1 (s_hist s) (scur s) (si_kind i)) <->
   forall n h, nth_error (s_hist s) n = Some h -> h_opt h = false ->
   match si_kind i with
   | SkStruct fs => ~ late (1 + N.of_nat n) (scur s) (fields_in fs)
   | SkEnum vs _ => forall v, live_variant (1 + N.of_nat n) vs v -> ~ late (1 + N.of_nat n) (scur s) (fields_in (sv_fields v))
   end).
Proof.
  intros sc args input s i H. pose proof (takes_ok _ _ _ _ _ H) as Hk. rewrite names_reader. destruct (si_kind i) as [vs tr|fs].
  - split; intros Q n h Hn Ho v Hv; pose proof (proj2 (Hk v (proj1 Hv))) as Kv; [rewrite <- (late_iff _ _ _ Kv)|rewrite (late_iff _ _ _ Kv)]; apply (Q n h Hn Ho), (live_variant_iff _ vs v Hk), Hv.
  - split; intros Q n h Hn Ho; [rewrite <- (late_iff _ _ _ Hk)|rewrite (late_iff _ _ _ Hk)]; exact (Q n h Hn Ho).
Qed.

(** ** Declarations that the macro accepts and that do not compile *)

Fixpoint twice (l : list string) : bool := match l with [] => false | x :: l' => existsb (String.eqb x) l' || twice l' end.
Lemma twice_dup : forall l, twice l = true -> ~ NoDup l.
Proof.
  induction l as [|x l IH]; intros H Hn; [discriminate|]. apply NoDup_cons_iff in Hn. destruct Hn as [Hx Hl]. cbn [twice] in H. apply orb_prop in H. destruct H as [H|H]; [|exact (IH H Hl)].
  apply existsb_exists in H. destruct H as (y & Hy & E). apply String.eqb_eq in E. subst y. exact (Hx Hy).
Qed.
Definition a_scope : scope := mkScope (fun _ vs _ _ => Ok vs) (fun _ _ _ => Ok VUnit) (fun _ _ => Ok (VSeq [])).
Definition u8_ : tok := Type_ (TInt U8) (Ok (VInt 0%Z)).
Definition struct_of (names : list string) : list tok := [Id "struct"; Id "S"; Grp Brace (flat_map (fun n => [Id n; colon; u8_; comma]) names)].
Definition enum_of (name : string) (vs : list (string * bool)) : list tok :=
  [Id "enum"; Id name; Grp Brace (flat_map (fun v : string * bool => Id (fst v) :: (if snd v then [Grp Paren [u8_]] else []) ++ [comma])%list vs)].
Definition bad_methods : list (list tok) :=
  [struct_of ["walk"; "bytes"]; struct_of ["walk_in"; "at"; "in_bytes"]; struct_of ["r#type"];
   enum_of "E" [("Is", true); ("View", false)]; enum_of "E" [("IntoMap", true); ("Other", false); ("MapView", true)]; enum_of "E" [("FooBar", false); ("foo_bar", false)]].
Theorem C79_methods_refuted : Forall (fun input => exists s x out i, revisioned a_scope [Id "revision"; equals; Int 1] input = Done (s, x, out) /\ im_walk x = true
  /\ parse2 a_scope input = Done i /\ ~ exists ms, walker_methods (scur s) (si_kind i) = Some ms /\ NoDup ms) bad_methods.
Proof.
  repeat constructor; do 4 eexists; (split; [vm_compute; reflexivity|]); (split; [reflexivity|]); (split; [vm_compute; reflexivity|]);
    intros (ms & E & H); vm_compute in E; try discriminate E; injection E as <-; revert H; apply twice_dup; reflexivity.
Qed.
Theorem C79_locals_refuted :
  (exists s x out i h, revisioned a_scope [Id "revision"; equals; Int 1] (struct_of ["id"; "writer"]) = Done (s, x, out) /\ parse2 a_scope (struct_of ["id"; "writer"]) = Done i
     /\ s_hist s = [h] /\ ~ Forall (keeps "writer") (ser_bodies h (scur s) (si_kind i)))
  /\ (exists s x out i, revisioned a_scope [Id "revision"; equals; Int 1] (struct_of ["reader"; "id"]) = Done (s, x, out) /\ parse2 a_scope (struct_of ["reader"; "id"]) = Done i
     /\ ~ Forall (keeps "reader") (de_bodies 1 (s_hist s) (scur s) (si_kind i))).
Proof.
  split.
  - do 5 eexists. split; [vm_compute; reflexivity|]. split; [vm_compute; reflexivity|]. split; [reflexivity|]. rewrite names_writer. cbn [si_kind]. intros H. apply H.
    eexists. split; [right; left; reflexivity|]. split; [vm_compute; reflexivity|reflexivity].
  - do 4 eexists. split; [vm_compute; reflexivity|]. split; [vm_compute; reflexivity|]. rewrite names_reader. cbn [si_kind s_hist]. intros H. apply (H 0%nat _ eq_refl eq_refl).
    exists [], (mkSfield [] [] [] (Some "reader") (TInt U8) (Ok (VInt 0%Z))), [], (mkSfield [] [] [] (Some "id") (TInt U8) (Ok (VInt 0%Z))), []. repeat split; vm_compute; reflexivity.
Qed.
(** Two enums with different names, and a struct for each variant. *)
Theorem C79_items_refuted : exists i j, parse2 a_scope (enum_of "Foo" [("BarBaz", true)]) = Done i /\ parse2 a_scope (enum_of "FooBar" [("Baz", true)]) = Done j
  /\ (exists r, revisioned a_scope [Id "revision"; equals; Int 1] (enum_of "Foo" [("BarBaz", true)]) = Done r)
  /\ (exists r, revisioned a_scope [Id "revision"; equals; Int 1] (enum_of "FooBar" [("Baz", true)]) = Done r)
  /\ si_name i <> si_name j /\ ~ apart (item_names i) (item_names j).
Proof.
  do 2 eexists. split; [vm_compute; reflexivity|]. split; [vm_compute; reflexivity|]. split; [eexists; vm_compute; reflexivity|]. split; [eexists; vm_compute; reflexivity|].
  split; [discriminate|]. intros H. apply (H "FooBarBazFields"); vm_compute; tauto.
Qed.

(** ** Examples *)

(** A struct and an enum as they usually are. *)
Example C79_struct_case : exists i, parse2 a_scope (struct_of ["id"; "name"; "bytes"; "reader"]) = Done i
  /\ (exists ms, walker_methods 1 (si_kind i) = Some ms /\ NoDup ms /\ In "into_bytes_bytes" ms /\ List.length ms = 21%nat)
  /\ Forall (keeps "writer") (ser_bodies (mkHent false false) 1 (si_kind i)) /\ Forall (keeps "reader") (de_bodies 1 [mkHent false false] 1 (si_kind i)).
Proof.
  eexists. split; [vm_compute; reflexivity|]. cbn [si_kind]. split; [|split].
  - edestruct names_struct as [_ Q]; cycle 2.
    + destruct Q as (ms & E & Hn); [|exists ms; split; [exact E|]; split; [exact Hn|]; vm_compute in E; injection E as <-; split; [cbn; tauto|reflexivity]].
      unfold field_there. split; [|split].
      * intros n (f & Hf & _ & En) Hr. cbn [In] in Hf. repeat (destruct Hf as [<-|Hf]; [cbn in En; injection En as <-; cbn in Hr; intuition discriminate|]). destruct Hf.
      * intros [(f & Hf & _ & En) _]. cbn [In] in Hf. repeat (destruct Hf as [<-|Hf]; [discriminate En|]). destruct Hf.
      * intros (x & (f & Hf & _ & En) & _). cbn [In] in Hf. repeat (destruct Hf as [<-|Hf]; [discriminate En|]). destruct Hf.
    + intros f Hf. cbn [In] in Hf. repeat (destruct Hf as [<-|Hf]; [discriminate|]). destruct Hf.
    + cbn. repeat constructor; cbn; intuition discriminate.
  - apply names_writer. intros (f & Hf & _ & En). cbn [In fields_in] in Hf. repeat (destruct Hf as [<-|Hf]; [discriminate En|]). destruct Hf.
  - apply names_reader. intros [|[|n]] h Hh Ho; cbn [nth_error] in Hh; try discriminate Hh. intros (l1 & f & l2 & g & l3 & E & En & _). cbn [fields_in] in E.
    do 4 (destruct l1 as [|? l1]; cbn [app] in E; [injection E as <- E; try discriminate En; destruct l2; discriminate E|injection E as _ E]). destruct l1; discriminate E.
Qed.
Example C79_enum_case : exists i, parse2 a_scope (enum_of "Shape" [("Dot", false); ("LineTo", true); ("View", true)]) = Done i
  /\ exists ms, walker_methods 1 (si_kind i) = Some ms /\ In "line_to_view" ms /\ In "is_view" ms /\ NoDup ms.
Proof.
  eexists. split; [vm_compute; reflexivity|]. eexists. split; [vm_compute; reflexivity|]. split; [cbn; tauto|]. split; [cbn; tauto|].
  repeat constructor; cbn; intuition discriminate.
Qed.
Example C79_camel_case : camel "LineTo" /\ camel "HTTPGet" /\ snake_case "HTTPGet" = "h_t_t_p_get" /\ snake_case "LineTo" = "line_to".
Proof. repeat split; cbn; intuition discriminate. Qed.
Example C79_snake_case : Forall2 word ["Line"; "To2"] ["line"; "to2"] /\ String.concat "" ["Line"; "To2"] = "LineTo2" /\ snake_case "LineTo2" = "line_to2".
Proof.
  split; [|split; reflexivity]. constructor; [|constructor; [|constructor]]; [exists 11%nat|exists 19%nat];
    do 3 eexists; (repeat (split; [reflexivity|])); intros x H K; cbn in H, K;
    repeat (destruct H as [H|H]; [subst x; repeat (destruct K as [K|K]; [discriminate K|]); exact K|]); exact H.
Qed.
(** A declaration as the theorems take it: [walk] is gone at revision 2, so [bytes] is no clash. *)
Definition gone : list tok :=
  [Id "struct"; Id "S"; Grp Brace [pound; Grp Brack [Id "revision"; Grp Paren [Id "end"; equals; Int 2; comma; Id "convert_fn"; equals; Lit (Syntax.chars "c")]]; Id "walk"; colon; u8_; comma; Id "bytes"; colon; u8_]].
Example C79_takes_case : exists s i l tr, takes a_scope [Id "revision"; equals; Int 2] gone s i /\ scur s = 2 /\ si_kind i = SkStruct (Named l tr) /\ NoDup (map sf_name l)
  /\ live_field 1 l "walk" /\ live_field 1 l "bytes" /\ ~ live_field 2 l "walk" /\ live_field 2 l "bytes"
  /\ (exists ms, walker_methods 2 (si_kind i) = Some ms /\ NoDup ms) /\ ~ (exists ms, walker_methods 1 (si_kind i) = Some ms /\ NoDup ms).
Proof.
  do 4 eexists. split; [split; [do 2 eexists; vm_compute; reflexivity|apply item_iff; vm_compute; reflexivity]|]. split; [reflexivity|]. split; [reflexivity|].
  split; [repeat constructor; cbn; intuition discriminate|].
  assert (L : forall r f, opts_live r f -> Forall (fun o => match o with FStart n => n <= r | FEnd n => r < n | _ => True end) (sf_opts f)).
  { intros r f [H1 H2]. apply Forall_forall. intros o Ho. destruct o; auto. }
  split; [eexists; split; [left; reflexivity|]; split; [split; intros n H; cbn in H; intuition (try discriminate)|reflexivity]|].
  { match goal with K : FEnd _ = FEnd _ |- _ => injection K as <-; reflexivity end. }
  split; [eexists; split; [right; left; reflexivity|]; split; [split; intros n []|reflexivity]|].
  split; [intros (f & Hf & Hl & Hn); cbn [In] in Hf; destruct Hf as [<-|[<-|[]]]; [|discriminate Hn]; apply L in Hl; cbn in Hl; inversion Hl as [|o l Ho]; subst; discriminate Ho|].
  split; [eexists; split; [right; left; reflexivity|]; split; [split; intros n []|reflexivity]|]. split.
  - eexists. split; [vm_compute; reflexivity|]. repeat constructor; cbn; intuition discriminate.
  - intros (ms & E & H). vm_compute in E. injection E as <-. revert H. apply twice_dup. reflexivity.
Qed.

Print Assumptions C79_struct.
Print Assumptions C79_tuple.
Print Assumptions C79_enum.
Print Assumptions C79_snake.
Print Assumptions C79_camel.
Print Assumptions C79_items.
Print Assumptions C79_writer.
Print Assumptions C79_reader.
Print Assumptions C79_methods_refuted.
Print Assumptions C79_locals_refuted.
Print Assumptions C79_items_refuted.
