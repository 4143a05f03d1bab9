(** The parsers of Syntax.v read exactly what SyntaxSpec.v describes.  Proofs. *)

From Verif Require Import Base Ty Typed Macro MacroSpec MacroL Syntax SyntaxSpec.
From Coq Require Import List NArith Bool Ascii String Lia.
Import ListNotations.
Open Scope N_scope.
Open Scope list_scope.

(** ** Lists with commas *)

Definition ends (r : list tok) : Prop := r = [] \/ exists r', r = comma :: r'.
(** [p] reads exactly the texts of [R], as far as it is followed by a comma or the end. *)
Definition reads {A} (p : par A) (R : A -> list tok -> Prop) : Prop :=
  (forall ts x r, p ts = Done (x, r) -> exists a, ts = a ++ r /\ R x a)
  /\ (forall x a r, R x a -> ends r -> p (a ++ r) = Done (x, r))
  /\ (forall x a, R x a -> a <> []).

Lemma terminated_fuel : forall A (p : par A) (R : A -> list tok -> Prop), reads p R ->
  forall fuel ts l tr, (List.length ts < fuel)%nat -> (terminated_from fuel p ts = Done (l, tr) <-> separated R l tr ts).
Proof.
  intros A p R (Hs & Hc & Hn). induction fuel as [|fuel IH]; intros ts l tr Hf; [lia|]. cbn [terminated_from]. split.
  - intros H. destruct ts as [|t0 ts0]; [inversion H; constructor|]. remember (t0 :: ts0) as ts eqn:Et. clear Et t0 ts0.
    apply mbind_done in H. destruct H as ([x r] & H1 & H2). destruct (Hs _ _ _ H1) as (a & -> & Ha). cbn [fst snd] in H2. pose proof (Hn _ _ Ha) as Hne.
    assert (Hla : (0 < List.length a)%nat) by (destruct a; [contradiction|cbn; lia]). rewrite app_length in Hf.
    destruct r as [|t r]; [inversion H2; subst; rewrite app_nil_r; constructor; exact Ha|]. destruct t as [| | |c| | | |]; try (destruct r; discriminate H2).
    assert (Hcc : (c =? 44) = true) by (destruct (c =? 44); [reflexivity|destruct r; discriminate H2]). rewrite Hcc in H2. apply N.eqb_eq in Hcc. subst c. fold comma.
    destruct r as [|t r]; [inversion H2; subst; constructor; exact Ha|]. apply mbind_done in H2. destruct H2 as ([l' tr'] & H2 & H3). inversion H3; subst. cbn [fst snd].
    apply IH in H2; [|cbn [List.length] in *; lia]. constructor; [exact Ha| |exact H2]. intros ->. inversion H2.
  - intros H. inversion H as [|x a Ha|x a Ha|x a l' tr' b Ha Hl Hb]; subst.
    + reflexivity.
    + pose proof (Hn _ _ Ha) as Hne. pose proof (Hc x ts [] Ha (or_introl eq_refl)) as Hp. rewrite app_nil_r in Hp. destruct ts as [|t ts]; [contradiction|]. rewrite Hp. reflexivity.
    + pose proof (Hn _ _ Ha) as Hne. pose proof (Hc x a [comma] Ha (or_intror (ex_intro _ [] eq_refl))) as Hp. destruct (a ++ [comma]) as [|t ts] eqn:Ea; [destruct a; discriminate Ea|]. rewrite Hp. reflexivity.
    + pose proof (Hn _ _ Ha) as Hne. pose proof (Hc x a (comma :: b) Ha (or_intror (ex_intro _ b eq_refl))) as Hp. destruct (a ++ comma :: b) as [|t ts] eqn:Ea; [destruct a; discriminate Ea|]. rewrite Hp. cbn [mbind fst snd].
      assert (Hb' : b <> []).
      { intros ->. inversion Hb as [E1 E2 E3|y c Hy|y c Hy E1 E2 E3|y c l2 tr2 b2 Hy Hl2 Hb2 E1 E2 E3]; subst; [contradiction|exact (Hn _ _ Hy eq_refl)|destruct c; discriminate|destruct c; discriminate]. }
      assert (Hlen : (List.length b < fuel)%nat). { rewrite <- Ea, app_length in Hf. cbn [List.length] in Hf. destruct a; [contradiction|cbn [List.length] in Hf; lia]. }
      apply IH in Hb; [|exact Hlen]. cbn [comma]. change (44 =? 44) with true. destruct b as [|t' b]; [contradiction|]. rewrite Hb. reflexivity.
Qed.
Lemma terminated_iff : forall A (p : par A) R, reads p R -> forall ts l tr, terminated p ts = Done (l, tr) <-> separated R l tr ts.
Proof. intros A p R H ts l tr. apply (terminated_fuel A p R H). lia. Qed.
Lemma all_terminated_iff : forall A (p : par A) R, reads p R -> forall ts l, all_terminated p ts = Done l <-> listed R l ts.
Proof.
  intros A p R H ts l. unfold all_terminated, listed. split.
  - intros H1. apply mbind_done in H1. destruct H1 as ([l' tr] & H1 & H2). inversion H2; subst. exists tr. apply (terminated_iff A p R H), H1.
  - intros [tr H1]. apply (terminated_iff A p R H) in H1. rewrite H1. reflexivity.
Qed.

(** ** Options *)

Lemma peek_true : forall k ts, peek k ts = true -> exists r, ts = Id k :: r.
Proof. intros k [|[s| | | | | | |] ts] H; try discriminate H. cbn in H. apply String.eqb_eq in H. subst s. eexists. reflexivity. Qed.
Lemma kw_ok : forall k ts x r, kw k ts = Done (x, r) -> ts = Id k :: r.
Proof. intros k [|[s| | | | | | |] ts] x r H; try discriminate H. cbn in H. destruct (String.eqb s k) eqn:E; [|discriminate]. apply String.eqb_eq in E. congruence. Qed.
Lemma punct_ok : forall c ts x r, punct c ts = Done (x, r) -> ts = Pu c :: r.
Proof. intros c [|[| | |c'| | | |] ts] x r H; try discriminate H. cbn in H. destruct (c' =? c) eqn:E; [|discriminate]. apply N.eqb_eq in E. congruence. Qed.
Lemma lit_int_ok : forall ts n r, lit_int ts = Done (n, r) -> ts = Int n :: r.
Proof. intros [|[s|m|s|c| |d l|t d|g] ts] n r H; try discriminate H. cbn in H. congruence. Qed.
Lemma lit_str_ok : forall ts n r, lit_str ts = Done (n, r) -> ts = Lit n :: r.
Proof. intros [|[s|m|s|c| |d l|t d|g] ts] n r H; try discriminate H. cbn in H. congruence. Qed.
Lemma lit_bool_ok : forall ts b r, lit_bool ts = Done (b, r) -> ts = Id (if b then "true" else "false")%string :: r.
Proof.
  intros [|[s| | | | | | |] ts] b r H; try discriminate H. unfold lit_bool in H. destruct (String.eqb s "true") eqn:E1; [apply String.eqb_eq in E1; inversion H; subst; reflexivity|].
  destruct (String.eqb s "false") eqn:E2; [|discriminate]. apply String.eqb_eq in E2. inversion H; subst; reflexivity.
Qed.
Lemma pbind_done : forall A B (p : par A) (f : A -> par B) ts x r, pbind p f ts = Done (x, r) -> exists a r1, p ts = Done (a, r1) /\ f a r1 = Done (x, r).
Proof. intros A B p f ts x r H. unfold pbind in H. apply mbind_done in H. destruct H as ([a r1] & H1 & H2). exists a, r1. auto. Qed.
Lemma pmap_done : forall A B (f : A -> B) (p : par A) ts x r, pmap f p ts = Done (x, r) -> exists a, p ts = Done (a, r) /\ x = f a.
Proof. intros A B f p ts x r H. unfold pmap in H. apply pbind_done in H. destruct H as (a & r1 & H1 & H2). inversion H2; subst. exists a. auto. Qed.
Lemma value_option_done : forall A k (p : par A) ts x r, value_option k p ts = Done (x, r) -> exists r1, ts = Id k :: equals :: r1 /\ p r1 = Done (x, r).
Proof.
  intros A k p ts x r H. unfold value_option in H. apply pbind_done in H. destruct H as (u & r1 & H1 & H). apply kw_ok in H1. apply pbind_done in H. destruct H as (u' & r2 & H2 & H). apply punct_ok in H2. subst.
  exists r2. auto.
Qed.

(** One alternative of a chain of [peek]s. *)
Ltac alt H :=
  match type of H with (if peek ?k ?ts then _ else _) = _ => let Ep := fresh "Ep" in destruct (peek k ts) eqn:Ep; [clear Ep|clear Ep] end.
Ltac keyed H := apply pmap_done in H; let u := fresh "u" in let Hx := fresh "Hx" in destruct H as (u & H & Hx); apply kw_ok in H; subst; eexists (_ :: nil); split; [reflexivity|constructor].
Ltac valued H ok :=
  apply pmap_done in H; let u := fresh "u" in let Hx := fresh "Hx" in let r1 := fresh "r" in let Hr := fresh "Hr" in
  destruct H as (u & H & Hx); apply value_option_done in H; destruct H as (r1 & Hr & H); apply ok in H; subst; eexists (_ :: _ :: _ :: nil); split; [reflexivity|constructor].

Section Options.
Variable sc : scope.

Lemma field_option_reads : reads (field_option sc) (field_option_text sc).
Proof.
  split; [|split].
  - intros ts x r H. unfold field_option in H. alt H; [valued H lit_int_ok|]. alt H; [valued H lit_int_ok|]. alt H; [valued H lit_str_ok|]. alt H; [valued H lit_str_ok|].
    alt H; [keyed H|]. alt H; [keyed H|]. alt H; [keyed H|]. alt H; [keyed H|]. alt H; [keyed H|]. discriminate H.
  - intros x a r H _. inversion H; subst; reflexivity.
  - intros x a H. inversion H; discriminate.
Qed.
Lemma override_reads : reads variant_override override_text.
Proof.
  split; [|split].
  - intros ts x r H. unfold variant_override in H. alt H; [valued H lit_int_ok|]. alt H; [valued H lit_int_ok|]. discriminate H.
  - intros x a r H _. inversion H; subst; reflexivity.
  - intros x a H. inversion H; discriminate.
Qed.

(** ** [size = ".."] *)

Lemma same_chars_iff : forall a b, same_chars a b = true <-> a = b.
Proof.
  induction a as [|x a IH]; intros [|y b]; cbn [same_chars]; try (split; [discriminate|discriminate]); [tauto|].
  rewrite andb_true_iff, IH, N.eqb_eq. split; [intros [-> ->]; reflexivity|intros H; inversion H; auto].
Qed.
Lemma space_iff : forall c, is_space c = true <-> In c white.
Proof.
  intros c. unfold is_space. rewrite !orb_true_iff, !andb_true_iff, !N.leb_le, !N.eqb_eq. unfold white. cbn [In]. lia.
Qed.
Lemma trim_start_spec : forall l, exists a, l = a ++ trim_start l /\ blank a /\ match trim_start l with c :: _ => is_space c = false | [] => True end.
Proof.
  induction l as [|c l IH]; [exists []; repeat split; constructor|]. cbn [trim_start]. destruct (is_space c) eqn:Ec.
  - destruct IH as (a & H1 & H2 & H3). exists (c :: a). split; [cbn [app]; congruence|]. split; [constructor; [apply space_iff; exact Ec|exact H2]|exact H3].
  - exists []. split; [reflexivity|]. split; [constructor|exact Ec].
Qed.
Lemma trim_start_blank : forall a l, blank a -> trim_start (a ++ l) = trim_start l.
Proof. intros a l H. induction H as [|c a Hc Ha IH]; [reflexivity|]. cbn [app trim_start]. apply space_iff in Hc. rewrite Hc. exact IH. Qed.
Lemma trim_start_id : forall c l, is_space c = false -> trim_start (c :: l) = c :: l.
Proof. intros c l H. cbn [trim_start]. rewrite H. reflexivity. Qed.
Lemma blank_rev : forall a, blank a -> blank (rev a).
Proof. intros a H. apply Forall_rev. exact H. Qed.
Lemma trim_spec : forall l, exists a b, l = a ++ trim l ++ b /\ blank a /\ blank b.
Proof.
  intros l. unfold trim. destruct (trim_start_spec l) as (a & H1 & H2 & _). destruct (trim_start_spec (rev (trim_start l))) as (b & H3 & H4 & _).
  exists a, (rev b). split; [|split; [exact H2|exact (blank_rev _ H4)]]. rewrite <- rev_app_distr, <- H3, rev_involutive. exact H1.
Qed.
(** [l] begins and ends with something else than white space. *)
Definition solid (l : list N) : Prop := match l with c :: _ => is_space c = false | [] => False end /\ match rev l with c :: _ => is_space c = false | [] => False end.
Lemma trim_solid : forall a l b, blank a -> blank b -> solid l -> trim (a ++ l ++ b) = l.
Proof.
  intros a l b Ha Hb [H1 H2]. unfold trim. rewrite (trim_start_blank a _ Ha). destruct l as [|c l]; [destruct H1|]. cbn [app]. rewrite (trim_start_id c _ H1).
  change (c :: l ++ b) with ((c :: l) ++ b). rewrite rev_app_distr, (trim_start_blank _ _ (blank_rev _ Hb)). destruct (rev (c :: l)) as [|d m] eqn:Er; [destruct H2|].
  rewrite (trim_start_id d _ H2), <- Er, rev_involutive. reflexivity.
Qed.
Lemma strip_prefix_iff : forall p l r, strip_prefix p l = Some r <-> l = p ++ r.
Proof.
  induction p as [|x p IH]; intros l r; cbn [strip_prefix app]; [split; [intros H; inversion H; reflexivity|intros ->; reflexivity]|].
  destruct l as [|y l]; [split; discriminate|]. destruct (x =? y) eqn:E.
  - apply N.eqb_eq in E. subst y. rewrite IH. split; [intros ->; reflexivity|intros H; inversion H; reflexivity].
  - apply N.eqb_neq in E. split; [discriminate|intros H; inversion H; congruence].
Qed.
Lemma strip_suffix_iff : forall p l r, strip_suffix p l = Some r <-> l = r ++ p.
Proof.
  intros p l r. unfold strip_suffix. destruct (strip_prefix (rev p) (rev l)) as [q|] eqn:E; cbn [option_map].
  - apply strip_prefix_iff in E. split.
    + intros H. inversion H; subst. rewrite <- (rev_involutive l), E, rev_app_distr, rev_involutive. reflexivity.
    + intros ->. rewrite rev_app_distr in E. apply app_inv_head in E. rewrite <- E, rev_involutive. reflexivity.
  - split; [discriminate|]. intros ->. exfalso. rewrite rev_app_distr in E. rewrite (proj2 (strip_prefix_iff (rev p) (rev p ++ rev r) (rev r)) eq_refl) in E. discriminate E.
Qed.
Lemma digits_iff : forall l acc n, acc < 256 -> (digits_u8 acc l = Some n <-> Forall digit l /\ fold_left (fun a c => a * 10 + (c - 48)) l acc = n /\ n < 256).
Proof.
  assert (Hmono : forall l acc, acc <= fold_left (fun a c => a * 10 + (c - 48)) l acc).
  { induction l as [|c l IH]; intros acc; cbn [fold_left]; [lia|]. etransitivity; [|apply IH]. lia. }
  induction l as [|c l IH]; intros acc n Ha; cbn [digits_u8 fold_left].
  - split; [intros H; inversion H; subst; repeat split; [constructor|exact Ha]|intros (_ & -> & _); reflexivity].
  - destruct ((48 <=? c) && (c <=? 57)) eqn:Ec.
    + apply andb_true_iff in Ec. destruct Ec as [E1 E2]. apply N.leb_le in E1, E2. destruct (acc * 10 + (c - 48) <? 256) eqn:Ev.
      * apply N.ltb_lt in Ev. rewrite (IH _ n Ev). split; [intros (H1 & H2 & H3); repeat split; [constructor; [split; assumption|exact H1]|exact H2|exact H3]|].
        intros (H1 & H2 & H3). inversion H1; subst. repeat split; [assumption|exact H3].
      * apply N.ltb_ge in Ev. split; [discriminate|]. intros (_ & H2 & H3). pose proof (Hmono l (acc * 10 + (c - 48))). lia.
    + split; [discriminate|]. intros (H1 & _). inversion H1 as [|? ? [D1 D2]]; subst. apply andb_false_iff in Ec. destruct Ec as [E|E]; apply N.leb_gt in E; lia.
Qed.
Lemma digit_not_plus : forall c, digit c -> (c =? 43) = false.
Proof. intros c [H1 H2]. apply N.eqb_neq. lia. Qed.
Lemma u8_iff : forall l n, u8_from_str l = Some n <-> exists plus ds, l = plus ++ ds /\ (plus = [] \/ plus = chars "+") /\ ds <> [] /\ Forall digit ds /\ decimal ds = n /\ n < 256.
Proof.
  intros l n. unfold u8_from_str. assert (H0 : 0 < 256) by lia. split.
  - destruct l as [|c l]; [discriminate|]. destruct (c =? 43) eqn:E.
    + destruct l as [|d l]; [discriminate|]. intros H. apply (digits_iff _ _ _ H0) in H. apply N.eqb_eq in E. subst c. exists [43], (d :: l). split; [reflexivity|]. split; [right; reflexivity|]. split; [discriminate|exact H].
    + intros H. apply (digits_iff _ _ _ H0) in H. exists [], (c :: l). split; [reflexivity|]. split; [left; reflexivity|]. split; [discriminate|exact H].
  - intros (plus & ds & -> & Hp & Hn & Hd & Hv & Hl). assert (Hr : digits_u8 0 ds = Some n) by (apply (digits_iff _ _ _ H0); repeat split; assumption).
    destruct ds as [|d ds]; [contradiction|]. destruct Hp as [-> | ->].
    + cbn [app]. inversion Hd; subst. rewrite (digit_not_plus d) by assumption. exact Hr.
    + exact Hr.
Qed.
Lemma digit_solid : forall c, digit c -> is_space c = false.
Proof.
  intros c [H1 H2]. unfold is_space. repeat rewrite orb_false_iff. repeat split; try (apply N.eqb_neq; lia); apply andb_false_iff; (left; apply N.leb_gt; lia) || (right; apply N.leb_gt; lia).
Qed.
Lemma num_solid : forall plus ds, (plus = [] \/ plus = chars "+") -> ds <> [] -> Forall digit ds -> solid (plus ++ ds).
Proof.
  intros plus ds Hp Hn Hd. assert (Hl : match rev ds with c :: _ => digit c | [] => False end).
  { destruct (rev ds) as [|c m] eqn:Er; [apply Hn; rewrite <- (rev_involutive ds), Er; reflexivity|]. apply Forall_rev in Hd. rewrite Er in Hd. inversion Hd; assumption. }
  split.
  - destruct Hp as [-> | ->]; [|reflexivity]. destruct ds as [|d ds]; [contradiction|]. inversion Hd; subst. apply digit_solid. assumption.
  - rewrite rev_app_distr. destruct (rev ds) as [|c m]; [destruct Hl|]. cbn [app]. apply digit_solid, Hl.
Qed.
Lemma solid_ends : forall a m z, solid [a] -> solid [z] -> solid (a :: m ++ [z]).
Proof. intros a m z [H1 _] [H2 _]. split; [exact H1|]. cbn [rev]. rewrite rev_app_distr. exact H2. Qed.
Lemma size_iff : forall s z, parse_variant_size s = Done z <-> size_text z s.
Proof.
  intros s z. split.
  - unfold parse_variant_size. destruct (trim_spec s) as (a & b & Hs & Ha & Hb).
    destruct (same_chars (trim s) (chars "inline")) eqn:E1; [apply same_chars_iff in E1; rewrite E1 in Hs; intros H; inversion H; subst z; rewrite Hs; constructor; assumption|].
    destruct (same_chars (trim s) (chars "varlen")) eqn:E2; [apply same_chars_iff in E2; rewrite E2 in Hs; intros H; inversion H; subst z; rewrite Hs; constructor; assumption|].
    destruct (strip_prefix (chars "fixed(") (trim s)) as [rest|] eqn:E3; [|discriminate]. apply strip_prefix_iff in E3.
    destruct (strip_suffix (chars ")") rest) as [num|] eqn:E4; [|discriminate]. apply strip_suffix_iff in E4.
    destruct (u8_from_str (trim num)) as [n|] eqn:E5; [|discriminate]. intros H. inversion H; subst z. apply u8_iff in E5. destruct E5 as (plus & ds & E5 & Hp & Hn & Hd & Hv & Hl).
    destruct (trim_spec num) as (c & d & Hnum & Hc & Hd'). rewrite E5 in Hnum. rewrite Hs, E3, E4, Hnum, <- Hv. rewrite <- !app_assoc. constructor; try assumption. rewrite Hv. exact Hl.
  - intros H. inversion H as [a b Ha Hb|a b Ha Hb|a b c d plus ds Ha Hb Hc Hd Hp Hn Hds Hv]; subst; unfold parse_variant_size.
    + rewrite (trim_solid a (chars "inline") b Ha Hb ltac:(split; reflexivity)). reflexivity.
    + rewrite (trim_solid a (chars "varlen") b Ha Hb ltac:(split; reflexivity)). reflexivity.
    + set (core := chars "fixed(" ++ c ++ (plus ++ ds) ++ d ++ chars ")").
      replace (a ++ chars "fixed(" ++ c ++ plus ++ ds ++ d ++ chars ")" ++ b) with (a ++ core ++ b) by (subst core; rewrite <- !app_assoc; reflexivity).
      assert (Hcore : solid core).
      { subst core. change (chars "fixed(") with (102 :: [105; 120; 101; 100; 40]). cbn [app]. change (chars ")") with [41].
        replace (102 :: 105 :: 120 :: 101 :: 100 :: 40 :: c ++ (plus ++ ds) ++ d ++ [41]) with (102 :: (105 :: 120 :: 101 :: 100 :: 40 :: c ++ (plus ++ ds) ++ d) ++ [41]) by (cbn [app]; rewrite <- !app_assoc; reflexivity).
        apply solid_ends; split; reflexivity. }
      rewrite (trim_solid a core b Ha Hb Hcore).
      assert (E1 : same_chars core (chars "inline") = false) by reflexivity. assert (E2 : same_chars core (chars "varlen") = false) by reflexivity. rewrite E1, E2.
      assert (E3 : strip_prefix (chars "fixed(") core = Some (c ++ (plus ++ ds) ++ d ++ chars ")")) by (apply strip_prefix_iff; reflexivity). rewrite E3.
      assert (E4 : strip_suffix (chars ")") (c ++ (plus ++ ds) ++ d ++ chars ")") = Some (c ++ (plus ++ ds) ++ d)) by (apply strip_suffix_iff; rewrite <- !app_assoc; reflexivity). rewrite E4.
      rewrite (trim_solid c (plus ++ ds) d Hc Hd (num_solid plus ds Hp Hn Hds)).
      assert (E5 : u8_from_str (plus ++ ds) = Some (decimal ds)) by (apply u8_iff; exists plus, ds; repeat split; assumption). rewrite E5. reflexivity.
Qed.

Lemma variant_option_reads : reads (variant_option sc) (variant_option_text sc).
Proof.
  split; [|split].
  - intros ts x r H. unfold variant_option in H. alt H; [valued H lit_int_ok|]. alt H; [valued H lit_int_ok|]. alt H; [valued H lit_str_ok|]. alt H; [valued H lit_str_ok|]. alt H; [valued H lit_str_ok|].
    alt H; [|alt H; [|discriminate H]].
    + apply pmap_done in H. destruct H as (l & H & ->). unfold group_option in H. apply pbind_done in H. destruct H as (u & r1 & H1 & H). apply kw_ok in H1. subst ts.
      destruct r1 as [|[| | | | |[| |] g| |] r1]; try discriminate H. apply mbind_done in H. destruct H as (l' & H1 & H2). inversion H2; subst.
      exists [Id "override"; Grp Paren g]. split; [reflexivity|]. constructor. apply (all_terminated_iff _ _ _ override_reads), H1.
    + apply pbind_done in H. destruct H as (s & r1 & H1 & H). apply value_option_done in H1. destruct H1 as (r2 & -> & H1). apply lit_str_ok in H1. subst r2. apply mbind_done in H. destruct H as (z & H1 & H2). inversion H2; subst.
      exists [Id "size"; equals; Lit s]. split; [reflexivity|]. constructor. apply size_iff, H1.
  - intros x a r H _. inversion H as [| | | | |l ts Hl|z s Hz]; subst; try reflexivity.
    + apply (all_terminated_iff _ _ _ override_reads) in Hl. unfold variant_option. cbn [app peek String.eqb Ascii.eqb Bool.eqb]. unfold pmap, pbind, group_option, pbind, kw. cbn [String.eqb Ascii.eqb Bool.eqb mbind fst snd]. rewrite Hl. reflexivity.
    + apply size_iff in Hz. unfold variant_option. cbn [app peek String.eqb Ascii.eqb Bool.eqb]. unfold value_option, pmap, pbind, kw, punct, equals. cbn [String.eqb Ascii.eqb Bool.eqb mbind fst snd lit_str N.eqb Pos.eqb]. rewrite Hz. reflexivity.
  - intros x a H. inversion H; discriminate.
Qed.
Lemma is_default_says : forall s, says_default s (is_default s).
Proof. intros s. unfold says_default, is_default. apply same_chars_iff. Qed.
Lemma says_default_is : forall s d, says_default s d -> is_default s = d.
Proof. intros s d H. apply eq_true_iff_eq. unfold is_default. rewrite same_chars_iff. symmetry. exact H. Qed.
Lemma entry_option_reads : reads entry_option entry_option_text.
Proof.
  split; [|split].
  - intros ts x r H. unfold entry_option in H. alt H; [keyed H|]. alt H; [valued H lit_str_ok; apply is_default_says|]. alt H; [valued H lit_str_ok; apply is_default_says|]. alt H; [keyed H|]. discriminate H.
  - intros x a r H _. inversion H as [|s d Hd|s d Hd|]; subst; try reflexivity; apply says_default_is in Hd; subst d; reflexivity.
  - intros x a H. inversion H; discriminate.
Qed.
Lemma entry_options_terminated : forall fuel ts l, (List.length ts < fuel)%nat -> (entry_options fuel ts = Done l <-> (ts = [] /\ l = []) \/ exists ts', ts = comma :: ts' /\ listed entry_option_text l ts').
Proof.
  pose proof entry_option_reads as (Hs & Hc & Hn). induction fuel as [|fuel IH]; intros ts l Hf; [lia|]. cbn [entry_options]. destruct ts as [|t ts].
  - split; [intros H; inversion H; auto|intros [[_ ->]|(ts' & H & _)]; [reflexivity|discriminate]].
  - split.
    + intros H. right. apply mbind_done in H. destruct H as ([u r] & H1 & H). apply punct_ok in H1. inversion H1; subst t ts. cbn [snd] in H. exists r. split; [reflexivity|].
      destruct r as [|t r]; [inversion H; exists false; constructor|]. remember (t :: r) as ts eqn:Et. clear Et t r. apply mbind_done in H. destruct H as ([x r] & H1' & H). apply mbind_done in H. destruct H as (l' & H2 & H). inversion H; subst l.
      cbn [fst snd] in *. destruct (Hs _ _ _ H1') as (a & -> & Ha). apply IH in H2; [|cbn [List.length] in Hf; rewrite app_length in Hf; lia].
      destruct H2 as [[-> ->]|(ts' & -> & [tr Hl])]; [rewrite app_nil_r; exists false; constructor; exact Ha|]. destruct l' as [|y l'].
      * inversion Hl; subst. exists true. constructor. exact Ha.
      * exists tr. constructor; [exact Ha|discriminate|exact Hl].
    + intros [[H _]|(ts' & H & [tr Hl])]; [discriminate|]. inversion H; subst t ts. unfold comma at 1. cbn [punct N.eqb Pos.eqb mbind snd].
      assert (K : forall x a r, entry_option_text x a -> ends r -> a ++ r <> [] /\ entry_option (a ++ r) = Done (x, r)).
      { intros x a r Ha Hr. split; [intros E; apply app_eq_nil in E; exact (Hn _ _ Ha (proj1 E))|exact (Hc x a r Ha Hr)]. }
      assert (Kl : forall x a r l', entry_option_text x a -> ends r -> entry_options fuel r = Done l' ->
                match a ++ r with [] => Done [] | t :: l0 => mbind (entry_option (t :: l0)) (fun q => mbind (entry_options fuel (snd q)) (fun l => Done (fst q :: l))) end = Done (x :: l')).
      { intros x a r l' Ha Hr Hl'. destruct (K x a r Ha Hr) as [K1 K2]. destruct (a ++ r) as [|t ts]; [contradiction|]. rewrite K2. cbn [mbind fst snd]. rewrite Hl'. reflexivity. }
      cbn [List.length] in Hf. inversion Hl as [|x a Ha|x a Ha|x a l' tr' b Ha Hne Hb]; subst.
      * reflexivity.
      * specialize (Kl x ts' [] [] Ha (or_introl eq_refl)). rewrite app_nil_r in Kl. apply Kl. apply IH; [cbn; lia|]. left. auto.
      * apply (Kl x a [comma] [] Ha (or_intror (ex_intro _ [] eq_refl))). apply IH; [rewrite app_length in Hf; cbn [List.length] in *; pose proof (Hn _ _ Ha); destruct a; [contradiction|cbn [List.length] in Hf; lia]|]. right. exists []. split; [reflexivity|exists false; constructor].
      * apply (Kl x a (comma :: b) l' Ha (or_intror (ex_intro _ b eq_refl))). apply IH; [rewrite app_length in Hf; cbn [List.length] in *; pose proof (Hn _ _ Ha); destruct a; [contradiction|cbn [List.length] in Hf; lia]|]. right. exists b. split; [reflexivity|exists tr; exact Hb].
Qed.
Lemma item_option_reads : reads item_option item_option_text.
Proof.
  split; [|split].
  - intros ts x r H. unfold item_option in H. destruct (peek "revision" ts) eqn:Ep.
    + apply peek_true in Ep. destruct Ep as (r0 & ->).
      assert (Hplain : pmap IRevision (value_option "revision" lit_int) (Id "revision" :: r0) = Done (x, r) -> exists a, Id "revision" :: r0 = a ++ r /\ item_option_text x a).
      { intros H'. apply pmap_done in H'. destruct H' as (u & H' & Hx). apply value_option_done in H'. destruct H' as (r1 & Hr & H'). apply lit_int_ok in H'. subst. exists [Id "revision"; equals; Int u]. split; [exact Hr|constructor]. }
      destruct r0 as [|[| | | | |[| |] g| |] r0]; try (apply Hplain, H; fail). clear Hplain. unfold entry_group in H. apply pbind_done in H. destruct H as (u & r1 & H1 & H). apply kw_ok in H1. inversion H1; subst r1.
      apply mbind_done in H. destruct H as ([n g'] & H2 & H). apply lit_int_ok in H2. subst g. apply mbind_done in H. destruct H as (l & H2 & H). inversion H; subst. cbn [fst snd] in *.
      apply entry_options_terminated in H2; [|lia]. destruct H2 as [[-> ->]|(ts' & -> & Hl)]; (eexists [_; _]; split; [reflexivity|]); constructor. exact Hl.
    + alt H; [valued H lit_bool_ok|]. alt H; [valued H lit_bool_ok|]. alt H; [valued H lit_bool_ok|]. alt H; [valued H lit_bool_ok|]. discriminate H.
  - intros x a r H _. inversion H as [n|n|n l ts Hl|b|b|b|b]; subst; try reflexivity; try (destruct b; reflexivity).
    unfold item_option. cbn [app peek String.eqb Ascii.eqb Bool.eqb]. unfold entry_group, pbind, kw. cbn [String.eqb Ascii.eqb Bool.eqb mbind fst snd lit_int].
    assert (E : entry_options (S (List.length (comma :: ts))) (comma :: ts) = Done l) by (apply entry_options_terminated; [lia|]; right; exists ts; auto). rewrite E. reflexivity.
  - intros x a H. inversion H; discriminate.
Qed.
End Options.

(** ** Attributes *)

Lemma segments_ok : forall ts p r, segments ts = Done (p, r) -> ts = p ++ r /\ path_text p.
Proof.
  fix IH 1. intros ts p r H. destruct ts as [|[s| | | | | | |] ts]; try discriminate H. destruct ts as [|t ts]; [inversion H; split; [reflexivity|constructor]|].
  destruct t; cbn [segments] in H; try (inversion H; subst; split; [reflexivity|constructor]; fail).
  apply mbind_done in H. destruct H as ([p' r'] & H1 & H2). apply IH in H1. destruct H1 as [-> Hp]. inversion H2; subst. split; [reflexivity|constructor; exact Hp].
Qed.
Definition no_sep (r : list tok) : Prop := match r with Sep :: _ => False | _ => True end.
Lemma segments_text : forall p, path_text p -> forall r, no_sep r -> segments (p ++ r) = Done (p, r).
Proof.
  intros p H. induction H as [s|s p Hp IH]; intros r Hr; cbn [app segments].
  - destruct r as [|[| | | | | | |] r]; try reflexivity. destruct Hr.
  - rewrite (IH r Hr). reflexivity.
Qed.
Definition good_path (p : list tok) : Prop := path_text p \/ exists q, p = Sep :: q /\ path_text q.
Lemma path_ok : forall ts p r, path ts = Done (p, r) -> ts = p ++ r /\ good_path p.
Proof.
  intros ts p r H. unfold path in H. assert (K : segments ts = Done (p, r) -> ts = p ++ r /\ good_path p) by (intros K; apply segments_ok in K; split; [tauto|left; tauto]).
  destruct ts as [|[| | | | | | |] ts]; try (exact (K H)). apply mbind_done in H. destruct H as ([p' r'] & H1 & H2). apply segments_ok in H1. destruct H1 as [-> Hp]. inversion H2; subst.
  split; [reflexivity|]. right. exists p'. auto.
Qed.
Lemma path_good : forall p, good_path p -> forall r, no_sep r -> path (p ++ r) = Done (p, r).
Proof.
  intros p [H|(q & -> & H)] r Hr; pose proof (segments_text _ H r Hr) as Hs; unfold path.
  - destruct H; cbn [app] in *; exact Hs.
  - cbn [app]. rewrite Hs. reflexivity.
Qed.
Lemma meta_iff : forall ts a, parse_meta ts = Done a <-> good_path (a_path a) /\ meta_text a ts.
Proof.
  intros ts a. split.
  - intros H. unfold parse_meta in H. apply mbind_done in H. destruct H as ([p r] & H1 & H). apply path_ok in H1. destruct H1 as [-> Hp]. cbn [fst snd] in H.
    destruct r as [|t r]; [inversion H; subst; split; [exact Hp|]; rewrite app_nil_r; constructor|]. destruct t as [| | |c| |d l| |]; try discriminate H.
    + destruct r as [|x r]; [discriminate H|]. destruct (c =? 61) eqn:Ec; [|discriminate H]. apply N.eqb_eq in Ec. subst c. inversion H; subst. split; [exact Hp|]. constructor.
    + destruct r; [|discriminate H]. inversion H; subst. split; [exact Hp|constructor].
  - intros [Hp H]. unfold parse_meta. destruct H as [p|p d l|p x l]; cbn [a_path] in Hp.
    + pose proof (path_good p Hp [] I) as E. rewrite app_nil_r in E. rewrite E. reflexivity.
    + rewrite (path_good p Hp [Grp d l] I). reflexivity.
    + rewrite (path_good p Hp (equals :: x :: l) I). reflexivity.
Qed.
Lemma attribute_tokens : forall a x, attribute_text a x -> x = attr_tokens a.
Proof. intros a x (_ & l & H & ->). unfold attr_tokens. destruct H; cbn [a_path a_meta meta_tokens]; rewrite ?app_nil_r; reflexivity. Qed.
Lemma outer_fuel : forall fuel ts l r, (List.length ts < fuel)%nat ->
  (outer_from fuel ts = Done (l, r) <-> peek_punct 35 r = false /\ exists xs, ts = List.concat xs ++ r /\ Forall2 attribute_text l xs).
Proof.
  induction fuel as [|fuel IH]; intros ts l r Hf; [lia|]. cbn [outer_from]. destruct (peek_punct 35 ts) eqn:Ep.
  - destruct ts as [|[| | |c| | | |] ts]; try discriminate Ep. cbn [peek_punct] in Ep. apply N.eqb_eq in Ep. subst c. fold pound. split.
    + intros H. destruct ts as [|[| | | | |[| |] g| |] ts]; try discriminate H. apply mbind_done in H. destruct H as (a & Ha & H). apply mbind_done in H. destruct H as ([l' r'] & H1 & H). inversion H; subst. cbn [fst snd] in *.
      apply IH in H1; [|cbn [List.length] in Hf; lia]. destruct H1 as (Hr & xs & -> & Hx). apply meta_iff in Ha. split; [exact Hr|]. exists ([pound; Grp Brack g] :: xs). split; [reflexivity|]. constructor; [|exact Hx].
      split; [exact (proj1 Ha)|]. exists g. split; [apply Ha|reflexivity].
    + intros (Hr & xs & Hx & Hl). destruct Hl as [|a x l xs Ha Hl]; [cbn in Hx; subst r; discriminate Hr|]. destruct Ha as (Hp & g & Hg & ->). cbn [List.concat app] in Hx. inversion Hx; subst ts.
      assert (Hm : parse_meta g = Done a) by (apply meta_iff; split; assumption). rewrite Hm. cbn [mbind].
      assert (Ho : outer_from fuel (List.concat xs ++ r) = Done (l, r)) by (apply IH; [cbn [List.length] in Hf; lia|]; split; [exact Hr|]; exists xs; auto). rewrite Ho. reflexivity.
  - split.
    + intros H. inversion H; subst. split; [exact Ep|]. exists []. split; [reflexivity|constructor].
    + intros (Hr & xs & -> & Hl). destruct Hl as [|a x l xs Ha Hl]; [reflexivity|]. destruct Ha as (Hp & g & Hg & ->). discriminate Ep.
Qed.
Lemma outer_iff : forall ts l r, parse_outer ts = Done (l, r) <-> peek_punct 35 r = false /\ exists xs, ts = List.concat xs ++ r /\ Forall2 attribute_text l xs.
Proof. intros ts l r. apply outer_fuel. lia. Qed.
Lemma is_revision_iff : forall a, is_revision a = true <-> a_path a = [Id "revision"].
Proof.
  intros a. unfold is_revision. destruct (a_path a) as [|[s| | | | | | |] [|t p]]; try (split; [discriminate|discriminate]).
  - split; [intros H; apply String.eqb_eq in H; congruence|intros H; inversion H; reflexivity].
Qed.
Section Attributes.
Context {A : Type}.
Variable p : par A.
Variable R : A -> list tok -> Prop.
Hypothesis HR : reads p R.
Lemma filtered_sound : forall l xs, Forall2 attribute_text l xs -> forall o oth, filtered p l = Done (o, oth) -> attributes_text true R o oth (List.concat xs).
Proof.
  intros l xs H. induction H as [|a x l xs Ha Hl IH]; intros o oth Hf; [inversion Hf; constructor|]. cbn [filtered] in Hf. cbn [List.concat]. destruct (is_revision a) eqn:Er.
  - apply is_revision_iff in Er. pose proof (attribute_tokens a x Ha) as Hx. destruct (a_meta a) as [|d g|] eqn:Em; try discriminate Hf. apply mbind_done in Hf. destruct Hf as (o1 & H1 & Hf). apply mbind_done in Hf. destruct Hf as ([o2 oth2] & H2 & Hf). inversion Hf; subst. cbn [fst snd] in *.
    unfold attr_tokens. rewrite Er, Em. cbn [meta_tokens app]. constructor; [reflexivity|apply (all_terminated_iff A p R HR), H1|exact (IH _ _ H2)].
  - apply mbind_done in Hf. destruct Hf as ([o2 oth2] & H2 & Hf). inversion Hf; subst. cbn [fst snd] in *. constructor; [|exact Ha|exact (IH _ _ H2)]. intros E. apply is_revision_iff in E. congruence.
Qed.
Lemma filtered_complete : forall o oth ts, attributes_text true R o oth ts -> exists l xs, ts = List.concat xs /\ Forall2 attribute_text l xs /\ filtered p l = Done (o, oth).
Proof.
  intros o oth ts H. induction H as [|a x opts others ts Hn Ha Hat IH|o1 g d opts others ts _ Hl Hat IH].
  - exists [], []. repeat split. constructor.
  - destruct IH as (l & xs & -> & H1 & H2). exists (a :: l), (x :: xs). split; [reflexivity|]. split; [constructor; assumption|]. cbn [filtered]. destruct (is_revision a) eqn:Er; [apply is_revision_iff in Er; contradiction|]. rewrite H2. reflexivity.
  - destruct IH as (l & xs & -> & H1 & H2). exists (mkAttr [Id "revision"] (MList d g) :: l), ([pound; Grp Brack [Id "revision"; Grp d g]] :: xs). split; [reflexivity|]. split.
    + constructor; [|exact H1]. split; [left; constructor|]. exists [Id "revision"; Grp d g]. split; [|reflexivity]. apply (mt_list [Id "revision"]).
    + cbn [filtered]. change (is_revision (mkAttr [Id "revision"] (MList d g))) with true. cbn [a_meta]. apply (all_terminated_iff A p R HR) in Hl. rewrite Hl. cbn [mbind]. rewrite H2. reflexivity.
Qed.
Lemma attributes_sound : forall ts o oth r, filtered_attributes p ts = Done ((o, oth), r) -> exists a, ts = a ++ r /\ attributes_text true R o oth a /\ peek_punct 35 r = false.
Proof.
  intros ts o oth r H. unfold filtered_attributes in H. apply mbind_done in H. destruct H as ([l r'] & H1 & H). apply mbind_done in H. destruct H as (q & H2 & H). inversion H; subst. cbn [fst snd] in *.
  apply outer_iff in H1. destruct H1 as (Hr & xs & -> & Hx). exists (List.concat xs). split; [reflexivity|]. split; [exact (filtered_sound l xs Hx o oth H2)|exact Hr].
Qed.
Lemma attributes_complete : forall a o oth r, attributes_text true R o oth a -> peek_punct 35 r = false -> filtered_attributes p (a ++ r) = Done ((o, oth), r).
Proof.
  intros a o oth r H Hr. destruct (filtered_complete _ _ _ H) as (l & xs & -> & H1 & H2). unfold filtered_attributes.
  assert (E : parse_outer (List.concat xs ++ r) = Done (l, r)) by (apply outer_iff; split; [exact Hr|]; exists xs; auto). rewrite E. cbn [mbind fst snd]. rewrite H2. reflexivity.
Qed.
End Attributes.

(** ** Visibility, names *)

Lemma visibility_ok : forall ts v r, visibility ts = Done (v, r) -> ts = v ++ r /\ visibility_text v.
Proof.
  intros ts v r H. unfold visibility in H. destruct (peek "pub" ts) eqn:Ep; [|inversion H; split; [reflexivity|constructor]]. apply peek_true in Ep. destruct Ep as (q & ->).
  destruct q as [|[| | | | |[| |] g| |] q]; try (inversion H; split; [reflexivity|constructor]; fail).
  destruct (restriction g) eqn:Eg; inversion H; subst; split; try reflexivity; [|constructor].
  unfold restriction in Eg. destruct g as [|[s| | | | | | |] g]; try discriminate Eg. destruct g as [|x g].
  - apply orb_prop in Eg. destruct Eg as [Eg|Eg]; [apply orb_prop in Eg; destruct Eg as [Eg|Eg]|]; apply String.eqb_eq in Eg; subst s; constructor.
  - apply String.eqb_eq in Eg. subst s. constructor.
Qed.
Definition not_vis (r : list tok) : Prop := peek "pub" r = false /\ match r with Grp Paren _ :: _ => False | _ => True end.
Lemma visibility_text_ok : forall v r, visibility_text v -> not_vis r -> visibility (v ++ r) = Done (v, r).
Proof.
  intros v r H [H1 H2]. destruct H as [| | | | |x l]; unfold visibility; cbn [app]; try reflexivity.
  - rewrite H1. reflexivity.
  - cbn [peek String.eqb Ascii.eqb Bool.eqb]. destruct r as [|[| | | | |[| |] g| |] r]; try reflexivity. destruct H2.
Qed.
Definition reserved : list string := ("_" :: strict_2015 ++ strict_2018 ++ for_future)%list%string.
Lemma keywords_reserved : forall s, In s keywords <-> In s reserved.
Proof.
  intros s. split; intros H.
  - assert (Q : forallb (fun k => existsb (String.eqb k) reserved) keywords = true) by reflexivity. apply (proj1 (forallb_forall _ _)) with (x := s) in Q; [|exact H].
    apply existsb_exists in Q. destruct Q as (k & Hk & E). apply String.eqb_eq in E. subst k. exact Hk.
  - assert (Q : forallb (fun k => existsb (String.eqb k) keywords) reserved = true) by reflexivity. apply (proj1 (forallb_forall _ _)) with (x := s) in Q; [|exact H].
    apply existsb_exists in Q. destruct Q as (k & Hk & E). apply String.eqb_eq in E. subst k. exact Hk.
Qed.
Lemma name_iff : forall s, name s <-> ~ In s keywords.
Proof.
  intros s. rewrite keywords_reserved. unfold name, reserved. cbn [In]. rewrite !in_app_iff. split; [intros (H1 & H2 & H3 & H4) H; intuition congruence|]. intros H. repeat split; intros K; apply H; auto.
Qed.
Lemma keyword_iff : forall s, is_keyword s = false <-> name s.
Proof.
  intros s. rewrite name_iff. unfold is_keyword. rewrite <- not_true_iff_false, existsb_exists. split; intros H K; apply H.
  - exists s. split; [exact K|apply String.eqb_refl].
  - destruct K as (x & Hx & E). apply String.eqb_eq in E. subst x. exact Hx.
Qed.
Lemma ident_ok : forall ts s r, ident ts = Done (s, r) -> ts = Id s :: r /\ name s.
Proof. intros ts s r H. destruct ts as [|[x| | | | | | |] ts]; try discriminate H. unfold ident in H. destruct (is_keyword x) eqn:E; [discriminate|]. apply keyword_iff in E. inversion H; subst. auto. Qed.
Lemma ident_name : forall s r, name s -> ident (Id s :: r) = Done (s, r).
Proof. intros s r H. unfold ident. apply keyword_iff in H. rewrite H. reflexivity. Qed.
Lemma name_not : forall s k, name s -> In k keywords -> String.eqb s k = false.
Proof. intros s k H Hk. apply String.eqb_neq. intros ->. exact (proj1 (name_iff k) H Hk). Qed.
Lemma type_ok : forall ts t r, type_ ts = Done (t, r) -> ts = Type_ (fst t) (snd t) :: r.
Proof. intros ts t r H. destruct ts as [|[| | | | | |x d|] ts]; try discriminate H. cbn in H. inversion H. reflexivity. Qed.
Lemma pub_in : In "pub"%string keywords. Proof. unfold keywords. repeat (first [left; reflexivity|right]). Qed.
Lemma struct_in : In "struct"%string keywords. Proof. unfold keywords. repeat (first [left; reflexivity|right]). Qed.
Lemma vis_not_pound : forall v r, visibility_text v -> peek_punct 35 r = false -> peek_punct 35 (v ++ r) = false.
Proof. intros v r H Hr. destruct H; [exact Hr|reflexivity..]. Qed.

Section Items.
Variable sc : scope.

Lemma field_named_reads : reads (field_named sc) (named_text sc true).
Proof.
  split; [|split].
  - intros ts x r H. unfold field_named in H. apply pbind_done in H. destruct H as ([o oth] & r1 & H1 & H). apply (attributes_sound _ _ (field_option_reads sc)) in H1. destruct H1 as (a & -> & Ha & _).
    apply pbind_done in H. destruct H as (v & r2 & H2 & H). apply visibility_ok in H2. destruct H2 as [-> Hv]. apply pbind_done in H. destruct H as (n & r3 & H3 & H). apply ident_ok in H3. destruct H3 as [-> Hn].
    apply pbind_done in H. destruct H as (u & r4 & H4 & H). apply punct_ok in H4. subst r3. apply pbind_done in H. destruct H as ([t d] & r5 & H5 & H). apply type_ok in H5. subst r4. inversion H; subst. cbn [fst snd].
    exists (a ++ v ++ [Id n; colon; Type_ t d]). split; [rewrite <- !app_assoc; reflexivity|]. split; [constructor; assumption|discriminate].
  - intros x a0 r [H Hx] _. destruct H as [o oth v n t d a Ha Hv Hn|]; [|cbn in Hx; congruence]. rewrite <- !app_assoc. cbn [app]. unfold field_named, pbind at 1.
    rewrite (attributes_complete _ _ (field_option_reads sc) a o oth (v ++ Id n :: colon :: Type_ t d :: r) Ha); [|apply (vis_not_pound _ _ Hv); reflexivity]. cbn [mbind fst snd].
    unfold pbind at 1. rewrite (visibility_text_ok v _ Hv); [|split; [exact (name_not n _ Hn pub_in)|exact I]]. cbn [mbind fst snd]. unfold pbind at 1. rewrite (ident_name n _ Hn). reflexivity.
  - intros x a [H _] E. destruct H as [? ? v ? ? ? a|? ? v ? ? a]; destruct a; try discriminate E; destruct v; discriminate E.
Qed.
Lemma field_unnamed_reads : reads (field_unnamed sc) (unnamed_text sc true).
Proof.
  split; [|split].
  - intros ts x r H. unfold field_unnamed in H. apply pbind_done in H. destruct H as ([o oth] & r1 & H1 & H). apply (attributes_sound _ _ (field_option_reads sc)) in H1. destruct H1 as (a & -> & Ha & _).
    apply pbind_done in H. destruct H as (v & r2 & H2 & H). apply visibility_ok in H2. destruct H2 as [-> Hv].
    apply pbind_done in H. destruct H as ([t d] & r5 & H5 & H). apply type_ok in H5. subst r2. inversion H; subst. cbn [fst snd].
    exists (a ++ v ++ [Type_ t d]). split; [rewrite <- !app_assoc; reflexivity|]. split; [constructor; assumption|reflexivity].
  - intros x a0 r [H Hx] _. destruct H as [|o oth v t d a Ha Hv]; [discriminate Hx|]. rewrite <- !app_assoc. cbn [app]. unfold field_unnamed, pbind at 1.
    rewrite (attributes_complete _ _ (field_option_reads sc) a o oth (v ++ Type_ t d :: r) Ha); [|apply (vis_not_pound _ _ Hv); reflexivity]. cbn [mbind fst snd].
    unfold pbind at 1. rewrite (visibility_text_ok v _ Hv); [|split; [reflexivity|exact I]]. reflexivity.
  - intros x a [H _] E. destruct H as [? ? v ? ? ? a|? ? v ? ? a]; destruct a; try discriminate E; destruct v; discriminate E.
Qed.
Lemma variant_fields_ok : forall ts fs r, variant_fields sc ts = Done (fs, r) -> exists b, ts = b ++ r /\ fields_text sc true fs b.
Proof.
  intros ts fs r H. unfold variant_fields in H. destruct ts as [|[| | | | |[| |] g| |] ts]; try (inversion H; subst; exists []; split; [reflexivity|constructor]; fail).
  - apply mbind_done in H. destruct H as ([l tr] & H1 & H). inversion H; subst. exists [Grp Paren g]. split; [reflexivity|]. constructor. apply (terminated_iff _ _ _ field_unnamed_reads), H1.
  - apply mbind_done in H. destruct H as ([l tr] & H1 & H). inversion H; subst. exists [Grp Brace g]. split; [reflexivity|]. constructor. apply (terminated_iff _ _ _ field_named_reads), H1.
Qed.
Lemma variant_fields_text : forall fs b r, fields_text sc true fs b -> ends r -> variant_fields sc (b ++ r) = Done (fs, r).
Proof.
  intros fs b r H Hr. destruct H as [l tr ts Hl|l tr ts Hl|]; unfold variant_fields; cbn [app].
  - apply (terminated_iff _ _ _ field_named_reads) in Hl. rewrite Hl. reflexivity.
  - apply (terminated_iff _ _ _ field_unnamed_reads) in Hl. rewrite Hl. reflexivity.
  - destruct Hr as [->|(r' & ->)]; reflexivity.
Qed.
Lemma variant_reads : reads (parse_svariant sc) (variant_text sc true).
Proof.
  split; [|split].
  - intros ts x r H. unfold parse_svariant in H. apply pbind_done in H. destruct H as ([o oth] & r1 & H1 & H). apply (attributes_sound _ _ (variant_option_reads sc)) in H1. destruct H1 as (a & -> & Ha & _).
    apply pbind_done in H. destruct H as (n & r2 & H2 & H). apply ident_ok in H2. destruct H2 as [-> Hn]. apply pbind_done in H. destruct H as (fs & r3 & H3 & H). apply variant_fields_ok in H3. destruct H3 as (b & -> & Hb).
    destruct (peek_punct 58 r3); [apply mbind_done in H; destruct H as (? & _ & H); discriminate H|]. inversion H; subst. cbn [fst snd].
    exists (a ++ Id n :: b). split; [rewrite <- !app_assoc; reflexivity|]. constructor; assumption.
  - intros x a0 r H Hr. destruct H as [o oth n fs a b Ha Hn Hb]. rewrite <- app_assoc. cbn [app]. unfold parse_svariant, pbind at 1.
    rewrite (attributes_complete _ _ (variant_option_reads sc) a o oth (Id n :: b ++ r) Ha eq_refl). cbn [mbind fst snd]. unfold pbind at 1. rewrite (ident_name n _ Hn). cbn [mbind fst snd].
    unfold pbind. rewrite (variant_fields_text fs b r Hb Hr). cbn [mbind fst snd]. destruct Hr as [->|(r' & ->)]; reflexivity.
  - intros x a H E. destruct H as [? ? ? ? a]. destruct a; discriminate E.
Qed.
Lemma struct_fields_ok : forall ts fs r, struct_fields sc ts = Done (fs, r) ->
  exists b, ts = (b ++ match fs with Named _ _ => [] | _ => [semi] end) ++ r /\ fields_text sc true fs b.
Proof.
  intros ts fs r H. unfold struct_fields in H.
  assert (K : mbind (punct 59 ts) (fun r => Done (NoFields, snd r)) = Done (fs, r) -> exists b, ts = (b ++ match fs with Named _ _ => [] | _ => [semi] end) ++ r /\ fields_text sc true fs b).
  { intros K. apply mbind_done in K. destruct K as ([u r'] & K1 & K). apply punct_ok in K1. inversion K; subst. exists []. split; [reflexivity|constructor]. }
  destruct ts as [|[| | | | |[| |] g| |] ts]; try (exact (K H)); clear K.
  - apply mbind_done in H. destruct H as ([l tr] & H1 & H). apply mbind_done in H. destruct H as ([u r'] & H2 & H). apply punct_ok in H2. inversion H; subst. exists [Grp Paren g]. split; [reflexivity|]. constructor. apply (terminated_iff _ _ _ field_unnamed_reads), H1.
  - apply mbind_done in H. destruct H as ([l tr] & H1 & H). inversion H; subst. exists [Grp Brace g]. split; [reflexivity|]. constructor. apply (terminated_iff _ _ _ field_named_reads), H1.
Qed.
Lemma struct_fields_text : forall fs b r, fields_text sc true fs b -> struct_fields sc ((b ++ match fs with Named _ _ => [] | _ => [semi] end) ++ r) = Done (fs, r).
Proof.
  intros fs b r H. destruct H as [l tr ts Hl|l tr ts Hl|]; unfold struct_fields; cbn [app].
  - apply (terminated_iff _ _ _ field_named_reads) in Hl. rewrite Hl. reflexivity.
  - apply (terminated_iff _ _ _ field_unnamed_reads) in Hl. rewrite Hl. reflexivity.
  - reflexivity.
Qed.
Lemma generics_ok : forall ts g r, generics ts = Done (g, r) -> ts = g ++ r /\ generics_text g.
Proof. intros ts g r H. unfold generics in H. destruct ts as [|[| | | | | | |] ts]; inversion H; subst; split; try reflexivity; constructor. Qed.
Lemma generics_text_ok : forall g r, generics_text g -> match r with Gen _ :: _ => False | _ => True end -> generics (g ++ r) = Done (g, r).
Proof. intros g r H Hr. destruct H; [|reflexivity]. destruct r as [|[| | | | | | |] r]; try reflexivity. destruct Hr. Qed.
Lemma not_gen_fields : forall fs b r, fields_text sc true fs b -> match (b ++ match fs with Named _ _ => [] | _ => [semi] end) ++ r with Gen _ :: _ => False | _ => True end.
Proof. intros fs b r H. destruct H; exact I. Qed.

Lemma item_iff : forall ts i, parse2 sc ts = Done i <-> item_text sc true i ts.
Proof.
  intros ts i. split.
  - intros H. unfold parse2 in H. apply mbind_done in H. destruct H as ([i' r] & H & Hr). cbn [fst snd] in Hr. destruct r; [|discriminate Hr]. inversion Hr; subst i'. clear Hr.
    unfold parse_sitem in H. apply pbind_done in H. destruct H as ([o oth] & r1 & H1 & H). apply (attributes_sound _ _ item_option_reads) in H1. destruct H1 as (a & -> & Ha & _).
    apply pbind_done in H. destruct H as (v & r2 & H2 & H). apply visibility_ok in H2. destruct H2 as [-> Hv]. destruct (peek "enum" r2).
    + apply pbind_done in H. destruct H as (u & r3 & H3 & H). apply kw_ok in H3. subst r2. apply pbind_done in H. destruct H as (n & r4 & H4 & H). apply ident_ok in H4. destruct H4 as [-> Hn].
      apply pbind_done in H. destruct H as (g & r5 & H5 & H). apply generics_ok in H5. destruct H5 as [-> Hg]. apply pbind_done in H. destruct H as (k & r6 & H6 & H). inversion H; subst. cbn [fst snd].
      unfold enum_body in H6. destruct r5 as [|[| | | | |[| |] b| |] r5]; try discriminate H6. apply mbind_done in H6. destruct H6 as ([l tr] & H6 & H7). inversion H7; subst. constructor; try assumption. apply (terminated_iff _ _ _ variant_reads), H6.
    + destruct (peek "struct" r2); [|discriminate H].
      apply pbind_done in H. destruct H as (u & r3 & H3 & H). apply kw_ok in H3. subst r2. apply pbind_done in H. destruct H as (n & r4 & H4 & H). apply ident_ok in H4. destruct H4 as [-> Hn].
      apply pbind_done in H. destruct H as (g & r5 & H5 & H). apply generics_ok in H5. destruct H5 as [-> Hg]. apply pbind_done in H. destruct H as (fs & r6 & H6 & H). inversion H; subst. cbn [fst snd].
      apply struct_fields_ok in H6. destruct H6 as (b & -> & Hb). rewrite app_nil_r. constructor; assumption.
  - intros H. unfold parse2. destruct H as [o oth v n g fs a b Ha Hv Hn Hg Hb|o oth v n g l tr a ts Ha Hv Hn Hg Hl]; unfold parse_sitem, pbind at 1.
    + rewrite (attributes_complete _ _ item_option_reads a o oth _ Ha); [|apply (vis_not_pound v _ Hv); reflexivity]. cbn [mbind fst snd].
      unfold pbind at 1. rewrite (visibility_text_ok v _ Hv); [|split; [reflexivity|exact I]]. cbn [mbind fst snd peek String.eqb Ascii.eqb Bool.eqb].
      unfold pbind at 1. cbn [kw String.eqb Ascii.eqb Bool.eqb mbind fst snd]. unfold pbind at 1. rewrite (ident_name n _ Hn). cbn [mbind fst snd].
      pose proof (struct_fields_text fs b [] Hb) as Hs. pose proof (not_gen_fields fs b [] Hb) as Hng. rewrite app_nil_r in Hs, Hng. unfold pbind at 1. rewrite (generics_text_ok g _ Hg Hng). cbn [mbind fst snd]. unfold pbind. rewrite Hs. reflexivity.
    + rewrite (attributes_complete _ _ item_option_reads a o oth _ Ha); [|apply (vis_not_pound v _ Hv); reflexivity]. cbn [mbind fst snd].
      unfold pbind at 1. rewrite (visibility_text_ok v _ Hv); [|split; [reflexivity|exact I]]. cbn [mbind fst snd peek String.eqb Ascii.eqb Bool.eqb].
      unfold pbind at 1. cbn [kw String.eqb Ascii.eqb Bool.eqb mbind fst snd]. unfold pbind at 1. rewrite (ident_name n _ Hn). cbn [mbind fst snd].
      unfold pbind at 1. rewrite (generics_text_ok g [Grp Brace ts] Hg I). cbn [mbind fst snd]. unfold pbind. cbn [enum_body]. apply (terminated_iff _ _ _ variant_reads) in Hl. rewrite Hl. reflexivity.
Qed.
End Items.

(** ** The emitted type *)

Lemma attributes_bare : forall A (R : A -> list tok -> Prop) rv o oth ts, attributes_text rv R o oth ts -> attributes_text false R [] oth (attrs_tokens oth).
Proof.
  intros A R rv o oth ts H. induction H as [|a x opts others ts Hn Ha Hat IH|]; [constructor| |assumption]. cbn [attrs_tokens flat_map]. pose proof (attribute_tokens a x Ha) as E. rewrite <- E. constructor; assumption.
Qed.
Lemma attributes_plain : forall A (R : A -> list tok -> Prop) o oth ts, attributes_text false R o oth ts -> o = [] /\ ts = attrs_tokens oth.
Proof.
  intros A R o oth ts H. induction H as [|a x opts others ts Hn Ha Hat [I1 I2]|]; [split; reflexivity| |discriminate]. split; [exact I1|]. cbn [attrs_tokens flat_map]. rewrite (attribute_tokens a x Ha), I2. reflexivity.
Qed.
Lemma separated_nil : forall A (R : A -> list tok -> Prop) tr ts, separated R [] tr ts -> ts = [].
Proof. intros A R tr ts H. inversion H. reflexivity. Qed.
Lemma pairs_written : forall A live text (R : A -> list tok -> Prop) (L : A -> Prop) (same : A -> A -> Prop) tr l, (forall x, In x l -> (live x = true <-> L x)) ->
  (forall x, In x l -> exists y, R y (text x) /\ same x y) -> exists l' tr', separated R l' tr' (pairs live text l tr) /\ kept L same l l'.
Proof.
  intros A live text R L same tr l. induction l as [|x l IH]; intros H1 H2; [exists [], false; split; constructor|]. cbn [pairs].
  destruct IH as (l' & tr' & IH & IHk); [intros y Hy; apply H1; right; exact Hy|intros y Hy; apply H2; right; exact Hy|]. specialize (H1 x (or_introl eq_refl)). specialize (H2 x (or_introl eq_refl)). destruct (live x) eqn:El.
  - destruct H2 as (y & Hy & Hs). assert (Hx : L x) by (apply H1; reflexivity). destruct l as [|z l].
    + cbn [pairs] in *. rewrite app_nil_r. inversion IHk; subst. exists [y], tr. split; [|constructor; [exact Hx|exact Hs|constructor]]. destruct tr; [apply sep_last_comma|rewrite app_nil_r; apply sep_last]; exact Hy.
    + rewrite <- app_assoc. cbn [app]. destruct l' as [|w k].
      * apply separated_nil in IH. rewrite IH. exists [y], true. split; [apply sep_last_comma, Hy|]. apply kept_yes; assumption.
      * exists (y :: w :: k), tr'. split; [apply sep_more; [exact Hy|discriminate|exact IH]|]. apply kept_yes; assumption.
  - exists l', tr'. split; [exact IH|]. apply kept_no; [|exact IHk]. rewrite <- H1. discriminate.
Qed.
Lemma lives_alive : forall s e r, lives r s e = exists_at (start_of s) e r.
Proof. reflexivity. Qed.
Lemma field_exists_iff : forall r f x, parse_field (mfield_of f) = Done x -> (field_exists r f = true <-> opts_live r f) /\ field_exists r f = falive r (fst x) /\ f_ty (fst x) = sf_ty f.
Proof.
  intros r f [y c] H. pose proof (parse_field_made _ _ _ H) as (M & _). destruct M as (Mt & Ml & _). unfold field_exists. unfold parse_field in H. apply mbind_done in H. destruct H as (o & Ho & H). cbn [mf_opts mfield_of] in Ho. rewrite Ho.
  assert (E : lives r (fo_start o) (fo_end o) = falive r y) by (inversion H; subst; reflexivity). cbn [fst]. rewrite E. split; [exact (Ml r)|]. split; [reflexivity|exact Mt].
Qed.
Lemma variant_exists_iff : forall r v x, parse_variant (mvariant_of v) = Done x -> (variant_exists r v = true <-> vopts_live r v) /\ variant_exists r v = valive r (fst x).
Proof.
  intros r v [y c] H. pose proof (parse_variant_made _ _ _ H) as (M & _). destruct M as (_ & Ml & _). unfold variant_exists. unfold parse_variant in H. apply mbind_done in H. destruct H as (o & Ho & H). cbn [mv_opts mvariant_of] in Ho. rewrite Ho.
  apply mbind_done in H. destruct H as (l & _ & H).
  assert (E : lives r (vo_start o) (vo_end o) = valive r y) by (inversion H; subst; reflexivity). cbn [fst]. rewrite E. split; [exact (Ml r)|reflexivity].
Qed.
Definition bared (f : sfield) : sfield := mkSfield [] (sf_other f) (sf_vis f) (sf_name f) (sf_ty f) (sf_default f).
Lemma bare_bared : forall f, bare_field f (bared f). Proof. intros f. repeat split. Qed.
Section Emitted.
Variable sc : scope.
Lemma emit_field_text : forall rv f ts, field_text sc rv f ts -> field_text sc false (bared f) (emit_field f).
Proof. intros rv f ts H. destruct H as [o oth v n t d a Ha Hv Hn|o oth v t d a Ha Hv]; unfold bared, emit_field; cbn [sf_other sf_vis sf_name sf_ty sf_default]; constructor; try assumption; exact (attributes_bare _ _ _ _ _ _ Ha). Qed.
Lemma separated_in : forall A (R : A -> list tok -> Prop) l tr ts, separated R l tr ts -> forall x, In x l -> exists a, R x a.
Proof. intros A R l tr ts H. induction H as [|y a Hy|y a Hy|y a l tr b Hy _ H IH]; intros x Hx; [destruct Hx| | |]; destruct Hx as [<-|Hx]; try (exists a; exact Hy); try (destruct Hx; fail). exact (IH x Hx). Qed.
Lemma mmap_in : forall A B (f : A -> mres B) l r, mmap f l = Done r -> forall x, In x l -> exists y, f x = Done y.
Proof. intros A B f l r H. apply mmap_done in H. induction H as [|x y l r Hx H IH]; intros z Hz; [destruct Hz|]. destruct Hz as [<-|Hz]; [exists y; exact Hx|exact (IH z Hz)]. Qed.
Lemma emit_fields_text : forall rv r fs ts x, fields_text sc rv fs ts -> mmap parse_field (map mfield_of (fields_in fs)) = Done x ->
  exists gs, fields_text sc false gs (emit_fields r fs) /\ bare_fields r fs gs.
Proof.
  intros rv r fs ts x H Hx.
  assert (K : forall f, In f (fields_in fs) -> (field_exists r f = true <-> opts_live r f)).
  { intros f Hf. destruct (mmap_in _ _ _ _ _ Hx (mfield_of f)) as (y & Hy); [apply in_map, Hf|]. exact (proj1 (field_exists_iff r f y Hy)). }
  destruct H as [l tr ts Hl|l tr ts Hl|]; cbn [fields_in] in *.
  - destruct (pairs_written _ (field_exists r) emit_field (named_text sc false) (opts_live r) bare_field tr l K) as (l' & tr' & Hp & Hk).
    { intros f Hf. destruct (separated_in _ _ _ _ _ Hl f Hf) as (a & Ha & Hn). exists (bared f). split; [split; [exact (emit_field_text _ _ _ Ha)|exact Hn]|apply bare_bared]. }
    exists (Named l' tr'). split; [constructor; exact Hp|exact Hk].
  - destruct (pairs_written _ (field_exists r) emit_field (unnamed_text sc false) (opts_live r) bare_field tr l K) as (l' & tr' & Hp & Hk).
    { intros f Hf. destruct (separated_in _ _ _ _ _ Hl f Hf) as (a & Ha & Hn). exists (bared f). split; [split; [exact (emit_field_text _ _ _ Ha)|exact Hn]|apply bare_bared]. }
    exists (Unnamed l' tr'). split; [constructor; exact Hp|exact Hk].
  - exists NoFields. split; [constructor|exact I].
Qed.
Lemma emit_variant_text : forall rv r v ts x, variant_text sc rv v ts -> parse_variant (mvariant_of v) = Done x ->
  exists w, variant_text sc false w (emit_variant r v) /\ bare_variant r v w.
Proof.
  intros rv r v ts x H Hx. unfold parse_variant in Hx. apply mbind_done in Hx. destruct Hx as (o & _ & Hx). apply mbind_done in Hx. destruct Hx as (l & Hl & _). destruct H as [opts others n fs a b Ha Hn Hb].
  destruct (emit_fields_text rv r fs b l Hb Hl) as (gs & Hg & Hk). exists (mkSvariant [] others n gs). split; [|repeat split; exact Hk]. unfold emit_variant. cbn [sv_other sv_name sv_fields]. constructor; [exact (attributes_bare _ _ _ _ _ _ Ha)|exact Hn|exact Hg].
Qed.
Lemma shape_struct : forall r fs gs, bare_fields r fs gs -> (match fs with Named _ _ => [] | _ => [semi] end) = (match gs with Named _ _ => [] | _ => [semi] end).
Proof. intros r [| |] [| |] H; try destruct H; reflexivity. Qed.
Lemma reexport_text : forall rv r i ts x, item_text sc rv i ts -> parse_kind (mkind_of (si_kind i)) = Done x ->
  exists j, item_text sc false j (reexport r i) /\ bare_item r i j.
Proof.
  intros rv r i ts x H Hx. destruct H as [o oth v n g fs a b Ha Hv Hn Hg Hb|o oth v n g l tr a ts Ha Hv Hn Hg Hl]; cbn [si_kind mkind_of parse_kind] in Hx; apply mbind_done in Hx; destruct Hx as (y & Hy & _); unfold reexport; cbn [si_other si_vis si_kind si_name si_gen].
  - destruct (emit_fields_text rv r fs b y Hb Hy) as (gs & Hgs & Hk). exists (mkSitem [] oth v n g (SkStruct gs)). split; [|repeat split; exact Hk]. rewrite (shape_struct r fs gs Hk). constructor; try assumption. exact (attributes_bare _ _ _ _ _ _ Ha).
  - destruct (pairs_written _ (variant_exists r) (emit_variant r) (variant_text sc false) (vopts_live r) (bare_variant r) tr l) as (l' & tr' & Hp & Hk).
    + intros w Hw. destruct (mmap_in _ _ _ _ _ Hy (mvariant_of w)) as (z & Hz); [apply in_map, Hw|]. exact (proj1 (variant_exists_iff r w z Hz)).
    + intros w Hw. destruct (mmap_in _ _ _ _ _ Hy (mvariant_of w)) as (z & Hz); [apply in_map, Hw|]. destruct (separated_in _ _ _ _ _ Hl w Hw) as (c & Hc). exact (emit_variant_text rv r w c z Hc Hz).
    + exists (mkSitem [] oth v n g (SkEnum l' tr')). split; [|repeat split; exact Hk]. constructor; try assumption. exact (attributes_bare _ _ _ _ _ _ Ha).
Qed.

(** A declaration without revision attributes is emitted as it is. *)
Lemma plain_field : forall f ts, field_text sc false f ts -> ts = emit_field f /\ forall r, field_exists r f = true.
Proof.
  intros f ts H. destruct H as [o oth v n t d a Ha Hv Hn|o oth v t d a Ha Hv]; destruct (attributes_plain _ _ _ _ _ Ha) as [-> ->]; (split; [reflexivity|]); intros r; destruct r; reflexivity.
Qed.
Lemma plain_pairs : forall A (R : A -> list tok -> Prop) live text l tr ts, separated R l tr ts -> (forall x a, R x a -> a = text x /\ live x = true) -> ts = pairs live text l tr.
Proof.
  intros A R live text l tr ts H HR. induction H as [|x a Hx|x a Hx|x a l tr b Hx Hl H IH]; cbn [pairs]; [reflexivity| | |]; destruct (HR _ _ Hx) as [-> ->]; rewrite ?app_nil_r; try reflexivity.
  destruct l as [|y l]; [congruence|]. rewrite <- IH, <- app_assoc. reflexivity.
Qed.
Lemma plain_fields : forall fs ts, fields_text sc false fs ts -> forall r, ts = emit_fields r fs.
Proof.
  intros fs ts H r. destruct H as [l tr ts Hl|l tr ts Hl|]; cbn [emit_fields]; [| |reflexivity]; rewrite (plain_pairs _ _ (field_exists r) emit_field _ _ _ Hl); try reflexivity; intros x a [Hx _]; destruct (plain_field _ _ Hx) as [E1 E2]; split; [exact E1|apply E2|exact E1|apply E2].
Qed.
Lemma plain_variant : forall v ts, variant_text sc false v ts -> forall r, ts = emit_variant r v /\ variant_exists r v = true.
Proof.
  intros v ts H r. destruct H as [o oth n fs a b Ha Hn Hb]. destruct (attributes_plain _ _ _ _ _ Ha) as [-> ->]. split; [unfold emit_variant; cbn [sv_other sv_name sv_fields]; rewrite <- (plain_fields _ _ Hb r); reflexivity|].
  destruct r; reflexivity.
Qed.
Lemma plain_item : forall i ts r, item_text sc false i ts -> reexport r i = ts.
Proof.
  intros i ts r H. destruct H as [o oth v n g fs a b Ha Hv Hn Hg Hb|o oth v n g l tr a ts Ha Hv Hn Hg Hl]; destruct (attributes_plain _ _ _ _ _ Ha) as [-> ->]; unfold reexport; cbn [si_other si_vis si_kind si_name si_gen].
  - rewrite <- (plain_fields _ _ Hb r). reflexivity.
  - rewrite <- (plain_pairs _ _ (variant_exists r) (emit_variant r) _ _ _ Hl); [reflexivity|]. intros x a Hx. exact (plain_variant _ _ Hx r).
Qed.
(** What is written without revision attributes can be written where they may be. *)
Lemma attributes_weaken : forall A (R : A -> list tok -> Prop) o oth ts, attributes_text false R o oth ts -> attributes_text true R o oth ts.
Proof. intros A R o oth ts H. induction H; try discriminate; constructor; assumption. Qed.
Lemma separated_weaken : forall A (R R' : A -> list tok -> Prop) l tr ts, (forall x a, R x a -> R' x a) -> separated R l tr ts -> separated R' l tr ts.
Proof. intros A R R' l tr ts HR H. induction H; constructor; auto. Qed.
Lemma field_weaken : forall f ts, field_text sc false f ts -> field_text sc true f ts.
Proof. intros f ts H. destruct H; constructor; try assumption; apply attributes_weaken; assumption. Qed.
Lemma fields_weaken : forall f ts, fields_text sc false f ts -> fields_text sc true f ts.
Proof. intros f ts H. destruct H; constructor; (eapply separated_weaken; [|eassumption]); intros x a [Hx Hn]; (split; [exact (field_weaken _ _ Hx)|exact Hn]). Qed.
Lemma variant_weaken : forall f ts, variant_text sc false f ts -> variant_text sc true f ts.
Proof. intros f ts H. destruct H; constructor; [apply attributes_weaken|..|apply fields_weaken]; assumption. Qed.
Lemma item_weaken : forall i ts, item_text sc false i ts -> item_text sc true i ts.
Proof.
  intros i ts H. destruct H; constructor; try assumption; try (apply attributes_weaken; assumption); [apply fields_weaken; assumption|]. eapply separated_weaken; [|eassumption]. exact variant_weaken.
Qed.
End Emitted.

(** ** Lists split at their commas *)

Section Split.
Context {A : Type}.
Variable R : A -> list tok -> Prop.
Hypothesis HR : forall x a, R x a -> a <> [] /\ ~ In comma a.
Lemma split_front : forall (a b g1 g2 : list tok), ~ In comma a -> a ++ comma :: b = g1 ++ comma :: g2 -> (g1 = a /\ g2 = b) \/ exists g, g1 = a ++ comma :: g /\ b = g ++ comma :: g2.
Proof.
  induction a as [|t a IH]; intros b g1 g2 Hn H; destruct g1 as [|u g1]; cbn [app] in H.
  - inversion H. left. auto.
  - inversion H; subst. right. exists g1. auto.
  - inversion H; subst. exfalso. apply Hn. left. reflexivity.
  - inversion H; subst. destruct (IH b g1 g2) as [[-> ->]|(g & -> & ->)]; [intros K; apply Hn; right; exact K|assumption|left; auto|right; exists g; auto].
Qed.
Lemma separated_split : forall l tr ts, separated R l tr ts -> forall g1 g2, ts = g1 ++ comma :: g2 -> 
  exists l1 l2 tr2, l = l1 ++ l2 /\ l1 <> [] /\ separated R l1 false g1 /\ separated R l2 tr2 g2 /\ (g2 <> [] -> tr2 = tr).
Proof.
  intros l tr ts H. induction H as [|x a Hx|x a Hx|x a l tr b Hx Hl H IH]; intros g1 g2 E.
  - destruct g1; discriminate E.
  - exfalso. apply (proj2 (HR _ _ Hx)). rewrite E. apply in_or_app. right. left. reflexivity.
  - destruct (split_front a [] g1 g2 (proj2 (HR _ _ Hx)) E) as [[-> ->]|(g & _ & E')]; [|destruct g; discriminate E'].
    exists [x], [], false. repeat split; [discriminate|constructor; exact Hx|constructor|congruence].
  - destruct (split_front a b g1 g2 (proj2 (HR _ _ Hx)) E) as [[-> ->]|(g & -> & E')].
    + exists [x], l, tr. repeat split; [discriminate|constructor; exact Hx|exact H].
    + destruct (IH g g2 E') as (l1 & l2 & tr2 & -> & Hne & H1 & H2 & H3). exists (x :: l1), l2, tr2. repeat split; [discriminate| |exact H2|exact H3]. apply sep_more; assumption.
Qed.
Lemma separated_join : forall l1 tr1 g1, separated R l1 tr1 g1 -> tr1 = false -> l1 <> [] -> forall l2 tr g2, l2 <> [] -> separated R l2 tr g2 -> separated R (l1 ++ l2) tr (g1 ++ comma :: g2).
Proof.
  intros l1 tr1 g1 H. induction H as [|x a Hx|x a Hx|x a l tr b Hx Hl H IH]; intros Ht Hn l2 tr2 g2 Hn2 H2; [congruence|cbn [app]; apply sep_more; assumption|discriminate Ht|].
  rewrite <- app_assoc. cbn [app]. apply sep_more; [exact Hx|destruct l; [congruence|discriminate]|]. apply IH; assumption.
Qed.
Lemma separated_head : forall l tr t ts, separated R l tr (t :: ts) -> exists x a, In x l /\ R x (t :: a).
Proof.
  intros l tr t ts H. inversion H as [|x a Hx|x a Hx E1 E2 E3|x a l' tr' b Hx Hl H' E1 E2 E3]; subst.
  - exists x, ts. split; [left; reflexivity|exact Hx].
  - destruct a as [|u a]; [destruct (proj1 (HR _ _ Hx)); reflexivity|]. inversion E3; subst. exists x, a. split; [left; reflexivity|exact Hx].
  - destruct a as [|u a]; [destruct (proj1 (HR _ _ Hx)); reflexivity|]. inversion E3; subst. exists x, a. split; [left; reflexivity|exact Hx].
Qed.
End Split.
Ltac no_comma := intros x a H; destruct H; (split; [discriminate|]); intros K; cbn [In] in K; repeat (destruct K as [K|K]; [discriminate K|]); destruct K.
Lemma field_option_clean : forall sc x a, field_option_text sc x a -> a <> [] /\ ~ In comma a. Proof. intros sc. no_comma. Qed.
Lemma variant_option_clean : forall sc x a, variant_option_text sc x a -> a <> [] /\ ~ In comma a. Proof. intros sc. no_comma. Qed.
Lemma entry_option_clean : forall x a, entry_option_text x a -> a <> [] /\ ~ In comma a. Proof. no_comma. Qed.
Lemma item_option_clean : forall x a, item_option_text x a -> a <> [] /\ ~ In comma a. Proof. no_comma. Qed.

(** ** The emitted type and the schema *)

Lemma kept_types : forall r l l' xs, kept (opts_live r) bare_field l l' -> mmap parse_field (map mfield_of l) = Done xs ->
  map sf_ty l' = map f_ty (filter (falive r) (map fst xs)).
Proof.
  intros r l l' xs H. revert xs. induction H as [|f g l l' Hf Hg H IH|f l l' Hf H IH]; intros xs Hx; cbn [map mmap] in Hx.
  - inversion Hx. reflexivity.
  - apply mbind_done in Hx. destruct Hx as (y & Hy & Hx). apply mbind_done in Hx. destruct Hx as (ys & Hys & Hx). inversion Hx; subst xs. destruct (field_exists_iff r f y Hy) as (E1 & E2 & E3). apply E1 in Hf. rewrite E2 in Hf.
    cbn [map filter]. rewrite Hf. cbn [map]. rewrite (IH ys Hys), E3. destruct Hg as (_ & _ & _ & _ & ->). reflexivity.
  - apply mbind_done in Hx. destruct Hx as (y & Hy & Hx). apply mbind_done in Hx. destruct Hx as (ys & Hys & Hx). inversion Hx; subst xs. destruct (field_exists_iff r f y Hy) as (E1 & E2 & E3). rewrite <- E1, E2 in Hf.
    cbn [map filter]. destruct (falive r (fst y)); [congruence|]. exact (IH ys Hys).
Qed.
Lemma bare_fields_types : forall r fs gs xs, bare_fields r fs gs -> mmap parse_field (map mfield_of (fields_in fs)) = Done xs ->
  map sf_ty (fields_in gs) = map f_ty (filter (falive r) (map fst xs)).
Proof. intros r [l tr|l tr|] [l' tr'|l' tr'|] xs H Hx; cbn [bare_fields] in H; try contradiction; cbn [fields_in] in *; try (eapply kept_types; eassumption). inversion Hx. reflexivity. Qed.
Lemma kept_shapes : forall r l l' xs, kept (vopts_live r) (bare_variant r) l l' -> mmap parse_variant (map mvariant_of l) = Done xs ->
  Forall2 (variant_shape r) (filter (valive r) (map fst xs)) l'.
Proof.
  intros r l l' xs H. revert xs. induction H as [|f g l l' Hf Hg H IH|f l l' Hf H IH]; intros xs Hx; cbn [map mmap] in Hx.
  - inversion Hx. constructor.
  - apply mbind_done in Hx. destruct Hx as (y & Hy & Hx). apply mbind_done in Hx. destruct Hx as (ys & Hys & Hx). inversion Hx; subst xs. destruct (variant_exists_iff r f y Hy) as (E1 & E2). apply E1 in Hf. rewrite E2 in Hf.
    cbn [map filter]. rewrite Hf. constructor; [|exact (IH ys Hys)]. destruct Hg as (_ & _ & Hn & Hb).
    unfold parse_variant in Hy. apply mbind_done in Hy. destruct Hy as (o & _ & Hy). apply mbind_done in Hy. destruct Hy as (zs & Hz & Hy). inversion Hy; subst y. cbn [fst]. split; [cbn; rewrite Hn; reflexivity|]. exact (bare_fields_types r _ _ _ Hb Hz).
  - apply mbind_done in Hx. destruct Hx as (y & Hy & Hx). apply mbind_done in Hx. destruct Hx as (ys & Hys & Hx). inversion Hx; subst xs. destruct (variant_exists_iff r f y Hy) as (E1 & E2). rewrite <- E1, E2 in Hf.
    cbn [map filter]. destruct (valive r (fst y)); [congruence|]. exact (IH ys Hys).
Qed.
