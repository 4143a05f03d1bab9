(** Which declarations compile.  Proofs. *)

From Verif Require Import Base BaseL Ty Typed DiscL Macro MacroSpec MacroL Legal.
From Coq Require Import List NArith ZArith Bool Lia Permutation Setoid.
Import ListNotations.
Open Scope N_scope.

Lemma given_cons : forall A (p : A -> bool) x l, given p (x :: l) = ((if p x then 1 else 0) + given p l)%nat.
Proof. intros A p x l. unfold given. cbn [filter]. destruct (p x); reflexivity. Qed.
Lemma given_in : forall A (p : A -> bool) l, (0 < given p l)%nat <-> exists x, In x l /\ p x = true.
Proof.
  intros A p. induction l as [|x l IH]; [split; [cbn; lia|intros (x & [] & _)]|]. rewrite given_cons. split.
  - intros H. destruct (p x) eqn:E; [exists x; split; [left; reflexivity|exact E]|]. destruct (proj1 IH ltac:(lia)) as (y & Hy & Hp).
    exists y. split; [right; exact Hy|exact Hp].
  - intros (y & [<-|Hy] & Hp); [rewrite Hp; lia|]. assert (0 < given p l)%nat by (apply IH; eauto). lia.
Qed.
Lemma mbind_ex : forall A B (m : mres A) (f : A -> mres B), (exists b, mbind m f = Done b) <-> exists a, m = Done a /\ exists b, f a = Done b.
Proof.
  intros A B [a|e] f; cbn [mbind]; split.
  - intros (b & H). eauto.
  - intros (a' & H & b & Hb). inversion H; subst. eauto.
  - intros (b & H). discriminate.
  - intros (a' & H & _). discriminate.
Qed.
Lemma lit_ex : forall w n P, (exists a, lit w n = Done a /\ P a) <-> n < 2 ^ w /\ P n.
Proof.
  intros w n P. unfold lit. destruct (n <? 2 ^ w) eqn:E.
  - apply N.ltb_lt in E. split; [intros (a & Ha & Hp); inversion Ha; subst; auto|intros [_ Hp]; eauto].
  - apply N.ltb_ge in E. split; [intros (a & Ha & _); discriminate|intros [H _]; lia].
Qed.
Lemma once_ex : forall A (o : option A) x P, (exists a, once o x = Done a /\ P a) <-> o = None /\ P (Some x).
Proof.
  intros A [y|] x P; cbn [once]; split; try (intros (a & H & _); discriminate); try (intros [H _]; discriminate).
  - intros (a & H & Hp). inversion H; subst. auto.
  - intros [_ H]. eauto.
Qed.
Definition held {A} (o : option A) : nat := match o with Some _ => 1 | None => 0 end.
Lemma held_le : forall A (o : option A), (held o <= 1)%nat.
Proof. intros A [a|]; cbn; lia. Qed.

(** ** Field options *)
Definition flit (x : fopt) : Prop := match x with FStart n | FEnd n => n < 2 ^ 64 | FIndexed i => i <> INone | _ => True end.
Lemma fstep_ok : forall l o, Forall (fun x => x <> FIndexed INone) l ->
  (exists o', mfold fstep o l = Done o') <->
  (given is_start l + held (fo_start o) <= 1 /\ given is_end l + held (fo_end o) <= 1
   /\ given is_convert l + held (fo_convert o) <= 1 /\ given is_default l + held (fo_default o) <= 1
   /\ given is_indexed l + held (noted (fo_idx o)) <= 1 /\ given is_fixed l + held (flag (fo_fixed o)) <= 1
   /\ given is_specialised l + held (flag (fo_spec o)) <= 1)%nat /\ Forall flit l.
Proof.
  induction l as [|x l IH]; intros [s e c d i fx sp] Hw.
  - cbn [mfold]. unfold given. cbn [filter length Nat.add fo_start fo_end fo_convert fo_default fo_idx fo_fixed fo_spec].
    split; [intros _|eauto]. split; [|constructor].
    repeat split; apply held_le.
  - inversion Hw as [|? ? Hx Hw']; subst. cbn [mfold]. rewrite mbind_ex. rewrite !given_cons.
    destruct x as [n|n|g|g|j| |]; cbn [fstep is_start is_end is_convert is_default is_indexed is_fixed is_specialised].
    + split.
      * intros (o1 & H1 & H2). apply IH in H2; [|exact Hw']. apply mbind_done in H1. destruct H1 as (n' & Hn & H1). apply lit_done in Hn. destruct Hn as [-> Hn].
        apply mbind_done in H1. destruct H1 as (s' & Hs & H1). apply once_done in Hs. destruct Hs as [-> ->]. inversion H1; subst o1. cbn in H2 |- *.
        destruct H2 as [H2 H3]. split; [intuition lia|constructor; assumption].
      * intros [H1 H2]. inversion H2 as [|? ? H3 H4]; subst. cbn [flit] in H3. assert (s = None) by (destruct s; [cbn in H1; lia|reflexivity]). subst s.
        unfold lit. rewrite (proj2 (N.ltb_lt _ _) H3). cbn [mbind once]. eexists. split; [reflexivity|]. apply IH; [exact Hw'|]. cbn in H1 |- *. split; [intuition lia|exact H4].
    + split.
      * intros (o1 & H1 & H2). apply IH in H2; [|exact Hw']. apply mbind_done in H1. destruct H1 as (n' & Hn & H1). apply lit_done in Hn. destruct Hn as [-> Hn].
        apply mbind_done in H1. destruct H1 as (s' & Hs & H1). apply once_done in Hs. destruct Hs as [-> ->]. inversion H1; subst o1. cbn in H2 |- *.
        destruct H2 as [H2 H3]. split; [intuition lia|constructor; assumption].
      * intros [H1 H2]. inversion H2 as [|? ? H3 H4]; subst. cbn [flit] in H3. assert (e = None) by (destruct e; [cbn in H1; lia|reflexivity]). subst e.
        unfold lit. rewrite (proj2 (N.ltb_lt _ _) H3). cbn [mbind once]. eexists. split; [reflexivity|]. apply IH; [exact Hw'|]. cbn in H1 |- *. split; [intuition lia|exact H4].
    + split.
      * intros (o1 & H1 & H2). apply IH in H2; [|exact Hw'].
        apply mbind_done in H1. destruct H1 as (s' & Hs & H1). apply once_done in Hs. destruct Hs as [-> ->]. inversion H1; subst o1. cbn in H2 |- *.
        destruct H2 as [H2 H3]. split; [intuition lia|constructor; [exact I|assumption]].
      * intros [H1 H2]. inversion H2 as [|? ? H3 H4]; subst. assert (c = None) by (destruct c; [cbn in H1; lia|reflexivity]). subst c.
        cbn [mbind once]. eexists. split; [reflexivity|]. apply IH; [exact Hw'|]. cbn in H1 |- *. split; [intuition lia|exact H4].
    + split.
      * intros (o1 & H1 & H2). apply IH in H2; [|exact Hw'].
        apply mbind_done in H1. destruct H1 as (s' & Hs & H1). apply once_done in Hs. destruct Hs as [-> ->]. inversion H1; subst o1. cbn in H2 |- *.
        destruct H2 as [H2 H3]. split; [intuition lia|constructor; [exact I|assumption]].
      * intros [H1 H2]. inversion H2 as [|? ? H3 H4]; subst. assert (d = None) by (destruct d; [cbn in H1; lia|reflexivity]). subst d.
        cbn [mbind once]. eexists. split; [reflexivity|]. apply IH; [exact Hw'|]. cbn in H1 |- *. split; [intuition lia|exact H4].
    + assert (Hj : j <> INone) by (intros ->; apply Hx; reflexivity). split.
      * intros (o1 & H1 & H2). apply IH in H2; [|exact Hw'].
        destruct i; try discriminate. inversion H1; subst o1. cbn in H2 |- *.
        destruct H2 as [H2 H3]. split; [|constructor; [exact Hj|assumption]]. destruct j; [congruence|cbn in H2; intuition lia..].
      * intros [H1 H2]. inversion H2 as [|? ? H3 H4]; subst. assert (i = INone) by (destruct i; [reflexivity|cbn in H1; lia..]). subst i.
        eexists. split; [reflexivity|]. apply IH; [exact Hw'|]. split; [|exact H4]. destruct j; [congruence|cbn in H1 |- *; intuition lia..].
    + split.
      * intros (o1 & H1 & H2). apply IH in H2; [|exact Hw'].
        destruct fx; try discriminate. inversion H1; subst o1. cbn in H2 |- *.
        destruct H2 as [H2 H3]. split; [intuition lia|constructor; [exact I|assumption]].
      * intros [H1 H2]. inversion H2 as [|? ? H3 H4]; subst. assert (fx = false) by (destruct fx; [cbn in H1; lia|reflexivity]). subst fx.
        eexists. split; [reflexivity|]. apply IH; [exact Hw'|]. cbn in H1 |- *. split; [intuition lia|exact H4].
    + split.
      * intros (o1 & H1 & H2). apply IH in H2; [|exact Hw'].
        destruct sp; try discriminate. inversion H1; subst o1. cbn in H2 |- *.
        destruct H2 as [H2 H3]. split; [intuition lia|constructor; [exact I|assumption]].
      * intros [H1 H2]. inversion H2 as [|? ? H3 H4]; subst. assert (sp = false) by (destruct sp; [cbn in H1; lia|reflexivity]). subst sp.
        eexists. split; [reflexivity|]. apply IH; [exact Hw'|]. cbn in H1 |- *. split; [intuition lia|exact H4].
Qed.

Lemma finish_field_ok : forall l, Forall (fun x => x <> FIndexed INone) l ->
  (exists o, finish_field l = Done o) <->
  once_each [is_start; is_end; is_convert; is_default; is_indexed; is_fixed; is_specialised] l
  /\ (forall n, In (FStart n) l \/ In (FEnd n) l -> n < 2 ^ 64) /\ ((exists n, In (FEnd n) l) -> exists c, In (FConvert c) l).
Proof.
  intros l Hw. split.
  - intros (o & H). pose proof (finish_field_done _ _ H) as (_ & H2 & H3 & _ & _ & _ & _ & H8).
    unfold finish_field in H. apply mbind_done in H. destruct H as (o' & H & _).
    destruct (proj1 (fstep_ok l fopts0 Hw) (ex_intro _ _ H)) as [G F]. cbn in G. split; [|split].
    + intros p [<-|[<-|[<-|[<-|[<-|[<-|[<-|[]]]]]]]]; lia.
    + rewrite Forall_forall in F. intros n [Hn|Hn]; exact (F _ Hn).
    + intros (n & Hn). apply H2 in Hn. destruct (fo_convert o) as [c|] eqn:Ec; [exists c; apply H3; reflexivity|]. exfalso. apply H8; congruence.
  - intros (H1 & H2 & H3).
    assert (G : exists o', mfold fstep fopts0 l = Done o').
    { apply fstep_ok; [exact Hw|]. cbn. rewrite !Nat.add_0_r. split; [repeat split; apply H1; cbn; auto 10|].
      rewrite Forall_forall in *. intros x Hx. destruct x as [n|n|g|g|j| |]; cbn; auto. intros ->. exact (Hw _ Hx eq_refl). }
    destruct G as (o & G). exists o. unfold finish_field. rewrite G. cbn [mbind].
    destruct (fo_end o) as [n|] eqn:Ee; [|reflexivity]. destruct (fo_convert o) as [c|] eqn:Ec; [reflexivity|]. exfalso.
    pose proof (once_fold _ _ _ _ fo_end _ fstep_end _ _ _ G n) as K; cbn in K. destruct (proj1 K Ee) as (x & Hx & Ex). destruct x; inversion Ex; subst.
    destruct (H3 (ex_intro (fun k => In (FEnd k) l) n Hx)) as (c & Hc).
    pose proof (once_fold _ _ _ _ fo_convert _ fstep_convert _ _ _ G c) as K'; cbn in K'.
    rewrite Ec in K'. discriminate (proj2 K' (ex_intro _ _ (conj Hc eq_refl))).
Qed.
Lemma field_legal_iff : forall cur m, cur < 2 ^ 64 -> Forall (fun x => x <> FIndexed INone) (mf_opts m) ->
  (exists p, parse_field m = Done p /\ field_range cur (fst p) = Done tt) <-> field_legal cur m.
Proof.
  intros cur m Hc Hw. pose proof (finish_field_ok _ Hw) as F. unfold field_legal. split.
  - intros ([f c] & Hp & Hr). pose proof (parse_field_range _ _ _ _ Hp Hr) as R.
    unfold parse_field in Hp. apply mbind_done in Hp. destruct Hp as (o & Ho & _). destruct (proj1 F (ex_intro _ _ Ho)) as (F1 & _ & F3).
    split; [exact F1|]. split; [|exact F3]. intros n [Hn|Hn]; apply (R _ Hn).
  - intros (H1 & H2 & H3). assert (G : exists o, finish_field (mf_opts m) = Done o).
    { apply F. split; [exact H1|]. split; [|exact H3]. intros n Hn. apply H2 in Hn. lia. }
    destruct G as (o & Ho). unfold parse_field. rewrite Ho. cbn [mbind]. eexists. split; [reflexivity|].
    pose proof (finish_field_done _ _ Ho) as (K1 & K2 & _). cbn [fst]. unfold field_range, field_of, in_range. cbn [f_start f_end].
    replace (_ && _) with true; [reflexivity|]. symmetry. apply andb_true_iff. split.
    + apply N.leb_le. destruct (fo_start o) as [n|] eqn:E; cbn; [|lia]. apply H2. left. apply K1. reflexivity.
    + destruct (fo_end o) as [n|] eqn:E; [|reflexivity]. apply N.leb_le, H2. right. apply K2. reflexivity.
Qed.

(** ** Variant options *)
Definition olit (x : oopt) : Prop := match x with ODiscriminant n => n < 2 ^ 32 | ORevision n => n < 2 ^ 64 end.
Lemma ostep_ok : forall l o, (exists o', mfold ostep o l = Done o') <->
  (given is_odiscriminant l + held (fst o) <= 1 /\ given is_orevision l + held (snd o) <= 1)%nat /\ Forall olit l.
Proof.
  induction l as [|x l IH]; intros [d r].
  - cbn [mfold fst snd]. unfold given. cbn [filter length Nat.add]. split; [intros _|eauto]. split; [split; apply held_le|constructor].
  - cbn [mfold]. rewrite mbind_ex, !given_cons. destruct x as [n|n]; cbn [ostep is_odiscriminant is_orevision fst snd].
    + split.
      * intros (o1 & H1 & H2). apply IH in H2. apply mbind_done in H1. destruct H1 as (d' & Hd & H1). apply mbind_done in Hd. destruct Hd as (n' & Hn & Hd).
        apply lit_done in Hn. destruct Hn as [-> Hn]. destruct d; [discriminate|]. inversion Hd; subst d'. inversion H1; subst o1. cbn [fst snd held] in H2 |- *.
        destruct H2 as [H2 H3]. split; [lia|constructor; assumption].
      * intros [H1 H2]. inversion H2 as [|? ? H3 H4]; subst. cbn [olit] in H3. assert (d = None) by (destruct d; [cbn in H1; lia|reflexivity]). subst d.
        unfold lit. rewrite (proj2 (N.ltb_lt _ _) H3). cbn [mbind]. eexists. split; [reflexivity|]. apply IH. cbn [fst snd held] in H1 |- *. split; [lia|exact H4].
    + split.
      * intros (o1 & H1 & H2). apply IH in H2. apply mbind_done in H1. destruct H1 as (d' & Hd & H1). apply mbind_done in Hd. destruct Hd as (n' & Hn & Hd).
        apply lit_done in Hn. destruct Hn as [-> Hn]. destruct r; [discriminate|]. inversion Hd; subst d'. inversion H1; subst o1. cbn [fst snd held] in H2 |- *.
        destruct H2 as [H2 H3]. split; [lia|constructor; assumption].
      * intros [H1 H2]. inversion H2 as [|? ? H3 H4]; subst. cbn [olit] in H3. assert (r = None) by (destruct r; [cbn in H1; lia|reflexivity]). subst r.
        unfold lit. rewrite (proj2 (N.ltb_lt _ _) H3). cbn [mbind]. eexists. split; [reflexivity|]. apply IH. cbn [fst snd held] in H1 |- *. split; [lia|exact H4].
Qed.
Lemma override_iff : forall l, (exists p, mfold ostep (None, None) l = Done p /\ snd p <> None) <-> override_legal l.
Proof.
  intros l. pose proof (ostep_ok l (None, None)) as K. cbn [fst snd held] in K. rewrite !Nat.add_0_r in K. unfold override_legal. split.
  - intros ([d r] & H & Hr). destruct (proj1 K (ex_intro _ _ H)) as [[K1 K2] K3]. rewrite Forall_forall in K3.
    destruct r as [r|]; [|elim Hr; reflexivity].
    pose proof (ostep_fold _ _ _ H) as [_ G].
    assert (0 < given is_orevision l)%nat by (apply given_in; exists (ORevision r); split; [apply G; reflexivity|reflexivity]).
    split; [lia|]. split; [exact K1|]. split; intros n Hn; exact (K3 _ Hn).
  - intros (H1 & H2 & H3 & H4). assert (G : exists p, mfold ostep (None, None) l = Done p).
    { apply K. split; [lia|]. apply Forall_forall. intros [n|n] Hn; [apply H4, Hn|apply H3, Hn]. }
    destruct G as ([d r] & G). exists (d, r). split; [exact G|]. cbn [snd]. pose proof (ostep_fold _ _ _ G) as [_ F].
    assert (Hi : (0 < given is_orevision l)%nat) by lia. apply given_in in Hi. destruct Hi as (x & Hx & Ex). destruct x as [n|n]; [discriminate|].
    apply F in Hx. congruence.
Qed.
Definition vlit (x : vopt) : Prop :=
  match x with VStart n | VEnd n => n < 2 ^ 64 | VOverride o => override_legal o | VSize (SFixed n) => n < 256 | _ => True end.
Lemma vstep_ok : forall l o, (exists o', mfold vstep o l = Done o') <->
  (given is_vstart l + held (vo_start o) <= 1 /\ given is_vend l + held (vo_end o) <= 1 /\ given is_vconvert l + held (vo_convert o) <= 1
   /\ given is_vdefault l + held (flag (vo_default o)) <= 1 /\ given is_vfields l + held (flag (vo_fields o)) <= 1
   /\ given is_vsize l + held (vo_size o) <= 1)%nat /\ Forall vlit l.
Proof.
  induction l as [|x l IH]; intros [s e c d f ov z].
  - cbn [mfold]. unfold given. cbn [filter length Nat.add vo_start vo_end vo_convert vo_default vo_fields vo_size].
    split; [intros _|eauto]. split; [repeat split; apply held_le|constructor].
  - cbn [mfold]. rewrite mbind_ex, !given_cons. destruct x as [n|n|g| | |ol|z']; cbn [vstep is_vstart is_vend is_vconvert is_vdefault is_vfields is_vsize].
    + split.
      * intros (o1 & H1 & H2). apply IH in H2. apply mbind_done in H1. destruct H1 as (n' & Hn & H1). apply lit_done in Hn. destruct Hn as [-> Hn].
        apply mbind_done in H1. destruct H1 as (s' & Hs & H1). apply once_done in Hs. destruct Hs as [-> ->]. inversion H1; subst o1. cbn in H2 |- *.
        destruct H2 as [H2 H3]. split; [intuition lia|constructor; assumption].
      * intros [H1 H2]. inversion H2 as [|? ? H3 H4]; subst. cbn [vlit] in H3. assert (s = None) by (destruct s; [cbn in H1; lia|reflexivity]). subst s.
        unfold lit. rewrite (proj2 (N.ltb_lt _ _) H3). cbn [mbind once]. eexists. split; [reflexivity|]. apply IH. cbn in H1 |- *. split; [intuition lia|exact H4].
    + split.
      * intros (o1 & H1 & H2). apply IH in H2. apply mbind_done in H1. destruct H1 as (n' & Hn & H1). apply lit_done in Hn. destruct Hn as [-> Hn].
        apply mbind_done in H1. destruct H1 as (s' & Hs & H1). apply once_done in Hs. destruct Hs as [-> ->]. inversion H1; subst o1. cbn in H2 |- *.
        destruct H2 as [H2 H3]. split; [intuition lia|constructor; assumption].
      * intros [H1 H2]. inversion H2 as [|? ? H3 H4]; subst. cbn [vlit] in H3. assert (e = None) by (destruct e; [cbn in H1; lia|reflexivity]). subst e.
        unfold lit. rewrite (proj2 (N.ltb_lt _ _) H3). cbn [mbind once]. eexists. split; [reflexivity|]. apply IH. cbn in H1 |- *. split; [intuition lia|exact H4].
    + split.
      * intros (o1 & H1 & H2). apply IH in H2.
        apply mbind_done in H1. destruct H1 as (s' & Hs & H1). apply once_done in Hs. destruct Hs as [-> ->]. inversion H1; subst o1. cbn in H2 |- *.
        destruct H2 as [H2 H3]. split; [intuition lia|constructor; [exact I|assumption]].
      * intros [H1 H2]. inversion H2 as [|? ? H3 H4]; subst. assert (c = None) by (destruct c; [cbn in H1; lia|reflexivity]). subst c.
        cbn [mbind once]. eexists. split; [reflexivity|]. apply IH. cbn in H1 |- *. split; [intuition lia|exact H4].
    + split.
      * intros (o1 & H1 & H2). apply IH in H2. destruct d; [discriminate|]. inversion H1; subst o1. cbn in H2 |- *.
        destruct H2 as [H2 H3]. split; [intuition lia|constructor; [exact I|assumption]].
      * intros [H1 H2]. inversion H2 as [|? ? H3 H4]; subst. assert (d = false) by (destruct d; [cbn in H1; lia|reflexivity]). subst d.
        eexists. split; [reflexivity|]. apply IH. cbn in H1 |- *. split; [intuition lia|exact H4].
    + split.
      * intros (o1 & H1 & H2). apply IH in H2. destruct f; [discriminate|]. inversion H1; subst o1. cbn in H2 |- *.
        destruct H2 as [H2 H3]. split; [intuition lia|constructor; [exact I|assumption]].
      * intros [H1 H2]. inversion H2 as [|? ? H3 H4]; subst. assert (f = false) by (destruct f; [cbn in H1; lia|reflexivity]). subst f.
        eexists. split; [reflexivity|]. apply IH. cbn in H1 |- *. split; [intuition lia|exact H4].
    + split.
      * intros (o1 & H1 & H2). apply IH in H2. apply mbind_done in H1. destruct H1 as (p & Hp & H1). destruct (snd p) as [r|] eqn:Er; [|discriminate].
        inversion H1; subst o1. cbn in H2 |- *. destruct H2 as [H2 H3]. split; [intuition lia|constructor; [|assumption]].
        cbn [vlit]. apply override_iff. exists p. split; [exact Hp|congruence].
      * intros [H1 H2]. inversion H2 as [|? ? H3 H4]; subst. cbn [vlit] in H3. apply override_iff in H3. destruct H3 as (p & Hp & Hr).
        rewrite Hp. cbn [mbind]. destruct (snd p) as [r|]; [|elim Hr; reflexivity]. eexists. split; [reflexivity|]. apply IH. cbn in H1 |- *. split; [intuition lia|exact H4].
    + split.
      * intros (o1 & H1 & H2). apply IH in H2. apply mbind_done in H1. destruct H1 as (s' & Hs & H1). apply once_done in Hs. destruct Hs as [-> ->].
        assert (Hz : vlit (VSize z') /\ o1 = mkVopts s e c d f ov (Some z')).
        { destruct z' as [|n|]; [inversion H1; split; [exact I|reflexivity]| |inversion H1; split; [exact I|reflexivity]].
          destruct (n <? 256) eqn:En; [|discriminate]. apply N.ltb_lt in En. inversion H1. split; [exact En|reflexivity]. }
        destruct Hz as [Hz ->]. cbn in H2 |- *. destruct H2 as [H2 H3]. split; [intuition lia|constructor; assumption].
      * intros [H1 H2]. inversion H2 as [|? ? H3 H4]; subst. assert (z = None) by (destruct z; [cbn in H1; lia|reflexivity]). subst z.
        cbn [mbind once]. assert (G : exists o', mfold vstep (mkVopts s e c d f ov (Some z')) l = Done o') by (apply IH; cbn in H1 |- *; split; [intuition lia|exact H4]).
        destruct z' as [|n|]; cbn [vlit] in H3; [eauto| |eauto]. rewrite (proj2 (N.ltb_lt _ _) H3). eauto.
Qed.

(** ** Fields, variants and bodies *)
Lemma mmap_mall : forall A B (f : A -> mres B) (g : B -> mres unit) l,
  (exists r, mmap f l = Done r /\ mall g r = Done tt) <-> forall x, In x l -> exists y, f x = Done y /\ g y = Done tt.
Proof.
  intros A B f g. induction l as [|x l IH].
  - split; [intros _ x []|]. intros _. exists []. split; reflexivity.
  - split.
    + intros (r & H & Hg). cbn [mmap] in H. apply mbind_done in H. destruct H as (y & Hy & H). apply mbind_done in H. destruct H as (ys & Hys & H).
      inversion H; subst r. cbn [mall] in Hg. apply mbind_done in Hg. destruct Hg as ([] & Hg1 & Hg2).
      intros z [<-|Hz]; [eauto|]. apply IH; [eauto|exact Hz].
    + intros H. destruct (H x (or_introl eq_refl)) as (y & Hy & Hg). destruct (proj2 IH (fun z Hz => H z (or_intror Hz))) as (r & Hr & Hgr).
      exists (y :: r). cbn [mmap mall]. rewrite Hy. cbn [mbind]. rewrite Hr. cbn [mbind]. rewrite Hg. cbn [mbind]. auto.
Qed.
Lemma mall_map : forall A B (h : A -> B) (g : B -> mres unit) l, mall g (map h l) = mall (fun x => g (h x)) l.
Proof. intros A B h g. induction l as [|x l IH]; cbn [map mall]; [reflexivity|]. rewrite IH. reflexivity. Qed.
Lemma fields_legal_iff : forall cur ms, cur < 2 ^ 64 -> (forall m, In m ms -> ~ In (FIndexed INone) (mf_opts m)) ->
  (exists l, mmap parse_field ms = Done l /\ mall (field_range cur) (map fst l) = Done tt) <-> forall m, In m ms -> field_legal cur m.
Proof.
  intros cur ms Hc Hw. assert (Hw' : forall m, In m ms -> Forall (fun x => x <> FIndexed INone) (mf_opts m)).
  { intros m Hm. apply Forall_forall. intros x Hx ->. exact (Hw m Hm Hx). }
  split.
  - intros (l & H1 & H2). rewrite mall_map in H2. intros m Hm. apply (field_legal_iff cur m Hc (Hw' m Hm)).
    exact (proj1 (mmap_mall _ _ parse_field (fun p => field_range cur (fst p)) ms) (ex_intro _ _ (conj H1 H2)) m Hm).
  - intros H. destruct (proj2 (mmap_mall _ _ parse_field (fun p => field_range cur (fst p)) ms)) as (l & H1 & H2).
    + intros m Hm. apply (field_legal_iff cur m Hc (Hw' m Hm)), H, Hm.
    + exists l. rewrite mall_map. auto.
Qed.

Lemma finish_variant_done : forall l o, finish_variant l = Done o -> mfold vstep vopts0 l = Done o
  /\ (forall n, vo_start o = Some n <-> In (VStart n) l) /\ (forall n, vo_end o = Some n <-> In (VEnd n) l)
  /\ (forall c, vo_convert o = Some c <-> In (VConvert c) l) /\ (vo_end o <> None -> vo_convert o <> None).
Proof.
  intros l o H. unfold finish_variant in H. apply mbind_done in H. destruct H as (o' & H & Hc).
  assert (o' = o /\ (vo_end o <> None -> vo_convert o <> None)) as [-> Hend].
  { destruct (vo_end o') eqn:Ee, (vo_convert o') eqn:Ec; inversion Hc; subst; split; try reflexivity; rewrite ?Ee, ?Ec; congruence. }
  split; [exact H|]. split; [|split; [|split; [|exact Hend]]]; intros a.
  - pose proof (once_fold _ _ _ _ vo_start _ vstep_start _ _ _ H a) as K; cbn in K. rewrite K. split; [|intros Ha; exists (VStart a); auto].
    intros (x & Hx & E). destruct x; inversion E; subst; exact Hx.
  - pose proof (once_fold _ _ _ _ vo_end _ vstep_end _ _ _ H a) as K; cbn in K. rewrite K. split; [|intros Ha; exists (VEnd a); auto].
    intros (x & Hx & E). destruct x; inversion E; subst; exact Hx.
  - pose proof (once_fold _ _ _ _ vo_convert _ vstep_convert _ _ _ H a) as K; cbn in K. rewrite K. split; [|intros Ha; exists (VConvert a); auto].
    intros (x & Hx & E). destruct x; inversion E; subst; exact Hx.
Qed.
Lemma finish_variant_ok : forall l, (exists o, finish_variant l = Done o) <->
  once_each [is_vstart; is_vend; is_vconvert; is_vdefault; is_vfields; is_vsize] l /\ Forall vlit l
  /\ ((exists n, In (VEnd n) l) -> exists c, In (VConvert c) l).
Proof.
  intros l. split.
  - intros (o & H). apply finish_variant_done in H. destruct H as (H & _ & H2 & H3 & H8).
    destruct (proj1 (vstep_ok l vopts0) (ex_intro _ _ H)) as [G F]. cbn in G. split; [|split; [exact F|]].
    + intros p [<-|[<-|[<-|[<-|[<-|[<-|[]]]]]]]; lia.
    + intros (n & Hn). apply H2 in Hn. destruct (vo_convert o) as [c|] eqn:Ec; [exists c; apply H3; reflexivity|]. exfalso. apply H8; congruence.
  - intros (H1 & H2 & H3).
    assert (G : exists o', mfold vstep vopts0 l = Done o').
    { apply vstep_ok. cbn. rewrite !Nat.add_0_r. split; [repeat split; apply H1; cbn; auto 10|exact H2]. }
    destruct G as (o & G). exists o. unfold finish_variant. rewrite G. cbn [mbind].
    destruct (vo_end o) as [n|] eqn:Ee; [|reflexivity]. destruct (vo_convert o) as [c|] eqn:Ec; [reflexivity|]. exfalso.
    pose proof (once_fold _ _ _ _ vo_end _ vstep_end _ _ _ G n) as K; cbn in K. destruct (proj1 K Ee) as (x & Hx & Ex). destruct x; inversion Ex; subst.
    destruct (H3 (ex_intro (fun k => In (VEnd k) l) n Hx)) as (c & Hc).
    pose proof (once_fold _ _ _ _ vo_convert _ vstep_convert _ _ _ G c) as K'; cbn in K'.
    rewrite Ec in K'. discriminate (proj2 K' (ex_intro _ _ (conj Hc eq_refl))).
Qed.
Definition variant_range (cur : N) (v : variant) : mres unit :=
  mbind (in_range cur (v_start v) (v_end v)) (fun _ => mall (field_range cur) (v_fields v)).
Lemma variant_legal_iff : forall cur v, cur < 2 ^ 64 -> (forall m, In m (mv_fields v) -> ~ In (FIndexed INone) (mf_opts m)) ->
  (exists p, parse_variant v = Done p /\ variant_range cur (fst p) = Done tt) <-> variant_legal cur v.
Proof.
  intros cur v Hc Hw. pose proof (fields_legal_iff cur (mv_fields v) Hc Hw) as FL. pose proof (finish_variant_ok (mv_opts v)) as VO. unfold variant_legal. split.
  - intros ([w c] & Hp & Hr). unfold parse_variant in Hp. apply mbind_done in Hp. destruct Hp as (o & Ho & Hp). apply mbind_done in Hp. destruct Hp as (fs & Hfs & Hp).
    inversion Hp; subst w. clear Hp. cbn [fst] in Hr. unfold variant_range in Hr. apply mbind_done in Hr. destruct Hr as ([] & R1 & R2). cbn [variant_of v_start v_end v_fields] in R1, R2.
    apply in_range_done in R1. destruct R1 as [Rs Re]. destruct (proj1 VO (ex_intro _ _ Ho)) as (V1 & V2 & V3). apply finish_variant_done in Ho. destruct Ho as (_ & K1 & K2 & _).
    rewrite Forall_forall in V2. split; [exact V1|]. split; [|split; [exact V3|split; [|split]]].
    + intros n [Hn|Hn]; [apply K1 in Hn; rewrite Hn in Rs; exact Rs|apply Re, K2, Hn].
    + intros o' Ho. exact (V2 _ Ho).
    + intros n Hn. apply V2 in Hn. cbn [vlit] in Hn. lia.
    + apply FL. eauto.
  - intros (V1 & V2 & V3 & V4 & V5 & V6). assert (G : exists o, finish_variant (mv_opts v) = Done o).
    { apply VO. split; [exact V1|]. split; [|exact V3]. apply Forall_forall. intros x Hx. destruct x as [n|n|g| | |ol|z]; cbn [vlit]; auto.
      - assert (n <= cur) by (apply V2; auto). lia.
      - assert (n <= cur) by (apply V2; auto). lia.
      - destruct z as [|n|]; auto. apply V5 in Hx. lia. }
    destruct G as (o & Ho). destruct (proj2 FL V6) as (fs & F1 & F2). unfold parse_variant. rewrite Ho. cbn [mbind]. rewrite F1. cbn [mbind].
    eexists. split; [reflexivity|]. cbn [fst]. unfold variant_range. cbn [variant_of v_start v_end v_fields]. rewrite F2.
    apply finish_variant_done in Ho. destruct Ho as (_ & K1 & K2 & _). unfold in_range.
    replace (_ && _) with true; [reflexivity|]. symmetry. apply andb_true_iff. split.
    + apply N.leb_le. destruct (vo_start o) as [n|] eqn:E; cbn; [|lia]. apply V2. left. apply K1. reflexivity.
    + destruct (vo_end o) as [n|] eqn:E; [|reflexivity]. apply N.leb_le, V2. right. apply K2. reflexivity.
Qed.
Lemma kind_legal_iff : forall cur k, cur < 2 ^ 64 ->
  (forall m, In m (match k with KStruct fs => fs | KEnum vs => flat_map mv_fields vs end) -> ~ In (FIndexed INone) (mf_opts m)) ->
  (exists p, parse_kind k = Done p /\ validate_revision cur (fst p) = Done tt) <->
  match k with KStruct fs => forall m, In m fs -> field_legal cur m | KEnum vs => forall v, In v vs -> variant_legal cur v end.
Proof.
  intros cur k Hc Hw. destruct k as [fs|vs]; cbn [parse_kind].
  - rewrite <- (fields_legal_iff cur fs Hc Hw). split.
    + intros (p & H & Hr). apply mbind_done in H. destruct H as (l & Hl & H). inversion H; subst p. cbn [fst validate_revision] in Hr. eauto.
    + intros (l & Hl & Hr). rewrite Hl. cbn [mbind]. eexists. split; [reflexivity|]. exact Hr.
  - assert (Hv : forall v, In v vs -> (exists p, parse_variant v = Done p /\ variant_range cur (fst p) = Done tt) <-> variant_legal cur v).
    { intros v Hi. apply variant_legal_iff; [exact Hc|]. intros m Hm. apply Hw, in_flat_map. eauto. }
    pose proof (mmap_mall _ _ parse_variant (fun p => variant_range cur (fst p)) vs) as M. split.
    + intros (p & H & Hr). apply mbind_done in H. destruct H as (l & Hl & H). inversion H; subst p. cbn [fst validate_revision] in Hr. rewrite mall_map in Hr.
      intros v Hi. apply Hv; [exact Hi|]. exact (proj1 M (ex_intro _ _ (conj Hl Hr)) v Hi).
    + intros H. destruct (proj2 M (fun v Hi => proj2 (Hv v Hi) (H v Hi))) as (l & Hl & Hr). rewrite Hl. cbn [mbind]. eexists. split; [reflexivity|].
      cbn [fst validate_revision]. rewrite mall_map. exact Hr.
Qed.

(** ** One revision *)
Lemma mall_iff : forall A (f : A -> mres unit) l, mall f l = Done tt <-> forall x, In x l -> f x = Done tt.
Proof.
  intros A f l. split.
  - intros H x Hx. apply mall_done in H. rewrite Forall_forall in H. auto.
  - intros H. apply mall_intro, Forall_forall, H.
Qed.
Lemma mbind_tt : forall A (m : mres unit) (f : unit -> mres A) a, mbind m f = Done a <-> m = Done tt /\ f tt = Done a.
Proof. intros A [[]|e] f a; cbn [mbind]; split; intros H; try (destruct H; discriminate); try discriminate; [auto|apply H]. Qed.
Lemma guard_iff : forall b e, guard b e = Done tt <-> b = true.
Proof. intros [] e; cbn; split; intros H; try reflexivity; discriminate. Qed.
Lemma Forall2_in_l : forall A B (R : A -> B -> Prop) l l' x, Forall2 R l l' -> In x l -> exists y, In y l' /\ R x y.
Proof.
  intros A B R l l' x H. induction H as [|a b l l' Hab H IH]; intros Hx; [destruct Hx|]. destruct Hx as [<-|Hx]; [exists b; split; [left; reflexivity|exact Hab]|].
  destruct (IH Hx) as (y & Hy & Hr). exists y. split; [right; exact Hy|exact Hr].
Qed.
Lemma fixed_of_int : forall t, match fixed_of t with Some _ => true | None => false end = true <-> fixed_int t.
Proof.
  intros t. unfold fixed_int. split.
  - destruct t as [|i| | | | | | | | | | | | | | | | | | | | | | | |]; try discriminate. destruct i; try discriminate; auto 8.
  - intros [->|[->|[->|[->|[->| ->]]]]]; reflexivity.
Qed.
Lemma fixed_legal_iff : forall r m f, field_made m f -> (fixed_type r f = Done tt <-> fixed_legal r m).
Proof.
  intros r m f (Ht & Hl & _ & _ & _ & Hx & _). unfold fixed_type, fixed_legal. rewrite guard_iff, Ht, orb_true_iff, fixed_of_int, negb_true_iff, andb_false_iff. split.
  - intros [[H|H]|H] L F; [|exfalso|exact H].
    + apply Hl in L. congruence.
    + apply Hx in F. congruence.
  - intros H. destruct (falive r f) eqn:Ea; [|auto]. destruct (f_fixed f) eqn:Ef; [|auto]. right. apply H; [apply Hl; exact Ea|apply Hx; reflexivity].
Qed.
Lemma fixed_all_iff : forall r ms fs, Forall2 field_made ms fs -> (mall (fixed_type r) fs = Done tt <-> forall m, In m ms -> fixed_legal r m).
Proof.
  intros r ms fs H. rewrite mall_iff. split.
  - intros G m Hm. destruct (Forall2_in_l _ _ _ _ _ _ H Hm) as (f & Hf & Hmf). apply (fixed_legal_iff _ _ _ Hmf), G, Hf.
  - intros G f Hf. destruct (Forall2_in_r _ _ _ _ _ _ H Hf) as (m & Hm & Hmf). apply (fixed_legal_iff _ _ _ Hmf), G, Hm.
Qed.
Lemma living_in : forall r v, forallb (fun o => match o with VStart n => n <=? r | VEnd n => r <? n | _ => true end) (mv_opts v) = true <-> variant_lives r v.
Proof.
  intros r v. rewrite forallb_forall. unfold variant_lives. split.
  - intros H. split; intros n Hn; apply H in Hn; [apply N.leb_le, Hn|apply N.ltb_lt, Hn].
  - intros [H1 H2] x Hx. destruct x; auto; [apply N.leb_le, H1, Hx|apply N.ltb_lt, H2, Hx].
Qed.
Lemma living_made : forall r vs ws, Forall2 variant_made vs ws -> Forall2 variant_made (living r vs) (filter (valive r) ws).
Proof.
  intros r vs ws H. induction H as [|v w vs ws Hv H IH]; [constructor|]. unfold living in *. cbn [filter].
  pose proof (living_in r v) as L. pose proof Hv as (_ & Ha & _). specialize (Ha r).
  destruct (valive r w).
  - rewrite (proj2 L (proj1 Ha eq_refl)). constructor; assumption.
  - destruct (forallb _ (mv_opts v)); [|exact IH]. discriminate (proj2 Ha (proj1 L eq_refl)).
Qed.
Lemma distinct_iff : forall A (g : A -> option N) l,
  NoDup (flat_map (fun v => match g v with Some d => [d] | None => [] end) l) <->
  forall i j v w d, nth_error l i = Some v -> nth_error l j = Some w -> g v = Some d -> g w = Some d -> i = j.
Proof.
  intros A g. induction l as [|a l IH].
  - split; [|intros _; constructor]. intros _ i j v w d H. destruct i; discriminate.
  - cbn [flat_map]. split.
    + intros H. assert (H0 : NoDup (flat_map (fun v => match g v with Some d => [d] | None => [] end) l)).
      { destruct (g a); [|exact H]. inversion H; assumption. }
      assert (Hno : forall k w d, nth_error l k = Some w -> g a = Some d -> g w = Some d -> False).
      { intros k w d Hk Ha Hw. rewrite Ha in H. inversion H as [|? ? Hn _]; subst. apply Hn, in_flat_map. exists w. split; [eapply nth_error_In; exact Hk|]. rewrite Hw. left. reflexivity. }
      intros [|i] [|j] v w d Hi Hj Hv Hw; cbn in Hi, Hj; [reflexivity| | |].
      * inversion Hi; subst v. exfalso. eapply Hno; eassumption.
      * inversion Hj; subst w. exfalso. eapply Hno; eassumption.
      * f_equal. eapply (proj1 IH H0); eassumption.
    + intros H. assert (H0 : NoDup (flat_map (fun v => match g v with Some d => [d] | None => [] end) l)).
      { apply IH. intros i j v w d Hi Hj Hv Hw. specialize (H (S i) (S j) v w d Hi Hj Hv Hw). lia. }
      destruct (g a) as [d|] eqn:Ea; [|exact H0]. constructor; [|exact H0]. intros Hd. apply in_flat_map in Hd. destruct Hd as (w & Hw & Hd).
      destruct (g w) as [d'|] eqn:Ew; [|destruct Hd]. destruct Hd as [->|[]]. apply In_nth_error in Hw. destruct Hw as (k & Hk).
      discriminate (H 0%nat (S k) a w d eq_refl Hk Ea Ew).
Qed.
Lemma overs_flat : forall r ws, overs r ws = flat_map (fun v => match v_over v r with Some d => [d] | None => [] end) (filter (valive r) ws).
Proof.
  intros r. induction ws as [|v vs IH]; cbn [filter overs]; [reflexivity|]. destruct (valive r v); [|exact IH].
  cbn [flat_map]. destruct (v_over v r); cbn [app]; rewrite IH; reflexivity.
Qed.
Lemma forall2_nth : forall A B (R : A -> B -> Prop) l l', Forall2 R l l' -> forall i,
  (forall x, nth_error l i = Some x -> exists y, nth_error l' i = Some y /\ R x y) /\ (forall y, nth_error l' i = Some y -> exists x, nth_error l i = Some x /\ R x y).
Proof.
  intros A B R l l' H. induction H as [|a b l l' Hab H IH]; intros [|i]; cbn; split; intros z Hz; try discriminate.
  - inversion Hz; subst. eauto.
  - inversion Hz; subst. eauto.
  - apply IH, Hz.
  - apply IH, Hz.
Qed.
Lemma clash_iff : forall r vs ws, Forall2 variant_made vs ws -> ((exists ds, calc_disc r ws = Some ds) <-> no_clash r vs).
Proof.
  intros r vs ws H. rewrite <- calc_disc_defined, overs_flat, distinct_iff. apply (living_made r) in H. unfold no_clash.
  pose proof (forall2_nth _ _ _ _ _ H) as F. split.
  - intros G i j v w d Hi Hj Hv Hw. destruct (F i) as [F1 _]. destruct (F j) as [F2 _]. destruct (F1 _ Hi) as (v' & Hi' & Mv). destruct (F2 _ Hj) as (w' & Hj' & Mw).
    eapply (G i j v' w' d Hi' Hj'); [apply Mv, Hv|apply Mw, Hw].
  - intros G i j v w d Hi Hj Hv Hw. destruct (F i) as [_ F1]. destruct (F j) as [_ F2]. destruct (F1 _ Hi) as (v' & Hi' & Mv). destruct (F2 _ Hj) as (w' & Hj' & Mw).
    eapply (G i j v' w' d Hi' Hj'); [apply Mv, Hv|apply Mw, Hw].
Qed.
Lemma Forall2_len : forall A B (R : A -> B -> Prop) l l', Forall2 R l l' -> length l = length l'.
Proof. intros A B R l l' H. induction H; cbn; congruence. Qed.
Lemma below_32 : forall r ws ds, calc_disc r ws = Some ds ->
  ((forall p, In p ds -> snd p < 32) <-> len (filter (valive r) ws) <= 32 /\ forall w d, In w (filter (valive r) ws) -> v_over w r = Some d -> d < 32).
Proof.
  intros r ws ds Hd. pose proof (calc_disc_fst _ _ _ Hd) as Hf. split.
  - intros H. split.
    + assert (Hl : (length (map snd ds) <= length (map N.of_nat (seq 0 32)))%nat).
      { apply NoDup_incl_length; [eapply calc_disc_nodup; exact Hd|]. intros d Hin. apply in_map_iff in Hin. destruct Hin as (p & <- & Hp). apply H in Hp.
        apply in_map_iff. exists (N.to_nat (snd p)). split; [lia|apply in_seq; lia]. }
      rewrite map_length in Hl. rewrite (map_length N.of_nat), seq_length in Hl. rewrite <- Hf. unfold len. rewrite map_length. lia.
    + intros w d Hw Ho. rewrite <- Hf in Hw. apply in_map_iff in Hw. destruct Hw as ([w' d'] & <- & Hin). cbn [fst] in Ho.
      rewrite <- (calc_disc_over _ _ _ _ _ _ Hd Hin Ho). exact (H _ Hin).
  - intros [H1 H2] [w d] Hin. cbn [snd]. assert (Hw : In w (filter (valive r) ws)) by (rewrite <- Hf; apply (in_map fst _ _ Hin)).
    rewrite calc_disc_dead in Hd. destruct (calc_disc_bound _ _ _ _ _ Hd Hin) as [Ho|Ho]; [exact (H2 _ _ Hw Ho)|lia].
Qed.

Lemma revision_legal_iff : forall k b cur r e, body_made k b ->
  (validate_optimised b (r, e) = Done tt /\ emit_deserialize b (r, e) = Done tt /\ (r = cur -> emit_serialize b (r, e) = Done tt))
  <-> revision_legal k cur r e.
Proof.
  intros k b cur r e H. destruct k as [ms|vs], b as [fs|ws]; cbn [body_made] in H; try contradiction; cbn [validate_optimised emit_deserialize emit_serialize revision_legal fst snd].
  - pose proof (fixed_all_iff r _ _ H) as F. destruct (h_opt e).
    + split; [intros _; discriminate|]. intros _. auto.
    + rewrite F. split; [intros (_ & G & _) _; exact G|]. intros G. specialize (G eq_refl). auto.
  - pose proof (clash_iff r _ _ H) as C. pose proof (living_made r _ _ H) as L. unfold discriminants.
    destruct (calc_disc r ws) as [ds|] eqn:Ed.
    2: { split.
         - intros (_ & G & _). cbn [mbind] in G. discriminate.
         - intros [G _]. apply C in G. destruct G as (ds & G). discriminate. }
    assert (C' : no_clash r vs) by (apply C; eauto). clear C.
    assert (FX : mall (fun v => mall (fixed_type r) (v_fields v)) (filter (valive r) ws) = Done tt <-> forall v m, In v (living r vs) -> In m (mv_fields v) -> fixed_legal r m).
    { rewrite mall_iff. split.
      - intros G v m Hv Hm. destruct (Forall2_in_l _ _ _ _ _ _ L Hv) as (w & Hw & Mw). pose proof Mw as (_ & _ & _ & _ & _ & Mf).
        exact (proj1 (fixed_all_iff r _ _ Mf) (G w Hw) m Hm).
      - intros G w Hw. destruct (Forall2_in_r _ _ _ _ _ _ L Hw) as (v & Hv & Mw). pose proof Mw as (_ & _ & _ & _ & _ & Mf).
        apply (fixed_all_iff r _ _ Mf). intros m Hm. exact (G v m Hv Hm). }
    cbn [mbind]. destruct (h_opt e) eqn:Eo.
    + assert (DS : mall (fun p : variant * N => guard (snd p <? 32) MWideDiscriminant) ds = Done tt <-> len (living r vs) <= 32 /\ forall v d, In v (living r vs) -> overrides_to (mv_opts v) r d -> d < 32).
      { rewrite mall_iff. pose proof (below_32 _ _ _ Ed) as B. unfold len in *. rewrite (Forall2_len _ _ _ _ _ L).
        assert (B' : (forall p, In p ds -> guard (snd p <? 32) MWideDiscriminant = Done tt) <-> (forall p, In p ds -> snd p < 32)).
        { split; intros G p Hp; specialize (G p Hp); [apply guard_iff, N.ltb_lt in G; exact G|apply guard_iff, N.ltb_lt, G]. }
        rewrite B', B. split; intros [B1 B2]; (split; [exact B1|]).
        - intros v d Hv Ho. destruct (Forall2_in_l _ _ _ _ _ _ L Hv) as (w & Hw & Mw). apply (B2 w d Hw), Mw, Ho.
        - intros w d Hw Ho. destruct (Forall2_in_r _ _ _ _ _ _ L Hw) as (v & Hv & Mw). apply (B2 v d Hv), Mw, Ho. }
      assert (SZ : mall (fun v => guard (match v_size v with Some _ => true | None => false end) MNoSize) (filter (valive r) ws) = Done tt <-> forall v, In v (living r vs) -> exists z, In (VSize z) (mv_opts v)).
      { rewrite mall_iff. split.
        - intros G v Hv. destruct (Forall2_in_l _ _ _ _ _ _ L Hv) as (w & Hw & Mw). specialize (G w Hw). apply guard_iff in G. destruct (v_size w) as [z|] eqn:Ez; [|discriminate].
          exists z. apply Mw, Ez.
        - intros G w Hw. destruct (Forall2_in_r _ _ _ _ _ _ L Hw) as (v & Hv & Mw). destruct (G v Hv) as (z & Hz). apply Mw in Hz. rewrite Hz. reflexivity. }
      assert (IN : mall (fun v => match v_size v with None => Fail MNoSize | Some SInline => guard (match filter (falive r) (v_fields v) with [] => true | _ => false end) MInlineFields | Some _ => Done tt end) (filter (valive r) ws) = Done tt
        <-> (forall v, In v (living r vs) -> exists z, In (VSize z) (mv_opts v)) /\ forall v, In v (living r vs) -> In (VSize SInline) (mv_opts v) -> forall m, In m (mv_fields v) -> ~ field_lives r m).
      { rewrite mall_iff. split.
        - intros G. split.
          + intros v Hv. destruct (Forall2_in_l _ _ _ _ _ _ L Hv) as (w & Hw & Mw). specialize (G w Hw). destruct (v_size w) as [z|] eqn:Ez; [|discriminate]. exists z. apply Mw, Ez.
          + intros v Hv Hz m Hm Lm. destruct (Forall2_in_l _ _ _ _ _ _ L Hv) as (w & Hw & Mw). specialize (G w Hw). apply Mw in Hz. rewrite Hz in G. apply guard_iff in G.
            pose proof Mw as (_ & _ & _ & _ & _ & Mf). destruct (Forall2_in_l _ _ _ _ _ _ Mf Hm) as (f & Hf & Ff). apply Ff in Lm.
            assert (Hin : In f (filter (falive r) (v_fields w))) by (apply filter_In; auto). destruct (filter (falive r) (v_fields w)); [destruct Hin|discriminate].
        - intros [G1 G2] w Hw. destruct (Forall2_in_r _ _ _ _ _ _ L Hw) as (v & Hv & Mw). destruct (G1 v Hv) as (z & Hz). pose proof Hz as Hz'. apply Mw in Hz'. rewrite Hz'.
          destruct z; try reflexivity. apply guard_iff. destruct (filter (falive r) (v_fields w)) as [|f fs] eqn:Ef; [reflexivity|]. exfalso.
          assert (Hin : In f (filter (falive r) (v_fields w))) by (rewrite Ef; left; reflexivity). apply filter_In in Hin. destruct Hin as [Hin Ha].
          pose proof Mw as (_ & _ & _ & _ & _ & Mf). destruct (Forall2_in_r _ _ _ _ _ _ Mf Hin) as (m & Hm & Ff). apply (G2 v Hv Hz m Hm), Ff, Ha. }
      rewrite !mbind_tt, guard_iff, N.leb_le, SZ, DS, IN.
      split.
      * intros ((G1 & G2 & G3 & G4) & _ & G5). split; [exact C'|]. split; [discriminate|]. intros _. split; [exact G3|]. intros v Hv. split; [exact (G2 v Hv)|]. split; [intros d; apply G4, Hv|].
        intros Er. exact (proj2 (G5 Er) v Hv).
      * intros (_ & _ & G). destruct (G eq_refl) as [G1 G2].
        assert (Hl : len (filter (valive r) ws) = len (living r vs)) by (unfold len; rewrite (Forall2_len _ _ _ _ _ L); reflexivity).
        assert (HS : forall v, In v (living r vs) -> exists z, In (VSize z) (mv_opts v)) by (intros v Hv; apply G2, Hv).
        assert (HD : forall v d, In v (living r vs) -> overrides_to (mv_opts v) r d -> d < 32) by (intros v d Hv; apply G2, Hv).
        rewrite Hl. repeat split; auto. intros v Hv. apply G2; assumption.
    + rewrite FX. split.
      * intros (_ & G & _). split; [exact C'|]. split; [intros _; exact G|discriminate].
      * intros (_ & G & _). specialize (G eq_refl). auto.
Qed.

(** ** Item options *)
Definition ilit (x : iopt) : Prop := match x with IRevision n => n < 2 ^ 64 | IEntry n o => n < 2 ^ 64 /\ fine o | _ => True end.
Definition is_irevision (o : iopt) : bool := match o with IRevision _ => true | _ => false end.
Lemma istep_ok : forall l o, (exists o', mfold istep o l = Done o') <->
  (given is_irevision l + held (io_revision o) <= 1 /\ given is_skip l + held (io_skip o) <= 1 /\ given is_walk l + held (io_walk o) <= 1)%nat /\ Forall ilit l.
Proof.
  induction l as [|x l IH]; intros [rv en s d k w].
  - cbn [mfold io_revision io_skip io_walk]. unfold given. cbn [filter length Nat.add]. split; [intros _|eauto]. split; [repeat split; apply held_le|constructor].
  - cbn [mfold]. rewrite mbind_ex, !given_cons. destruct x as [n|n e|b|b|b|b]; cbn [istep is_irevision is_skip is_walk io_revision io_skip io_walk].
    + split.
      * intros (o1 & H1 & H2). apply IH in H2. destruct rv; [discriminate|]. apply mbind_done in H1. destruct H1 as (n' & Hn & H1). apply lit_done in Hn. destruct Hn as [-> Hn].
        inversion H1; subst o1. cbn [io_revision io_skip io_walk held] in H2 |- *. destruct H2 as [H2 H3]. split; [intuition lia|constructor; assumption].
      * intros [H1 H2]. inversion H2 as [|? ? H3 H4]; subst. cbn [ilit] in H3. assert (rv = None) by (destruct rv; [cbn [held] in H1; lia|reflexivity]). subst rv.
        unfold lit. rewrite (proj2 (N.ltb_lt _ _) H3). cbn [mbind]. eexists. split; [reflexivity|]. apply IH. cbn [io_revision io_skip io_walk held] in H1 |- *. split; [intuition lia|exact H4].
    + split.
      * intros (o1 & H1 & H2). apply IH in H2. apply mbind_done in H1. destruct H1 as (h & Hh & H1). apply entry_done in Hh. destruct Hh as (_ & Hn & Hf).
        inversion H1; subst o1. cbn [io_revision io_skip io_walk held] in H2 |- *. destruct H2 as [H2 H3]. split; [intuition lia|constructor; [split; assumption|assumption]].
      * intros [H1 H2]. inversion H2 as [|? ? H3 H4]; subst. cbn [ilit] in H3. destruct H3 as [H3 H3']. rewrite (entry_intro n e H3 H3'). cbn [mbind]. eexists. split; [reflexivity|]. apply IH. cbn [io_revision io_skip io_walk held] in H1 |- *. split; [intuition lia|exact H4].
    + split.
      * intros (o1 & H1 & H2). apply IH in H2. inversion H1; subst o1. cbn [io_revision io_skip io_walk held] in H2 |- *. destruct H2 as [H2 H3]. split; [intuition lia|constructor; [exact I|assumption]].
      * intros [H1 H2]. inversion H2 as [|? ? H3 H4]; subst. eexists. split; [reflexivity|]. apply IH. cbn [io_revision io_skip io_walk held] in H1 |- *. split; [intuition lia|exact H4].
    + split.
      * intros (o1 & H1 & H2). apply IH in H2. inversion H1; subst o1. cbn [io_revision io_skip io_walk held] in H2 |- *. destruct H2 as [H2 H3]. split; [intuition lia|constructor; [exact I|assumption]].
      * intros [H1 H2]. inversion H2 as [|? ? H3 H4]; subst. eexists. split; [reflexivity|]. apply IH. cbn [io_revision io_skip io_walk held] in H1 |- *. split; [intuition lia|exact H4].
    + split.
      * intros (o1 & H1 & H2). apply IH in H2. apply mbind_done in H1. destruct H1 as (k' & Hk & H1). apply once_done in Hk. destruct Hk as [-> ->].
        inversion H1; subst o1. cbn [io_revision io_skip io_walk held] in H2 |- *. destruct H2 as [H2 H3]. split; [intuition lia|constructor; [exact I|assumption]].
      * intros [H1 H2]. inversion H2 as [|? ? H3 H4]; subst. assert (k = None) by (destruct k; [cbn [held] in H1; lia|reflexivity]). subst k. cbn [once mbind].
        eexists. split; [reflexivity|]. apply IH. cbn [io_revision io_skip io_walk held] in H1 |- *. split; [intuition lia|exact H4].
    + split.
      * intros (o1 & H1 & H2). apply IH in H2. apply mbind_done in H1. destruct H1 as (k' & Hk & H1). apply once_done in Hk. destruct Hk as [-> ->].
        inversion H1; subst o1. cbn [io_revision io_skip io_walk held] in H2 |- *. destruct H2 as [H2 H3]. split; [intuition lia|constructor; [exact I|assumption]].
      * intros [H1 H2]. inversion H2 as [|? ? H3 H4]; subst. assert (w = None) by (destruct w; [cbn [held] in H1; lia|reflexivity]). subst w. cbn [once mbind].
        eexists. split; [reflexivity|]. apply IH. cbn [io_revision io_skip io_walk held] in H1 |- *. split; [intuition lia|exact H4].
Qed.
Lemma given_numbers : forall l, given is_irevision l = length (numbers l).
Proof. induction l as [|x l IH]; [reflexivity|]. rewrite given_cons, IH. destruct x; reflexivity. Qed.
Lemma in_entries : forall l n o, In (n, o) (entries l) <-> In (IEntry n o) l.
Proof.
  intros l n o. unfold entries. rewrite in_flat_map. split.
  - intros (x & Hx & H). destruct x; try (destruct H; fail). destruct H as [H|[]]. inversion H; subst. exact Hx.
  - intros H. exists (IEntry n o). split; [exact H|left; reflexivity].
Qed.
Lemma in_numbers : forall l n, In n (numbers l) <-> In (IRevision n) l.
Proof.
  intros l n. unfold numbers. rewrite in_flat_map. split.
  - intros (x & Hx & H). destruct x; try (destruct H; fail). destruct H as [H|[]]. inversion H; subst. exact Hx.
  - intros H. exists (IRevision n). split; [exact H|left; reflexivity].
Qed.
Lemma item_done_legal : forall l o h, finish_item l = Done (o, h) -> item_legal l.
Proof.
  intros l o h H. unfold finish_item in H. apply mbind_done in H. destruct H as (o' & H & _).
  destruct (proj1 (istep_ok l iopts0) (ex_intro _ _ H)) as [G F]. cbn in G. rewrite Forall_forall in F. split.
  - intros p [<-|[<-|[]]]; lia.
  - intros n e Hi. apply F in Hi. apply Hi.
Qed.
Definition revs (l : list iopt) : list iopt := filter (fun x => match x with IRevision _ | IEntry _ _ => true | _ => false end) l.
Lemma revs_same : forall l, numbers (revs l) = numbers l /\ entries (revs l) = entries l.
Proof.
  induction l as [|x l [IH1 IH2]]; [auto|]. unfold revs in *. cbn [filter]. destruct x; cbn [numbers entries flat_map app] in *;
    try (split; assumption).
  - split; [f_equal; exact IH1|exact IH2].
  - split; [exact IH1|f_equal; exact IH2].
Qed.
Lemma big16 : 65535 < 2 ^ 16 /\ 2 ^ 16 <= 2 ^ 64.
Proof. split; [reflexivity|]. apply N.pow_le_mono_r; lia. Qed.
Lemma item_legal_done : forall l h, item_legal l -> (silent l /\ h = []) \/ (declares l h /\ len h <= 65535) -> exists o, finish_item l = Done (o, numbered_hist h).
Proof.
  intros l h [L1 L2] Hd. pose proof big16 as [B1 B2].
  assert (G : exists o, mfold istep iopts0 l = Done o).
  { apply istep_ok. cbn [iopts0 io_revision io_skip io_walk held]. rewrite !Nat.add_0_r. split.
    - split; [|split; apply L1; cbn; auto]. rewrite given_numbers.
      destruct Hd as [[[-> _] _]|[[(n & -> & _)|(-> & _)] _]]; cbn; lia.
    - apply Forall_forall. intros x Hx. destruct x as [n|n e|b|b|b|b]; cbn [ilit]; auto.
      + apply in_numbers in Hx. destruct Hd as [[[E _] _]|[[(m & E & _ & _ & Eh)|(E & _)] Hl]]; rewrite E in Hx; try (destruct Hx; fail); destruct Hx as [Hx|[]]; subst m h.
        unfold len in Hl. rewrite repeat_length, N2Nat.id in Hl. lia.
      + split; [|eapply L2; exact Hx]. apply in_entries in Hx. destruct Hd as [[[_ E] _]|[[(m & _ & E & _)|(_ & _ & P & _)] Hl]]; try (rewrite E in Hx; destruct Hx; fail).
        apply (in_map fst), (Permutation_in _ P) in Hx. apply In_nth_error in Hx. destruct Hx as (i & Hi). apply upto_nth in Hi. cbn [fst] in Hi. unfold len in Hl. lia. }
  destruct G as (o & Ho). exists o. unfold finish_item. rewrite Ho. cbn [mbind]. apply istep_fold in Ho. destruct Ho as (He & Hn & _). cbn [iopts0 io_entries io_revision app] in He, Hn.
  destruct Hd as [[[S1 S2] ->]|[Hd Hl]].
  - rewrite He, S2. destruct Hn as [[_ ->]|(n & Hn & _)]; [reflexivity|congruence].
  - destruct (revs_same l) as [R1 R2].
    assert (Hd' : declares (revs l) h) by (unfold declares in *; rewrite R1, R2; exact Hd).
    assert (Ho' : only_revisions (revs l)).
    { apply Forall_forall. intros x Hx. apply filter_In in Hx. destruct Hx as [Hx Hb]. destruct x; try discriminate; auto. eapply L2; exact Hx. }
    destruct (finish_item_hist _ _ Hd' Ho' ltac:(lia)) as (r & e & F). unfold finish_item in F. apply mbind_done in F. destruct F as (o' & F & Fr).
    apply mbind_done in Fr. destruct Fr as (h' & Fr & E). inversion E; subst o' h'. clear E. apply istep_fold in F. destruct F as (Fe & Fn & _). cbn [iopts0 io_entries io_revision app] in Fe, Fn, Fr.
    rewrite R2 in Fe. rewrite R1 in Fn. rewrite He, <- Fe.
    assert (io_revision o = r) by (destruct Hn as [[N1 ->]|(n & N1 & ->)], Fn as [[M1 ->]|(m & M1 & ->)]; congruence). subst r. rewrite Fr. reflexivity.
Qed.

(** ** The whole *)
Lemma numbered_fst : forall h, map fst (numbered_hist h) = upto (length (numbered_hist h)).
Proof.
  intros h. unfold numbered_hist. assert (L : length (upto (length h)) = length h) by (unfold upto; rewrite map_length, seq_length; reflexivity).
  rewrite combine_length, L, Nat.min_id. remember (upto (length h)) as u eqn:E. clear E. revert u L. induction h as [|x h IH]; intros [|n u] L; try discriminate; [reflexivity|].
  cbn [combine map fst]. f_equal. apply IH. inversion L; reflexivity.
Qed.
Lemma numbered_snd : forall h, map snd (numbered_hist h) = h.
Proof.
  intros h. unfold numbered_hist. assert (L : length (upto (length h)) = length h) by (unfold upto; rewrite map_length, seq_length; reflexivity).
  remember (upto (length h)) as u eqn:E. clear E. revert u L. induction h as [|x h IH]; intros [|n u] L; try discriminate; [reflexivity|].
  cbn [combine map snd]. f_equal. apply IH. inversion L; reflexivity.
Qed.
Lemma numbered_ne : forall h, h <> [] -> numbered_hist h <> [].
Proof. intros h H F. apply H. rewrite <- (numbered_snd h), F. reflexivity. Qed.
Lemma numbered_in : forall h r e, In (r, e) (numbered_hist h) <-> 1 <= r /\ nth_error h (N.to_nat (r - 1)) = Some e.
Proof.
  intros h r e. rewrite (numbered _ _ _ (numbered_fst h)), numbered_snd. replace (N.to_nat r - 1)%nat with (N.to_nat (r - 1)) by lia. reflexivity.
Qed.

Lemma expand_iff : forall i, writable i -> ((exists p, expand i = Done p) <-> legal i).
Proof.
  intros i Hw. pose proof big16 as [B1 B2].
  assert (Hw' : forall m, In m (match mi_kind i with KStruct fs => fs | KEnum vs => flat_map mv_fields vs end) -> ~ In (FIndexed INone) (mf_opts m)).
  { intros m Hm. unfold writable, fields_of in Hw. destruct (mi_kind i) as [fs|vs]; [apply (Hw _ m eq_refl Hm)|].
    apply in_flat_map in Hm. destruct Hm as (v & Hv & Hm). eapply Hw; [exists v; split; [exact Hv|reflexivity]|exact Hm]. }
  split.
  - intros ([s x] & H). pose proof (expand_accepted _ _ _ H) as [A1 A2 A3 A4 A5 A6]. pose proof (expand_impls _ _ _ H) as (_ & _ & _ & _ & I5 & I6).
    pose proof (parse_kind_made _ _ _ A3) as [M1 M2].
    assert (IL : item_legal (mi_args i) /\ item_legal (mi_attrs i)).
    { unfold expand in H. apply mbind_done in H. destruct H as ([oa ha] & Ha & H). apply mbind_done in H. destruct H as ([ot ht] & Ht & _).
      split; eapply item_done_legal; eassumption. }
    destruct IL as [IL1 IL2]. split; [exact IL1|]. split; [exact IL2|]. split.
    { unfold flags_legal. cbv zeta. rewrite <- I5. intros Hk Hc. apply I6; [exact Hk|apply M2, Hc]. }
    exists (s_hist s). split; [exact A1|]. change (len (s_hist s)) with (scur s). split; [lia|]. split.
    + apply kind_legal_iff; [lia|exact Hw'|]. exists (s_body s, s_conv s). split; [exact A3|exact A4].
    + intros r e Hr He. apply (revision_legal_iff _ _ _ _ _ M1).
      assert (Hs : sent s r = Some e).
      { unfold sent. destruct (r =? 0) eqn:E0; [apply N.eqb_eq in E0; lia|exact He]. }
      destruct (A5 _ _ Hs) as [V1 V2]. split; [exact V1|]. split; [exact V2|]. intros ->. apply A6, Hs.
  - intros (IL1 & IL2 & FL & h & Hh & Hl & KL & RL).
    assert (Hne : h <> []) by (destruct Hh as [[_ D]|[_ D]]; eapply declares_ne; exact D).
    assert (FA : exists oa ha ot ht, finish_item (mi_args i) = Done (oa, ha) /\ finish_item (mi_attrs i) = Done (ot, ht)
      /\ ((ha = numbered_hist h /\ ht = []) \/ (ha = [] /\ ht = numbered_hist h))).
    { destruct Hh as [[S D]|[S D]].
      - destruct (item_legal_done _ h IL1 (or_intror (conj D Hl))) as (oa & Ha). destruct (item_legal_done _ [] IL2 (or_introl (conj S eq_refl))) as (ot & Ht).
        exists oa, (numbered_hist h), ot, []. auto.
      - destruct (item_legal_done _ h IL2 (or_intror (conj D Hl))) as (ot & Ht). destruct (item_legal_done _ [] IL1 (or_introl (conj S eq_refl))) as (oa & Ha).
        exists oa, [], ot, (numbered_hist h). auto. }
    destruct FA as (oa & ha & ot & ht & Ha & Ht & Hsel).
    destruct (proj2 (kind_legal_iff (len h) (mi_kind i) ltac:(lia) Hw') KL) as ([b conv] & Hk & Hv). cbn [fst] in Hv.
    pose proof (parse_kind_made _ _ _ Hk) as [M1 M2].
    assert (Hlen : len (numbered_hist h) = len h) by (unfold len; rewrite <- (numbered_snd h) at 2; rewrite map_length; reflexivity).
    pose proof (last_upto _ (0, mkHent false false) (numbered_ne _ Hne) (numbered_fst h)) as Hlast. rewrite Hlen in Hlast.
    assert (Hlin : In (last (numbered_hist h) (0, mkHent false false)) (numbered_hist h)).
    { destruct (exists_last (numbered_ne _ Hne)) as (a & z & ->). rewrite last_last. apply in_or_app. right. left. reflexivity. }
    assert (RV : forall e, In e (numbered_hist h) -> validate_optimised b e = Done tt /\ emit_deserialize b e = Done tt /\ (fst e = len h -> emit_serialize b e = Done tt)).
    { intros [r e] Hin. apply numbered_in in Hin. destruct Hin as [Hr Hn]. apply (revision_legal_iff _ _ (len h) r e M1). apply RL; assumption. }
    assert (Hsel' : (match ht, ha with _ :: _, [] => Done ht | [], _ :: _ => Done ha | [], [] => Fail MNoRevision | _ :: _, _ :: _ => Fail MTwoSources end) = Done (numbered_hist h)).
    { pose proof (numbered_ne _ Hne) as Hn0. destruct Hsel as [[-> ->]|[-> ->]]; destruct (numbered_hist h); try congruence. }
    unfold expand. rewrite Ha. cbn [mbind]. rewrite Ht. cbn [mbind]. rewrite Hk. cbn [mbind fst snd]. rewrite Hsel'. cbn [mbind]. rewrite Hlast.
    assert (G1 : len h <? 2 ^ 16 = true) by (apply N.ltb_lt; lia). rewrite G1. cbn [guard mbind].
    assert (G2 : 0 <? len h = true) by (apply N.ltb_lt; unfold len; destruct h; [congruence|cbn [length]; lia]). rewrite G2. cbn [guard mbind].
    rewrite Hv. cbn [mbind].
    rewrite (proj2 (mall_iff _ (validate_optimised b) (numbered_hist h))) by (intros e He; apply RV, He). cbn [mbind].
    rewrite (proj2 (proj2 (RV _ Hlin)) Hlast). cbn [mbind].
    rewrite (proj2 (mall_iff _ (emit_deserialize b) (numbered_hist h))) by (intros e He; apply RV, He). cbn [mbind].
    unfold finish_item in Ha. apply mbind_done in Ha. destruct Ha as (o & Hf & Ha). apply mbind_done in Ha. destruct Ha as (h' & _ & Ha). inversion Ha; subst o h'. clear Ha.
    apply istep_flags in Hf. cbn [iopts0 io_ser io_de io_skip io_walk] in Hf. destruct Hf as (F1 & F2 & F3 & F4).
    assert (G3 : negb (match io_walk oa with Some x => x | None => io_de oa end && conv && negb (io_ser oa && io_de oa)) = true).
    { apply negb_true_iff. destruct (match io_walk oa with Some x => x | None => io_de oa end) eqn:Ew; [|reflexivity]. destruct conv; [|reflexivity]. cbn [andb].
      apply negb_false_iff. unfold flags_legal in FL. cbv zeta in FL. rewrite <- F1, <- F2 in FL. apply andb_true_iff. apply FL; [|apply M2; reflexivity].
      rewrite F4 in Ew. destruct (last_flag walk_flag (mi_args i)); exact Ew. }
    rewrite G3. cbn [guard mbind]. eauto.
Qed.

(** ** The order of options *)
Lemma fstep_swap : forall x y o r, x <> FIndexed INone -> y <> FIndexed INone ->
  mbind (fstep o x) (fun o => fstep o y) = Done r -> mbind (fstep o y) (fun o => fstep o x) = Done r.
Proof.
  intros x y [s e c d i fx sp] r Hx Hy H.
  apply mbind_done in H. destruct H as (o1 & H1 & H2).
  assert (L : forall n m (z : N), lit n m = Done z -> lit n m = Done m) by (intros n m z E; unfold lit in *; destruct (m <? 2 ^ n); [reflexivity|discriminate]).
  destruct x, y; cbn [fstep] in *;
    repeat match goal with
    | H : mbind _ _ = Done _ |- _ => apply mbind_done in H; destruct H as (? & ? & H)
    | H : lit _ _ = Done _ |- _ => let E := fresh in pose proof (L _ _ _ H) as E; rewrite H in E; inversion E; subst; clear E; revert H
    | H : once _ _ = Done _ |- _ => apply once_done in H; destruct H as [? ?]; subst
    end; intros; subst;
    try (destruct i; try discriminate); try (destruct i0; try discriminate); try (destruct i1; try discriminate); try (destruct fx; try discriminate); try (destruct sp; try discriminate); try congruence;
    repeat match goal with
    | H : Done _ = Done _ |- _ => inversion H; subst; clear H
    end; cbn [fstep] in *;
    repeat match goal with
    | H : mbind _ _ = Done _ |- _ => apply mbind_done in H; destruct H as (? & ? & H)
    | H : lit _ _ = Done _ |- _ => let E := fresh in pose proof (L _ _ _ H) as E; rewrite H in E; inversion E; subst; clear E; revert H
    | H : once _ _ = Done _ |- _ => apply once_done in H; destruct H as [? ?]; subst
    end; intros; subst; try discriminate;
    repeat match goal with
    | H : Done _ = Done _ |- _ => inversion H; subst; clear H
    | H : lit _ _ = Done _ |- _ => rewrite H; clear H
    end; cbn [mbind fstep once];
    repeat match goal with
    | H : lit _ _ = Done _ |- _ => rewrite H; clear H
    end; cbn [mbind fstep once]; try reflexivity.
Qed.
Lemma fsteps_perm : forall l l', Permutation l l' -> ~ In (FIndexed INone) l -> forall o r, mfold fstep o l = Done r -> mfold fstep o l' = Done r.
Proof.
  induction 1 as [|x l l' P IH|x y l|l1 l2 l3 P1 IH1 P2 IH2]; intros Hn o r H.
  - exact H.
  - cbn [mfold] in *. apply mbind_done in H. destruct H as (o1 & H1 & H2). rewrite H1. cbn [mbind]. apply IH; [intros F; apply Hn; right; exact F|exact H2].
  - cbn [mfold] in *. apply mbind_done in H. destruct H as (o1 & H1 & H2). apply mbind_done in H2. destruct H2 as (o2 & H2 & H3).
    assert (E : mbind (fstep o x) (fun o => fstep o y) = Done o2).
    { apply fstep_swap; [intros F; apply Hn; left; exact F|intros F; apply Hn; right; left; exact F|]. rewrite H1. cbn [mbind]. exact H2. }
    apply mbind_done in E. destruct E as (o3 & E1 & E2). rewrite E1. cbn [mbind]. rewrite E2. cbn [mbind]. exact H3.
  - apply IH2; [intros F; apply Hn, (Permutation_in _ (Permutation_sym P1)), F|]. apply IH1; assumption.
Qed.
Lemma parse_field_reordered : forall m m' r, field_reordered m m' -> ~ In (FIndexed INone) (mf_opts m) -> parse_field m = Done r -> parse_field m' = Done r.
Proof.
  intros m m' r (H1 & H2 & H3) Hn H. unfold parse_field, finish_field in *. apply mbind_done in H. destruct H as (o & H & H'). apply mbind_done in H. destruct H as (o1 & Ho & He).
  rewrite (fsteps_perm _ _ H3 Hn _ _ Ho). cbn [mbind]. rewrite He. cbn [mbind]. unfold field_of in *. rewrite H1, H2. exact H'.
Qed.
Lemma mmap_reordered : forall A B (f : A -> mres B) (R : A -> A -> Prop) l l', Forall2 R l l' -> (forall x y r, In x l -> R x y -> f x = Done r -> f y = Done r) ->
  forall r, mmap f l = Done r -> mmap f l' = Done r.
Proof.
  induction 1 as [|x y l l' Hx Hl IH]; intros Hf r H; [exact H|]. cbn [mmap] in *. apply mbind_done in H. destruct H as (a & Ha & H). apply mbind_done in H. destruct H as (b & Hb & H).
  rewrite (Hf _ _ _ (or_introl eq_refl) Hx Ha). cbn [mbind]. rewrite (IH (fun x y r Hi => Hf x y r (or_intror Hi)) _ Hb). exact H.
Qed.
Lemma expand_reordered : forall i i' p, reordered i i' -> writable i -> expand i = Done p -> expand i' = Done p.
Proof.
  intros [a t k] [a' t' k'] p (E1 & E2 & Hk) Hw H. cbn [mi_args mi_attrs mi_kind] in *. subst a' t'.
  assert (G : forall r, parse_kind k = Done r -> parse_kind k' = Done r).
  { intros r Hr. unfold writable, fields_of in Hw. cbn [mi_kind] in Hw. destruct k as [fs|vs], k' as [fs'|vs']; try (destruct Hk; fail); cbn [parse_kind] in *.
    - apply mbind_done in Hr. destruct Hr as (l & Hl & Hr).
      rewrite (mmap_reordered _ _ parse_field field_reordered fs fs' Hk) with (r := l); [exact Hr| |exact Hl].
      intros x y z Hi Hxy. apply parse_field_reordered; [exact Hxy|]. eapply Hw; [reflexivity|exact Hi].
    - apply mbind_done in Hr. destruct Hr as (l & Hl & Hr).
      rewrite (mmap_reordered _ _ parse_variant variant_reordered vs vs' Hk) with (r := l); [exact Hr| |exact Hl].
      intros v v' z Hi (V1 & V2 & V3) Hv. unfold parse_variant, variant_of in *. rewrite V1, V2. apply mbind_done in Hv. destruct Hv as (o & Ho & Hv). rewrite Ho. cbn [mbind].
      apply mbind_done in Hv. destruct Hv as (lf & Hlf & Hv).
      rewrite (mmap_reordered _ _ parse_field field_reordered _ _ V3) with (r := lf); [exact Hv| |exact Hlf].
      intros x y w Hx Hxy. apply parse_field_reordered; [exact Hxy|]. eapply Hw; [exists v; split; [exact Hi|reflexivity]|exact Hx]. }
  unfold expand in *. cbn [mi_args mi_attrs mi_kind] in *. apply mbind_done in H. destruct H as (oa & Ha & H). rewrite Ha. cbn [mbind].
  apply mbind_done in H. destruct H as (ot & Ht & H). rewrite Ht. cbn [mbind]. apply mbind_done in H. destruct H as (b & Hb & H). rewrite (G _ Hb). exact H.
Qed.
