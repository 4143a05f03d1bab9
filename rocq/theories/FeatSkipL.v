(** Skipping with and without the feature [specialised-vectors].  Proof part. *)

From Verif Require Import Base BaseL Prog ProgL Prim PrimL Utf8 Tag Ty Ser De SliceReader Skip SkipL Typed Parts SortL Agree Transp TranspL Spec Format Ex PropFormat Local LocalL PropLocal Feature FeatureL PropFeature.
From Coq Require Import List NArith ZArith Bool Lia.
Import ListNotations.
Open Scope N_scope.

(** The same result and rest on every input in memory, whenever there is one. *)
Definition sameok (ub : N) {A} (p q : prog A) : Prop :=
  forall bs, okb ub bs -> forall x r, run p bs = Ok (x, r) <-> run q bs = Ok (x, r).
Lemma so_refl : forall ub A (p : prog A), sameok ub p p.
Proof. intros ub A p bs _ x r. reflexivity. Qed.
Lemma so_bind : forall ub A B (p p' : prog A) (f f' : A -> prog B), sameok ub p p' -> (forall a, sameok ub (f a) (f' a)) -> sameok ub (bind p f) (bind p' f').
Proof.
  assert (G : forall ub A B (p p' : prog A) (f f' : A -> prog B), sameok ub p p' -> (forall a, sameok ub (f a) (f' a)) ->
    forall bs, okb ub bs -> forall x r, run (bind p f) bs = Ok (x, r) -> run (bind p' f') bs = Ok (x, r)).
  { intros ub A B p p' f f' Hp Hf bs Hb x r H. rewrite run_bind in *. destruct (run p bs) as [[a y]| |] eqn:E; try discriminate H.
    rewrite (proj1 (Hp bs Hb a y) E). destruct (run_suffix _ _ _ _ _ E) as (z & -> & _). apply Hf; [apply (okb_app _ _ _ Hb)|exact H]. }
  intros ub A B p p' f f' Hp Hf bs Hb x r. split; intros H.
  - apply (G ub A B p p' f f'); assumption.
  - apply (G ub A B p' p f' f); try assumption; intros; [intros b Hb' u v; symmetry; apply Hp; exact Hb'|intros b Hb' u v; symmetry; apply Hf; exact Hb'].
Qed.
Lemma so_rep : forall ub n (p p' : prog unit), sameok ub p p' -> sameok ub (rep_ n p) (rep_ n p').
Proof. intros ub n p p' H. induction n as [|n IH]; cbn [rep_]; [apply so_refl|]. apply so_bind; [exact H|]. intros _. exact IH. Qed.
Lemma so_drop : forall ub A (p p' : prog A), sameok ub p p' -> sameok ub (p ;;; Ret tt) (p' ;;; Ret tt).
Proof. intros. apply so_bind; [assumption|]. intros _. apply so_refl. Qed.

(** Programs that step over [w] bytes. *)
Definition steps (w : N) (p : prog unit) : Prop := forall bs, run p bs = drop_n w bs.
Lemma steps_read : forall w A (f : bytes -> A), steps w ((x <- read_n w ;; Ret (f x)) ;;; Ret tt).
Proof. intros w A f bs. unfold drop_n, read_n. cbn [bind run]. destruct (split_at w bs) as [[x y]|]; reflexivity. Qed.
Lemma steps_read2 : forall w A B (f : bytes -> A) (g : A -> B), steps w ((x <- (y <- read_n w ;; Ret (f y)) ;; Ret (g x)) ;;; Ret tt).
Proof. intros w A B f g bs. unfold drop_n, read_n. cbn [bind run]. destruct (split_at w bs) as [[x y]|]; reflexivity. Qed.
Lemma steps_rep : forall w n p, steps w p -> forall bs, run (rep_ n p) bs = drop_n (N.of_nat n * w) bs.
Proof.
  intros w n p H. induction n as [|n IH]; intros bs.
  - cbn [rep_ run]. unfold drop_n. rewrite N.mul_0_l, split_at_0. reflexivity.
  - cbn [rep_]. rewrite run_bind, H. replace (N.of_nat (S n) * w) with (w + N.of_nat n * w) by lia. unfold drop_n. rewrite split_at_add.
    destruct (split_at w bs) as [[x y]|]; [|reflexivity]. rewrite IH. unfold drop_n. destruct (split_at (N.of_nat n * w) y) as [[u v]|]; reflexivity.
Qed.
Section S.
Variable E : env.
Variable b : bool.
Notation E' := (with_specialised b E).
Variables rec rec' : N -> prog unit.
Variables drec drec' : N -> prog val.
Notation vs := (vectors_same (e_fw E)).
Notation so := (sameok (e_ub E)).
Hypothesis Hrec : forall n, so (rec n) (rec' n).
Hypothesis Hde : forall t, vs t = true -> so (de_ty E drec t) (de_ty E' drec' t).

(** How far one element of a specialised vector reaches. *)
Definition stride (k : bk) : N := match k with BBool => 0 | BFix _ w => N.of_nat w | BRaw _ => 16 end.
Lemma elem_steps : forall E0 t k drec0 rec0, e_fw E0 = e_fw E -> same_either_way (e_fw E) t = true -> bulk_of t = Some k -> steps (stride k) (sk_ty E0 rec0 drec0 t).
Proof.
  intros E0 t k drec0 rec0 Hf Hs Hk. destruct t; try discriminate Hk.
  - discriminate Hs.
  - destruct i; try discriminate Hk; try discriminate Hs; injection Hk as <-; cbn [same_either_way] in Hs; cbn [sk_ty de_ty de_int stride]; rewrite ?Hf, ?Hs;
      intros bs; unfold drop_n, de_u8, de_i8, de_u16, de_u32, de_u64, de_u128, read_byte, read_n; rewrite ?Hs; cbn [bind run N.of_nat Pos.of_succ_nat Pos.succ];
      match goal with |- context [split_at ?n bs] => destruct (split_at n bs) as [[x y]|]; reflexivity end.
  - injection Hk as <-. cbn [sk_ty de_ty stride]. apply (steps_read 4).
  - injection Hk as <-. cbn [sk_ty de_ty stride]. apply (steps_read 8).
  - injection Hk as <-. intros bs. apply run_advance_read.
  - injection Hk as <-. intros bs. apply run_advance_read.
Qed.
Lemma so_elems : forall E0 E1 t k rec0 drec0, e_fw E0 = e_fw E -> e_ub E0 = e_ub E -> e_fw E1 = e_fw E -> e_ub E1 = e_ub E -> same_either_way (e_fw E) t = true -> bulk_of t = Some k -> 
  so (sk_bulk E0 k) (sk_seq E1 (sk_ty E1 rec0 drec0 t)).
Proof.
  intros E0 E1 t k rec0 drec0 F0 U0 F1 U1 Hs Hk. unfold sk_bulk, sk_seq, de_len. rewrite F0, U0, F1, U1. apply so_bind; [apply so_refl|]. intros n bs Hb x r.
  rewrite (steps_rep (stride k) _ _ (elem_steps E1 t k drec0 rec0 F1 Hs Hk)). rewrite N2Nat.id.
  assert (big : forall w, 2 ^ e_ub E <= n * w -> drop_n (n * w) bs = Err EIo).
  { intros w Hw. unfold drop_n. destruct Hb as [_ Hl]. rewrite (proj2 (split_at_none _ bs (n * w))) by lia. reflexivity. }
  assert (G : forall w, run (if n * w <? 2 ^ e_ub E then advance_read (n * w) else Fail EOverflow) bs = Ok (x, r) <-> drop_n (n * w) bs = Ok (x, r)).
  { intros w. destruct (N.ltb_spec (n * w) (2 ^ e_ub E)) as [L|L]; [rewrite run_advance_read; reflexivity|]. rewrite (big w L). split; discriminate. }
  destruct k as [|s w|q].
  - destruct t; try discriminate Hk; [discriminate Hs|destruct i; discriminate Hk].
  - cbn [stride]. destruct w as [|[|w]]; [apply G| |apply G]. rewrite run_advance_read. change (N.of_nat 1) with 1. rewrite N.mul_1_r. reflexivity.
  - apply G.
Qed.
Lemma so_sym : forall A (p q : prog A), so p q -> so q p.
Proof. intros A p q H bs Hb x r. symmetry. apply H. exact Hb. Qed.
Lemma so_trans : forall A (p q s : prog A), so p q -> so q s -> so p s.
Proof. intros A p q s H K bs Hb x r. rewrite (H bs Hb). apply K. exact Hb. Qed.
Lemma so_seq : forall p p', so p p' -> so (sk_seq E p) (sk_seq E' p').
Proof. intros p p' H. unfold sk_seq. apply so_bind; [apply so_refl|]. intros n. apply so_rep, H. Qed.
Lemma so_ty : forall t, vs t = true -> so (sk_ty E rec drec t) (sk_ty E' rec' drec' t).
Proof.
  induction t; intros V; pose proof V as V0; unfold vectors_same in V; cbn [ty_all] in V; apply andb_prop in V; destruct V as [S0 V]; cbn [sk_ty];
    try apply so_refl; try (apply so_drop, Hde, V0).
  - apply andb_prop in V. destruct V as [V1 V2]. apply so_bind; [apply IHt1, V1|]. intros _. apply IHt2, V2.
  - change (e_spec E') with b. destruct (bulk_of t) as [k|] eqn:Ek.
    + assert (A : forall (q : bool) E1 rec1 drec1, e_fw E1 = e_fw E -> e_ub E1 = e_ub E ->
        so (match (if q then Some k else None) with Some k => sk_bulk E1 k | None => sk_seq E1 (sk_ty E1 rec1 drec1 t) end) (sk_bulk E k)).
      { intros q E1 rec1 drec1 F1 U1. apply so_sym. destruct q.
        - eapply so_trans; [apply (so_elems E E t k rec drec); auto|]. apply so_sym. apply (so_elems E1 E t k rec drec); auto.
        - apply so_elems; auto. }
      eapply so_trans; [apply (A (e_spec E) E rec drec); reflexivity|]. apply so_sym. apply (A b E' rec' drec'); reflexivity.
    + replace (if e_spec E then None else None) with (@None bk) by (destruct (e_spec E); reflexivity). replace (if b then None else None) with (@None bk) by (destruct b; reflexivity).
      apply so_seq, IHt, V.
  - apply so_seq, IHt, V.
  - apply so_rep, IHt, V.
  - apply so_bind; [apply so_refl|]. intros x. destruct (x =? 0); [apply so_refl|]. destruct (x =? 1); [apply IHt, V|apply so_refl].
  - apply andb_prop in V. destruct V as [V1 V2]. apply so_bind; [apply so_refl|]. intros x. destruct (x =? 0); [apply IHt1, V1|]. destruct (x =? 1); [apply IHt2, V2|apply so_refl].
  - apply so_bind; [apply so_refl|]. intros x. destruct (x =? 0); [apply so_refl|]. destruct (x =? 1); [apply IHt, V|]. destruct (x =? 2); [apply IHt, V|apply so_refl].
  - apply andb_prop in V. destruct V as [V1 V2]. apply so_seq. apply so_bind; [apply IHt1, V1|]. intros _. apply IHt2, V2.
  - apply so_seq, IHt, V.
  - apply so_seq, IHt, V.
  - apply IHt, V.
  - match goal with |- sameok _ (if ?m then _ else _) _ => destruct m end; [apply so_drop, Hde, V0|apply IHt, V].
  - apply Hrec.
Qed.
Lemma so_fields : forall cur fs, forallb (fun f => vs (f_ty f)) fs = true -> so (sk_fields E rec drec cur fs) (sk_fields E' rec' drec' cur fs).
Proof.
  intros cur. induction fs as [|f fs IH]; intros V; cbn [sk_fields]; [apply so_refl|]. cbn [forallb] in V. apply andb_prop in V. destruct V as [V1 V2].
  destruct (falive cur f); [|apply IH, V2]. apply so_bind; [|intros _; apply IH, V2]. destruct (f_fixed f); [apply so_refl|apply so_ty, V1].
Qed.
Lemma so_derived : forall s, fields_all (fun f => vs (f_ty f)) s = true -> so (sk_derived E rec drec s) (sk_derived E' rec' drec' s).
Proof.
  intros s V. unfold sk_derived. apply so_bind; [apply so_refl|]. intros r. unfold sk_body. destruct (sent s r) as [h|]; [|apply so_refl].
  unfold fields_all in V. destruct (s_body s) as [fs|l].
  - destruct (h_opt h); [apply so_refl|apply so_fields, V].
  - destruct (h_opt h); [apply so_refl|]. unfold sk_enum_legacy. destruct (calc_disc r l) as [ds|] eqn:D; [|apply so_refl]. apply so_bind; [apply so_refl|]. intros x.
    destruct (find_disc x ds) as [[vr y]|] eqn:Fd; [|apply so_refl]. apply so_fields. rewrite forallb_forall in V. apply V, (find_disc_in _ _ _ _ _ _ D Fd).
Qed.
Lemma so_check : forall t, vs t = true -> so (sc_ty E drec t) (sc_ty E' drec' t).
Proof.
  induction t; intros V; pose proof V as V0; unfold vectors_same in V; cbn [ty_all] in V; apply andb_prop in V; destruct V as [S0 V]; cbn [sc_ty];
    try apply so_refl; try (apply so_drop, Hde, V0).
  - apply andb_prop in V. destruct V as [V1 V2]. apply so_bind; [apply IHt1, V1|]. intros _. apply IHt2, V2.
  - apply so_rep, IHt, V.
Qed.
End S.
Lemma harmless_free : forall E t, vectors_same (e_fw E) t = true -> specialised_free (set_sch E (harmless E)) t.
Proof.
  intros E t H. split; [exact H|]. intros n s f _ Hs Hf. pose proof (harmless_all E n s Hs) as A. unfold has_field, fields_all in *. destruct (s_body s) as [fs|l].
  - rewrite forallb_forall in A. apply (A f Hf).
  - destruct Hf as (v & Hv & Hf). rewrite forallb_forall in A. specialize (A v Hv). rewrite forallb_forall in A. apply (A f Hf).
Qed.
Lemma so_ref : forall E b d, wf_env E -> e_mem E = None -> forall n, sameok (e_ub E) (sk_ref (set_sch E (harmless E)) d n) (sk_ref (with_specialised b (set_sch E (harmless E))) d n).
Proof.
  intros E b d W M. induction d as [|d IH]; intros n; cbn [sk_ref]; [apply so_refl|]. change (e_sch (with_specialised b (set_sch E (harmless E))) n) with (e_sch (set_sch E (harmless E)) n).
  destruct (e_sch (set_sch E (harmless E)) n) as [s|] eqn:Hs; [|apply so_refl].
  apply (so_derived (set_sch E (harmless E)) b); [exact IH| |exact (harmless_all E n s Hs)].
  intros t V bs [Hb Hl] x r. symmetry. apply (C63_specialised_decoding_exact (set_sch E (harmless E)) b d t bs); [apply harmless_wf, W|exact M|apply harmless_free, V|exact Hb|exact Hl].
Qed.
Lemma so_skip : forall E b d t, wf_env E -> e_mem E = None -> specialised_free E t -> sameok (e_ub E) (skip (with_specialised b E) d t) (skip E d t).
Proof.
  intros E b d t W M H bs Hb x r. pose proof (harmless_used E t H) as U. pose proof (harmless_used' E b t H) as U'.
  rewrite <- (proj1 (C64_skipping E t _ d bs U)), <- (proj1 (C64_skipping (with_specialised b E) t _ d bs U')). symmetry.
  apply (so_ty (set_sch E (harmless E)) b); [exact (so_ref E b d W M)| |apply H|exact Hb].
  intros u V bs' [Hb' Hl] y q. symmetry. apply (C63_specialised_decoding_exact (set_sch E (harmless E)) b d u bs'); [apply harmless_wf, W|exact M|apply harmless_free, V|exact Hb'|exact Hl].
Qed.
Lemma so_skip_check : forall E b d t, wf_env E -> e_mem E = None -> specialised_free E t -> sameok (e_ub E) (skip_check (with_specialised b E) d t) (skip_check E d t).
Proof.
  intros E b d t W M H bs Hb x r. pose proof (harmless_used E t H) as U. pose proof (harmless_used' E b t H) as U'.
  rewrite <- (proj2 (proj2 (C64_skipping E t _ d bs U))), <- (proj2 (proj2 (C64_skipping (with_specialised b E) t _ d bs U'))). symmetry.
  apply (so_check (set_sch E (harmless E)) b); [|apply H|exact Hb].
  intros u V bs' [Hb' Hl] y q. symmetry. apply (C63_specialised_decoding_exact (set_sch E (harmless E)) b d u bs'); [apply harmless_wf, W|exact M|apply harmless_free, V|exact Hb'|exact Hl].
Qed.
