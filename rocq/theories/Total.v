(** Which panics decoding can end in, and how deep it recurses.  Proofs. *)

From Verif Require Import Base BaseL Prog ProgL Prim PrimL Utf8 Tag Ty Ser De Typed Parts DiscL RtL Agree.
From Coq Require Import List NArith ZArith Bool Lia.
Import ListNotations.
Open Scope N_scope.

Definition safe (P : pan -> Prop) (k : nat) {A} (R : A -> Prop) (p : prog A) : Prop :=
  forall bs, (length bs < k)%nat ->
  match run p bs with Ok (a, _) => R a | Err _ => True | Panic x => P x end.

Lemma split_at_length : forall A n (l x y : list A), split_at n l = Some (x, y) -> (length x + length y = length l)%nat.
Proof. intros A n l x y H. apply split_at_some in H. destruct H as [-> _]. rewrite app_length. reflexivity. Qed.
Lemma run_length : forall A (p : prog A) bs a r, run p bs = Ok (a, r) -> (length r <= length bs)%nat.
Proof. intros A p bs a r H. apply run_len in H. unfold len in H. lia. Qed.

Section Safe.
Variable P : pan -> Prop.
Variable k : nat.
Notation safe := (safe P k).

Lemma safe_ret : forall A (R : A -> Prop) a, R a -> safe R (Ret a).
Proof. intros A R a H bs Hb. exact H. Qed.
Lemma safe_fail : forall A (R : A -> Prop) e, safe R (Fail e).
Proof. intros A R a bs Hb. exact I. Qed.
Lemma safe_crash : forall A (R : A -> Prop) x, P x -> safe R (Crash x : prog A).
Proof. intros A R a H bs Hb. exact H. Qed.
Lemma safe_bind : forall A B (R : A -> Prop) (S : B -> Prop) p f,
  safe R p -> (forall a, R a -> safe S (f a)) -> safe S (bind p f).
Proof.
  intros A B R S p f Hp Hf bs Hb. rewrite run_bind. specialize (Hp bs Hb).
  destruct (run p bs) as [[a r]|e|x] eqn:Er; auto. apply Hf; [assumption|]. apply run_length in Er. lia.
Qed.
Lemma safe_mono : forall A (R S : A -> Prop) p, (forall a, R a -> S a) -> safe R p -> safe S p.
Proof. intros A R S p H Hp bs Hb. specialize (Hp bs Hb). destruct (run p bs) as [[a r]|e|x]; auto. Qed.
Lemma safe_map_err : forall A (R : A -> Prop) g p, safe R p -> safe R (map_err g p).
Proof. intros A R g p Hp bs Hb. rewrite run_map_err. specialize (Hp bs Hb). destruct (run p bs) as [[a r]|e|x]; auto. Qed.
Lemma safe_of_res : forall A (R : A -> Prop) r, (forall a, r = Ok a -> R a) -> (forall x, r = Panic x -> P x) -> safe R (of_res r).
Proof. intros A R r H1 H2 bs Hb. rewrite run_of_res. destruct r; cbn; auto. Qed.
Lemma safe_read_n : forall n, safe (fun x => (length x < k)%nat) (read_n n).
Proof.
  intros n bs Hb. unfold read_n. cbn [run]. destruct (split_at n bs) as [[x y]|] eqn:E; [|exact I].
  apply split_at_length in E. cbn. lia.
Qed.
Lemma safe_read : forall A (R : A -> Prop) n e f, (forall x, (length x < k)%nat -> safe R (f x)) -> safe R (Read n e f).
Proof.
  intros A R n e f H bs Hb. cbn [run]. destruct (split_at n bs) as [[x y]|] eqn:E; [|exact I].
  apply split_at_length in E. apply H; lia.
Qed.
Lemma safe_read_byte : safe (fun _ => True) read_byte.
Proof. apply safe_read. intros; apply safe_ret; exact I. Qed.
Lemma safe_rep : forall A (R : A -> Prop) n p, safe R p -> safe (fun _ => True) (rep n p).
Proof.
  induction n as [|n IH]; intros p H; cbn [rep]; [apply safe_ret; exact I|].
  eapply safe_bind; [exact H|]. intros a _. eapply safe_bind; [apply IH; exact H|]. intros; apply safe_ret; exact I.
Qed.
Lemma safe_in_buf : forall A (R : A -> Prop) p buf, (length buf < k)%nat -> safe R p -> safe R (in_buf p buf).
Proof.
  intros A R p buf Hk H. unfold in_buf. specialize (H buf Hk). apply safe_of_res; destruct (run p buf) as [[a r]|e|x]; cbn; intros; try discriminate; auto.
  - apply Ok_inj in H0. subst. exact H.
  - inversion H0; subst. exact H.
Qed.

Variable E : env.
Hypothesis Hmem : e_mem E = None \/ P PMem.

Lemma safe_alloc : forall n, safe (fun _ => True) (alloc E n).
Proof.
  intros n. unfold alloc. destruct (e_mem E) as [m|]; [|apply safe_ret; exact I].
  destruct (n <=? m); [apply safe_ret; exact I|]. apply safe_crash. destruct Hmem; [discriminate|assumption].
Qed.

Ltac sf := repeat first
  [ apply safe_ret; exact I | apply safe_fail | apply safe_alloc | apply safe_read_byte
  | match goal with
    | |- safe _ (bind ?p ?f) => eapply (safe_bind _ _ (fun _ => True)); [|intros ? _]
    | |- safe _ (Read _ _ _) => apply safe_read; intros
    | |- safe _ (if ?c then _ else _) => destruct c
    end
  | eapply safe_mono; [|apply safe_read_n]; intros; exact I
  | apply (safe_rep _ (fun _ => True)) | apply safe_map_err ].

Lemma safe_d64 : safe (fun _ => True) decode_u64.
Proof. unfold decode_u64. sf. Qed.
Lemma safe_d128 : safe (fun _ => True) decode_u128.
Proof. unfold decode_u128. sf. Qed.
Lemma safe_int : forall i, safe (fun _ => True) (de_int (e_fw E) (e_ub E) i).
Proof.
  intros i. pose proof safe_d64. pose proof safe_d128.
  destruct i; cbn [de_int]; unfold de_usize, de_isize, de_u8, de_u16, de_u32, de_u64, de_u128, de_usize, de_i8, de_i16, de_i32, de_i64, de_i128, de_isize, de_i64, narrowU, narrowS;
    destruct (e_fw E); sf; try assumption.
Qed.
Lemma safe_u16 : safe (fun _ => True) (de_u16 (e_fw E)).
Proof. pose proof safe_d64. unfold de_u16, narrowU. destruct (e_fw E); sf; assumption. Qed.
Lemma safe_u32 : safe (fun _ => True) (de_u32 (e_fw E)).
Proof. pose proof safe_d64. unfold de_u32, narrowU. destruct (e_fw E); sf; assumption. Qed.
Lemma safe_len : safe (fun _ => True) (de_len E).
Proof. pose proof safe_d64. unfold de_len, de_usize, de_u64. destruct (e_fw E); sf; assumption. Qed.
Lemma safe_varint : safe (fun _ => True) (read_varint E).
Proof. unfold read_varint. sf. Qed.
Lemma safe_char : safe (fun _ => True) de_char.
Proof. unfold de_char. cbv zeta. sf. Qed.
Lemma safe_str : safe (fun _ => True) (de_str E).
Proof. unfold de_str. pose proof safe_len. sf; assumption. Qed.
Lemma safe_blob : safe (fun _ => True) (de_blob E).
Proof. unfold de_blob. pose proof safe_len. sf; assumption. Qed.
Lemma safe_bulk : forall b, safe (fun _ => True) (de_bulk E b).
Proof. intros b. unfold de_bulk. pose proof safe_len. destruct b as [| |[]]; sf; assumption. Qed.
Lemma safe_seq : forall sz p, safe (fun _ => True) p -> safe (fun _ => True) (de_seq E sz p).
Proof. intros. unfold de_seq. pose proof safe_len. sf; try assumption; eassumption. Qed.

Variable rec : N -> prog val.
Hypothesis Hrec : forall n, e_sch E n <> None -> safe (fun _ => True) (rec n).
Variable ok : ty -> bool.
Hypothesis Hok : forall t, ok t = true -> declared E t = true.
Hypothesis Htime : (forall t, ok t = true -> timeless t = true) \/ P PTime.
Let good t := ty_all ok t = true.

Lemma good_ok : forall t, good t -> ok t = true.
Proof. intros t H. unfold good in H. destruct t; cbn [ty_all] in H; apply andb_prop in H; apply H. Qed.

Lemma safe_dur : forall t, good t -> timeless t = false -> forall s n, safe (fun v => exists a b, v = VPair (VInt a) b) (of_res (dur_new s n)).
Proof.
  intros t G Ht s n. unfold dur_new. cbv zeta. destruct (s + n / 1000000000 <? 2 ^ 64)%Z; cbn [of_res].
  - apply safe_ret. eauto.
  - apply safe_crash. destruct Htime as [H|H]; [|exact H]. apply good_ok in G. apply H in G. congruence.
Qed.

Lemma safe_ty : forall t, good t -> safe (fun _ => True) (de_ty E rec t).
Proof.
  assert (Dur : forall t, good t -> timeless t = false -> P PTime).
  { intros t G H. destruct Htime as [Ht|Ht]; [|exact Ht]. apply good_ok in G. apply Ht in G. congruence. }
  induction t; intros G; pose proof (good_ok _ G) as Gk; pose proof G as G0;
    unfold good in G; cbn [ty_all] in G; apply andb_prop in G; destruct G as [_ G];
    try (apply andb_prop in G; destruct G as [G1 G2]; specialize (IHt1 G1); specialize (IHt2 G2));
    try specialize (IHt G); cbn [de_ty]; pose proof safe_u32;
    try match goal with |- context [if e_spec E then bulk_of ?x else None] => destruct (if e_spec E then bulk_of x else None) end.
  all: try (eapply safe_bind; [first [apply safe_int | apply safe_blob | apply safe_bulk | apply safe_char | eapply safe_seq; eassumption]|intros; apply safe_ret; exact I]).
  all: try (sf; assumption).
  - apply safe_str.
  - apply safe_str.
  - eapply safe_bind; [eapply safe_seq; unfold de_entry; sf; assumption|intros; apply safe_ret; exact I].
  - eapply safe_bind; [apply (safe_int U64)|]. intros s _. eapply safe_bind; [apply (safe_int U32)|]. intros n _.
    eapply safe_mono; [|eapply safe_dur; [exact G0|reflexivity]]. intros; exact I.
  - eapply safe_bind; [apply (safe_int U64)|]. intros s _. eapply safe_bind; [apply (safe_int U32)|]. intros n _.
    eapply safe_bind; [eapply safe_dur; [exact G0|reflexivity]|]. intros v (a & b & ->).
    cbn [time_add]. destruct (a <=? e_time E)%Z; cbn [of_res]; [apply safe_ret; exact I|]. apply safe_crash.
    apply (Dur _ G0). reflexivity.
  - eapply safe_bind; [exact IHt|]. intros x _. destruct (e_ext E c x); [apply safe_ret; exact I|apply safe_fail].
  - apply Hrec. apply Hok in Gk. cbn in Gk. destruct (e_sch E n); [discriminate|]. discriminate Gk.
Qed.

Variable fok : field -> bool.
Hypothesis Hfok : forall f, fok f = true -> ty_all ok (f_ty f) = true /\ field_ok f = true.
Hypothesis Hover : (forall f, fok f = true -> f_idx f <> IMap) \/ (e_dbg E = false \/ P POverflow).

Lemma safe_idx_seq : forall a p, safe (fun _ => True) p -> safe (fun _ => True) (de_idx_seq E a p).
Proof. intros a p H. pose proof safe_varint. unfold de_idx_seq, advance. sf; assumption. Qed.
Lemma safe_idx_map : forall q a b p p', (e_dbg E = false \/ P POverflow) -> safe (fun _ => True) p -> safe (fun _ => True) p' ->
  safe (fun _ => True) (de_idx_map E q a b p p').
Proof.
  intros q a b p p' Ho H H'. pose proof safe_varint. unfold de_idx_map, advance, de_entry, add8.
  assert (Hc : safe (fun _ : N => True) (if e_dbg E then Crash POverflow else Ret ((0 + 8) mod 2 ^ e_ub E))).
  { destruct (e_dbg E); [apply safe_crash; destruct Ho; [discriminate|assumption]|apply safe_ret; exact I]. }
  sf; assumption.
Qed.
Lemma safe_mode : forall f m, fok f = true -> (m = mode_legacy f \/ m = mode_opt f \/ m = MPlain) ->
  safe (fun _ => True) (de_mode E rec m (f_ty f)).
Proof.
  intros f m Hf Hm. destruct (Hfok f Hf) as [Gt Gm].
  assert (Hmo : mode_ok m (f_ty f) = true).
  { unfold field_ok in Gm. apply andb_prop in Gm. destruct Gm as [G1 G2].
    destruct Hm as [->|[->| ->]]; [exact G1|exact G2|reflexivity]. }
  assert (Himap : m = MIdxMap -> e_dbg E = false \/ P POverflow).
  { intros ->. destruct Hover as [Ho|Ho]; [|exact Ho]. exfalso.
    destruct Hm as [Hm|[Hm|Hm]]; [|apply (Ho f Hf)|discriminate].
    - unfold mode_legacy in Hm. destruct (f_fixed f), (f_spec f); discriminate.
    - unfold mode_opt in Hm. destruct (f_idx f); try discriminate. reflexivity. }
  clear Hm Gm. set (t := f_ty f) in *. clearbody t.
  destruct m; cbn [de_mode].
  - replace (match t with TBool | _ => de_ty E rec t end) with (de_ty E rec t) by (destruct t; reflexivity).
    apply safe_ty; exact Gt.
  - cbn [mode_ok] in Hmo. assert (Hmo' : match fixed_of t with Some _ => true | None => false end = true) by (destruct t; exact Hmo).
    replace (match t with TBool | _ => match fixed_of t with Some (s, w) => z <- de_fixed s w;; Ret (VInt z) | None => Crash PType end end)
      with (match fixed_of t with Some (s, w) => z <- de_fixed s w;; Ret (VInt z) | None => Crash PType end) by (destruct t; reflexivity).
    destruct (fixed_of t) as [[s w]|]; [|discriminate]. unfold de_fixed. sf.
  - destruct t; try discriminate. cbn [mode_ok] in Hmo. destruct (bulk_of t); [|discriminate]. sf. apply safe_bulk.
  - destruct t; try discriminate. cbn [ty_all] in Gt. apply andb_prop in Gt. destruct Gt as [_ Gt]. apply andb_prop in Gt. destruct Gt as [G1 G2].
    sf. apply safe_idx_map; [apply Himap; reflexivity| |]; apply safe_ty; assumption.
  - destruct t; try discriminate; cbn [ty_all] in Gt; apply andb_prop in Gt; destruct Gt as [_ Gt];
    sf; apply safe_idx_seq, safe_ty; assumption.
  - destruct t; try discriminate; cbn [ty_all] in Gt; apply andb_prop in Gt; destruct Gt as [_ Gt];
    sf; apply safe_idx_seq, safe_ty; assumption.
Qed.

Variable s : schema.
Hypothesis Hwf : wf_schema s.
Hypothesis Hfs : fields_all fok s = true.
Hypothesis Huser : forall f r x,
     (match s_body s with SStruct fs => In f fs | SEnum vs => exists v, In v vs /\ In f (v_fields v) end) ->
     (f_default f r = Panic x -> P x) /\ (forall l v, f_convert f l r v = Panic x -> P x).
Hypothesis Huserv : forall vs v l r x, s_body s = SEnum vs -> In v vs -> v_convert v l r = Panic x -> P x.
Let mine (f : field) := match s_body s with SStruct fs => In f fs | SEnum vs => exists v, In v vs /\ In f (v_fields v) end.

Lemma mine_fok : forall f, mine f -> fok f = true.
Proof.
  intros f H. unfold mine in H. unfold fields_all in Hfs. destruct (s_body s) as [fs|vs].
  - rewrite forallb_forall in Hfs. auto.
  - rewrite forallb_forall in Hfs. destruct H as (v & Hv & Hf). specialize (Hfs v Hv). rewrite forallb_forall in Hfs. auto.
Qed.
Lemma safe_fields : forall opt cur tgt fs, (forall f, In f fs -> mine f) ->
  safe (fun p => forall f v, In (f, v) (snd p) -> mine f) (de_fields E rec opt cur tgt fs).
Proof.
  intros opt cur tgt. induction fs as [|f fs IH]; intros Hin; cbn [de_fields].
  - apply safe_ret. intros f v [].
  - assert (Hf : mine f) by (apply Hin; left; reflexivity).
    assert (IH' := IH (fun g Hg => Hin g (or_intror Hg))). clear IH.
    destruct (falive cur f), (falive tgt f).
    + eapply safe_bind; [apply safe_mode; [apply mine_fok; exact Hf|]|].
      * unfold mode_of. destruct opt; auto.
      * intros v _. eapply safe_bind; [exact IH'|]. intros p Hp. apply safe_ret. exact Hp.
    + eapply safe_bind; [apply safe_mode; [apply mine_fok; exact Hf|]|].
      * unfold mode_removed. destruct opt; auto.
      * intros v _. eapply safe_bind; [exact IH'|]. intros p Hp. apply safe_ret.
        intros g w [Hg|Hg]; [inversion Hg; subst; exact Hf|eapply Hp; exact Hg].
    + eapply safe_bind; [apply (safe_of_res _ (fun _ => True)); [auto|intros x Hx; apply (Huser f cur x Hf); exact Hx]|].
      intros v _. eapply safe_bind; [exact IH'|]. intros p Hp. apply safe_ret. exact Hp.
    + exact IH'.
Qed.
Lemma converts_panic : forall cur rem this x, (forall f v, In (f, v) rem -> mine f) -> converts cur this rem = Panic x -> P x.
Proof.
  intros cur. induction rem as [|[f v] rem IH]; intros this x Hm H; cbn [converts] in H; [discriminate|].
  destruct (f_convert f this cur v) as [l|e|y] eqn:Ec; cbn [rbind] in H; [|discriminate|].
  - eapply IH; [|exact H]. intros; eapply Hm; right; eassumption.
  - inversion H; subst y. assert (Hf : mine f) by (eapply Hm; left; reflexivity). apply (Huser f cur x Hf) in Ec. exact Ec.
Qed.
Lemma safe_finish : forall opt cur tgt fs (g : list val -> prog val), (forall f, In f fs -> mine f) ->
  (forall l, safe (fun _ => True) (g l)) ->
  safe (fun _ => True) (p <- de_fields E rec opt cur tgt fs ;; l <- of_res (converts cur (fst p) (snd p)) ;; g l).
Proof.
  intros opt cur tgt fs g Hin Hg. eapply safe_bind; [apply safe_fields; exact Hin|]. intros p Hp.
  eapply (safe_bind _ _ (fun _ => True)).
  - apply safe_of_res; [auto|]. intros x Hx. eapply converts_panic; [exact Hp|exact Hx].
  - intros l _. apply Hg.
Qed.
Lemma safe_vfields : forall cur fs, (forall f, In f fs -> mine f) -> safe (fun _ => True) (de_vfields E rec cur fs).
Proof.
  intros cur. induction fs as [|f fs IH]; intros Hin; cbn [de_vfields]; [apply safe_ret; exact I|].
  assert (IH' := IH (fun g Hg => Hin g (or_intror Hg))). destruct (falive cur f); [|exact IH'].
  assert (Hf : fok f = true) by (apply mine_fok, Hin; left; reflexivity). apply Hfok in Hf.
  sf; [apply safe_ty; apply Hf|exact IH'].
Qed.

Lemma safe_body : forall r, safe (fun _ => True) (de_body E rec s r).
Proof.
  intros r. unfold de_body. destruct (sent s r) as [h|] eqn:Eh; [|apply safe_fail].
  destruct Hwf as (_ & _ & Hb).
  assert (exists b, s_body s = b) as (b & Eb) by eauto. rewrite Eb in Hb |- *.
  destruct b as [fs|vs].
  - assert (Hin : forall f, In f fs -> mine f) by (unfold mine; rewrite ?Eb; auto).
    destruct (h_opt h).
    + unfold de_struct_opt, struct_payload, read_varlen_len.
      eapply (safe_bind _ _ (fun _ => True)); [sf|]. intros n _. eapply (safe_bind _ _ (fun _ => True)); [apply safe_alloc|]. intros _ _.
      eapply safe_bind; [apply safe_read_n|]. intros buf Hbuf. cbn beta in Hbuf. apply safe_in_buf; [exact Hbuf|].
      eapply (safe_bind _ _ (fun _ => True)); [destruct (h_idx h); sf|]. intros _ _.
      apply safe_finish; [exact Hin|]. intros l; apply safe_ret; exact I.
    + unfold de_struct_legacy. apply safe_finish; [exact Hin|]. intros l; apply safe_ret; exact I.
  - destruct Hb as (_ & _ & Hr). destruct (Hr _ _ Eh) as (ds & Hds & _ & _).
    assert (Hi : forall p, In p ds -> In (fst p) vs).
    { intros p Hp. assert (In (fst p) (map fst ds)) by (apply in_map; exact Hp). rewrite (calc_disc_fst _ _ _ Hds) in H.
      apply filter_In in H. apply H. }
    assert (Hin : forall vr f, In vr vs -> In f (v_fields vr) -> mine f) by (intros vr f H1 H2; unfold mine; rewrite ?Eb; eauto).
    destruct (h_opt h).
    + unfold de_enum_opt. rewrite Hds. eapply (safe_bind _ _ (fun _ => True)).
      * unfold read_optimised_tag, read_tag. sf. apply safe_of_res; [auto|]. intros x Hx. unfold size_class in Hx.
        destruct (from_bits _); discriminate.
      * intros ts _. destruct (find_tag _ _ ds) as [[vr d]|] eqn:Ef; [|apply safe_fail].
        apply find_some in Ef. destruct Ef as [Ef1 Ef2]. cbn [fst snd] in Ef2. apply Hi in Ef1. cbn [fst] in Ef1.
        unfold de_variant_opt.
        assert (Hvb : safe (fun buf => (length buf < k)%nat \/ buf = []) (variant_buf E (v_size vr))).
        { destruct (v_size vr) as [[|n|]|]; cbn [variant_buf].
          - apply safe_ret. auto.
          - eapply (safe_bind _ _ (fun _ => True)); [apply safe_alloc|]. intros _ _. eapply safe_mono; [|apply safe_read_n]. auto.
          - unfold read_varlen_len. eapply (safe_bind _ _ (fun _ => True)); [sf|]. intros n _.
            eapply (safe_bind _ _ (fun _ => True)); [apply safe_alloc|]. intros _ _. eapply safe_mono; [|apply safe_read_n]. auto.
          - apply andb_prop in Ef2. destruct Ef2; discriminate. }
        intros bs Hk. assert (H0 : (0 < k)%nat) by lia. revert bs Hk.
        eapply safe_bind; [exact Hvb|]. intros buf Hbuf. eapply (safe_bind _ _ (fun _ => True)).
        -- apply safe_in_buf; [destruct Hbuf as [Hbuf| ->]; [exact Hbuf|exact H0]|]. apply safe_vfields. intros f Hf; eapply Hin; eassumption.
        -- intros l _. destruct (valive (scur s) vr); [apply safe_ret; exact I|]. apply safe_of_res; [auto|].
           intros x Hx. eapply Huserv; [exact Eb|exact Ef1|exact Hx].
    + unfold de_enum_legacy. rewrite Hds. eapply (safe_bind _ _ (fun _ => True)); [apply safe_u32|]. intros d _.
      destruct (find_disc d ds) as [[vr d']|] eqn:Ef; [|apply safe_fail].
      apply find_some in Ef. destruct Ef as [Ef1 _]. apply Hi in Ef1. cbn [fst] in Ef1.
      unfold de_variant_legacy. apply safe_finish; [intros f Hf; eapply Hin; eassumption|]. intros l.
      destruct (valive (scur s) vr); [apply safe_ret; exact I|]. apply safe_of_res; [auto|].
      intros x Hx. eapply Huserv; [exact Eb|exact Ef1|exact Hx].
Qed.
End Safe.

Lemma u16_consumes : forall fw bs r y, run (de_u16 fw) bs = Ok (r, y) -> (length y < length bs)%nat.
Proof.
  intros fw bs r y H. unfold de_u16, decode_u64 in H. destruct fw.
  - unfold read_n in H. cbn [bind run] in H. destruct (split_at 2 bs) as [[a b]|] eqn:E; [|discriminate].
    apply split_at_some in E. destruct E as [-> E]. apply Ok_inj in H. inversion H; subst. rewrite app_length. unfold len in E. lia.
  - rewrite run_bind, run_bind in H. destruct (run read_byte bs) as [[b r0]|e|p] eqn:E; try discriminate.
    apply run_read_byte_ok in E. subst bs. cbn [length].
    match type of H with match ?X with _ => _ end = _ => destruct X as [[x z]|e|p] eqn:E2; try discriminate end.
    apply run_length in E2. unfold narrowU in H. destruct (x <? 2 ^ 16); [|discriminate]. apply Ok_inj in H. inversion H; subst. lia.
Qed.

(** ** Decoding panics only for the listed reasons, and the call depth is bounded by the input *)

Section Total.
Variables (E : env) (P : pan -> Prop) (ok : ty -> bool).
Hypothesis W : wf_env E.
Hypothesis Hmem : e_mem E = None \/ P PMem.
Hypothesis Hok : forall t, ok t = true -> declared E t = true.
Hypothesis Hall : env_all (fun f => ty_all ok (f_ty f)) E.
Hypothesis Htime : (forall t, ok t = true -> timeless t = true) \/ P PTime.
Hypothesis Hover : no_idx_map E \/ (e_dbg E = false \/ P POverflow).
Hypothesis Huser : user_panics E P.

Lemma safe_ref : forall d n, e_sch E n <> None -> safe P d (fun _ => True) (de_ref E d n).
Proof.
  assert (HF : exists fok : field -> bool,
    (forall f, fok f = true -> ty_all ok (f_ty f) = true /\ field_ok f = true)
    /\ ((forall f, fok f = true -> f_idx f <> IMap) \/ (e_dbg E = false \/ P POverflow))
    /\ env_all fok E).
  { assert (HO : env_all field_ok E).
    { intros n s Es. pose proof (we_sch _ W _ _ Es) as Ws.
      unfold fields_all. destruct Ws as (_ & _ & Wb). destruct (s_body s) as [fs|vs]; [exact Wb|].
      destruct Wb as (_ & Wb & _). rewrite Forall_forall in Wb. apply forallb_forall. exact Wb. }
    assert (AND : forall p q, env_all p E -> env_all q E -> env_all (fun f => p f && q f) E).
    { intros p q Hp Hq n s Es. specialize (Hp n s Es). specialize (Hq n s Es). unfold fields_all in *.
      destruct (s_body s) as [fs|vs]; rewrite forallb_forall in *.
      - intros f Hf. rewrite Hp, Hq by assumption. reflexivity.
      - intros v Hv. specialize (Hp v Hv). specialize (Hq v Hv). rewrite forallb_forall in *. intros f Hf. rewrite Hp, Hq by assumption. reflexivity. }
    destruct Hover as [Ho|Ho].
    - exists (fun f => (ty_all ok (f_ty f) && field_ok f) && match f_idx f with IMap => false | _ => true end).
      repeat split.
      + apply andb_prop in H. destruct H as [H _]. apply andb_prop in H. apply H.
      + apply andb_prop in H. destruct H as [H _]. apply andb_prop in H. apply H.
      + left. intros f H Hi. rewrite Hi, andb_false_r in H. discriminate.
      + apply AND; [apply AND; assumption|exact Ho].
    - exists (fun f => ty_all ok (f_ty f) && field_ok f). repeat split; auto.
      + apply andb_prop in H. apply H.
      + apply andb_prop in H. apply H. }
  destruct HF as (fok & Hfok & Ho & Hfs).
  induction d as [|d IH]; intros n Hn bs Hb; [lia|]. cbn [de_ref].
  destruct (e_sch E n) as [s|] eqn:Es; [|congruence].
  unfold de_derived. rewrite run_bind.
  assert (H16 := safe_u16 P (S d) E bs Hb).
  destruct (run (de_u16 (e_fw E)) bs) as [[r y]|e|x] eqn:Er; [|exact I|exact H16].
  apply u16_consumes in Er.
  destruct (Huser n s Es) as [Hu1 Hu2].
  assert (Hy : (length y < d)%nat) by lia. revert y Hy Er. intros y Hy _.
  eapply (safe_body P d E Hmem (de_ref E d) IH ok Hok Htime fok Hfok Ho s (we_sch _ W _ _ Es) (Hfs _ _ Es) Hu1 Hu2); exact Hy.
Qed.
Lemma decode_panics : forall d t bs x, ty_all ok t = true -> (length bs < d)%nat ->
  run (deserialize E d t) bs = Panic x -> P x.
Proof.
  intros d t bs x Ht Hb H.
  assert (S := safe_ty P d E Hmem (de_ref E d) (safe_ref d) ok Hok Htime t Ht bs Hb).
  unfold deserialize in H. rewrite H in S. exact S.
Qed.
End Total.
