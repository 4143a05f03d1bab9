(** The front end of the derive macro.  Proofs. *)

From Verif Require Import Base BaseL Ty Typed SortL DiscL OrdL Macro MacroSpec.
From Coq Require Import List NArith ZArith Bool Lia Permutation Sorted.
Import ListNotations.
Open Scope N_scope.

Lemma mbind_done : forall A B (m : mres A) (f : A -> mres B) b, mbind m f = Done b -> exists a, m = Done a /\ f a = Done b.
Proof. intros A B [a|e] f b H; [eauto|discriminate]. Qed.
Lemma guard_done : forall b e u, guard b e = Done u -> b = true.
Proof. intros [|] e u H; [reflexivity|discriminate]. Qed.
Lemma lit_done : forall w n m, lit w n = Done m -> m = n /\ n < 2 ^ w.
Proof. intros w n m H. unfold lit in H. destruct (n <? 2 ^ w) eqn:E; [|discriminate]. apply N.ltb_lt in E. inversion H; subst. split; [reflexivity|exact E]. Qed.
Lemma once_done : forall A (o : option A) x y, once o x = Done y -> o = None /\ y = Some x.
Proof. intros A [o|] x y H; [discriminate|]. inversion H. split; reflexivity. Qed.
Lemma mall_done : forall A (f : A -> mres unit) l u, mall f l = Done u -> Forall (fun x => f x = Done tt) l.
Proof.
  intros A f. induction l as [|x l IH]; intros u H; [constructor|]. cbn [mall] in H. apply mbind_done in H.
  destruct H as ([] & H1 & H2). constructor; [exact H1|eapply IH; exact H2].
Qed.
Lemma mall_intro : forall A (f : A -> mres unit) l, Forall (fun x => f x = Done tt) l -> mall f l = Done tt.
Proof. intros A f l H. induction H; cbn [mall]; [reflexivity|]. rewrite H. exact IHForall. Qed.
Lemma mmap_done : forall A B (f : A -> mres B) l r, mmap f l = Done r -> Forall2 (fun x y => f x = Done y) l r.
Proof.
  intros A B f. induction l as [|x l IH]; intros r H; cbn [mmap] in H; [inversion H; constructor|].
  apply mbind_done in H. destruct H as (y & Hy & H). apply mbind_done in H. destruct H as (ys & Hys & H). inversion H; subst.
  constructor; [exact Hy|apply IH, Hys].
Qed.

(** ** Entries *)
Lemma estep_fold : forall l h r, mfold estep h l = Done r ->
  r = mkHent (h_opt h || h_opt (wants l)) (h_idx h || h_idx (wants l))
  /\ (forall d, In (EMap d) l \/ In (ESeq d) l -> d = true).
Proof.
  induction l as [|x l IH]; intros h r H; cbn [mfold] in H.
  - inversion H; subst. unfold wants. cbn. rewrite !orb_false_r. destruct r. split; [reflexivity|]. intros d [[]|[]].
  - apply mbind_done in H. destruct H as (h' & Hx & H). apply IH in H. destruct H as [-> Hd].
    destruct x as [|d|d|]; cbn [estep] in Hx.
    + inversion Hx; subst. cbn. split; [rewrite orb_true_r; reflexivity|]. intros d [[F|F]|[F|F]]; try discriminate; auto.
    + destruct d; [|discriminate]. inversion Hx; subst. cbn. split; [reflexivity|]. intros d [[F|F]|[F|F]]; try discriminate; try (inversion F; reflexivity); auto.
    + destruct d; [|discriminate]. inversion Hx; subst. cbn. split; [reflexivity|]. intros d [[F|F]|[F|F]]; try discriminate; try (inversion F; reflexivity); auto.
    + inversion Hx; subst. cbn. split; [rewrite orb_true_r; reflexivity|]. intros d [[F|F]|[F|F]]; try discriminate; auto.
Qed.
Lemma wants_opt : forall o, h_opt (wants o) = true <-> In EOptimised o.
Proof.
  intros o. cbn. rewrite existsb_exists. split.
  - intros (x & Hx & E). destruct x; try discriminate. exact Hx.
  - intros H. exists EOptimised. auto.
Qed.
Lemma wants_idx : forall o, h_idx (wants o) = true <-> In EIndexedStruct o.
Proof.
  intros o. cbn. rewrite existsb_exists. split.
  - intros (x & Hx & E). destruct x; try discriminate. exact Hx.
  - intros H. exists EIndexedStruct. auto.
Qed.
Lemma entry_done : forall n o h, build_history_entry n o = Done h -> h = (n, wants o) /\ n < 2 ^ 64 /\ fine o.
Proof.
  intros n o h H. unfold build_history_entry in H. apply mbind_done in H. destruct H as (m & Hm & H). apply lit_done in Hm. destruct Hm as [-> Hm].
  apply mbind_done in H. destruct H as (r & Hr & H). apply estep_fold in Hr. destruct Hr as [-> Hd].
  cbn [h_opt h_idx orb] in H.
  destruct (negb (h_opt (wants o)) && h_idx (wants o)) eqn:E; [discriminate|]. inversion H; subst. split; [reflexivity|].
  split; [exact Hm|]. split; [exact Hd|]. intros Hi. apply wants_idx in Hi. rewrite Hi in E. apply wants_opt.
  destruct (h_opt (wants o)); [reflexivity|discriminate].
Qed.
Lemma estep_intro : forall l h, (forall d, In (EMap d) l \/ In (ESeq d) l -> d = true) ->
  mfold estep h l = Done (mkHent (h_opt h || h_opt (wants l)) (h_idx h || h_idx (wants l))).
Proof.
  induction l as [|x l IH]; intros h Hd; cbn [mfold].
  - unfold wants. cbn. rewrite !orb_false_r. destruct h; reflexivity.
  - assert (Hd' : forall d, In (EMap d) l \/ In (ESeq d) l -> d = true) by (intros d [H|H]; apply Hd; [left|right]; right; exact H).
    destruct x as [|d|d|]; cbn [estep].
    + cbn [mbind]. rewrite (IH _ Hd'). cbn. rewrite orb_true_r. reflexivity.
    + rewrite (Hd d) by (left; left; reflexivity). cbn [mbind]. rewrite (IH _ Hd'). reflexivity.
    + rewrite (Hd d) by (right; left; reflexivity). cbn [mbind]. rewrite (IH _ Hd'). reflexivity.
    + cbn [mbind]. rewrite (IH _ Hd'). cbn. rewrite orb_true_r. reflexivity.
Qed.
Lemma entry_intro : forall n o, n < 2 ^ 64 -> fine o -> build_history_entry n o = Done (n, wants o).
Proof.
  intros n o Hn [Hd Hi]. unfold build_history_entry, lit. apply N.ltb_lt in Hn. rewrite Hn. cbn [mbind].
  rewrite estep_intro by exact Hd. cbn [mbind h_opt h_idx orb].
  replace (negb (h_opt (wants o)) && h_idx (wants o)) with false; [reflexivity|].
  symmetry. destruct (h_idx (wants o)) eqn:Ei; [|apply andb_false_r].
  apply wants_idx, Hi, wants_opt in Ei. rewrite Ei. reflexivity.
Qed.

(** ** Item options *)
Definition named (l : list (N * list eopt)) : list hist := map (fun p => (fst p, wants (snd p))) l.
Lemma istep_fold : forall l o r, mfold istep o l = Done r ->
  io_entries r = io_entries o ++ named (entries l)
  /\ match io_revision o with
     | Some n => numbers l = [] /\ io_revision r = Some n
     | None => (numbers l = [] /\ io_revision r = None) \/ exists n, numbers l = [n] /\ io_revision r = Some n
     end
  /\ Forall (fun p => fst p < 2 ^ 64 /\ fine (snd p)) (entries l).
Proof.
  induction l as [|x l IH]; intros o r H; cbn [mfold] in H.
  - inversion H; subst. cbn. rewrite app_nil_r. split; [reflexivity|]. split; [destruct (io_revision r); auto|constructor].
  - apply mbind_done in H. destruct H as (o' & Hx & H). apply IH in H. destruct H as (He & Hn & Hf).
    destruct o as [rv en s d k w]. destruct x as [n|n e|b|b|b|b]; cbn [istep] in Hx.
    + destruct rv; [discriminate|]. apply mbind_done in Hx. destruct Hx as (m & Hm & Hx). apply lit_done in Hm. destruct Hm as [-> _].
      inversion Hx; subst o'. cbn in *. split; [exact He|]. split; [|exact Hf]. right. exists n. destruct Hn as [Hn1 Hn2].
      split; [f_equal; exact Hn1|exact Hn2].
    + apply mbind_done in Hx. destruct Hx as (h & Hh & Hx). apply entry_done in Hh. destruct Hh as (-> & Hb & Hfi).
      inversion Hx; subst o'. cbn in *. rewrite He, <- app_assoc. split; [reflexivity|]. split; [exact Hn|]. constructor; [auto|exact Hf].
    + inversion Hx; subst o'. cbn in *. auto.
    + inversion Hx; subst o'. cbn in *. auto.
    + apply mbind_done in Hx. destruct Hx as (k' & _ & Hx). inversion Hx; subst o'. cbn in *. auto.
    + apply mbind_done in Hx. destruct Hx as (w' & _ & Hx). inversion Hx; subst o'. cbn in *. auto.
Qed.

(** ** Contiguity *)
Lemma upto_S : forall n k, map N.of_nat (seq k (S n)) = N.of_nat k :: map N.of_nat (seq (S k) n).
Proof. reflexivity. Qed.
Lemma contiguous_iff : forall l k prev, contiguous (N.of_nat k) prev l = Done tt <-> map fst l = map N.of_nat (seq k (length l)).
Proof.
  induction l as [|[n h] l IH]; intros k prev; [split; reflexivity|]. cbn [contiguous length]. rewrite upto_S. cbn [map fst].
  destruct (n =? N.of_nat k) eqn:E.
  - apply N.eqb_eq in E. subst n. replace (N.of_nat k + 1) with (N.of_nat (S k)) by lia. rewrite IH. split; [intros ->; reflexivity|].
    intros H. inversion H. reflexivity.
  - apply N.eqb_neq in E. split; [|intros H; inversion H; congruence]. intros H. exfalso.
    destruct prev as [p|]; [destruct (n =? p)|]; discriminate.
Qed.
Lemma ncmp_order : order N.compare.
Proof.
  constructor.
  - intros x y. apply N.compare_antisym.
  - intros x y z H1 H2. exact (N.lt_trans x y z H1 H2).
  - intros x y z H. apply N.compare_eq_iff in H. subst. reflexivity.
Qed.
Lemma ncmp_strict : strict_eq N.compare.
Proof. intros x y. apply N.compare_eq_iff. Qed.
Lemma seq_sorted : forall n k, StronglySorted (fun x y => (x ?= y) <> Gt) (map N.of_nat (seq k n)).
Proof.
  induction n as [|n IH]; intros k; [constructor|]. rewrite upto_S. constructor; [apply IH|].
  apply Forall_forall. intros x Hx. apply in_map_iff in Hx. destruct Hx as (i & <- & Hi). apply in_seq in Hi.
  change (N.of_nat k <= N.of_nat i). lia.
Qed.
Lemma sort_names : forall l, map fst (ssort by_number l) = ssort N.compare (map fst l).
Proof. intros l. symmetry. apply (ssort_map _ _ fst by_number N.compare). reflexivity. Qed.
Lemma sorted_upto : forall l, map fst (ssort by_number l) = upto (length l) <-> Permutation (map fst l) (upto (length l)).
Proof.
  intros l. split.
  - intros H. rewrite <- H. apply Permutation_map, Permutation_sym, ssort_perm.
  - intros H. rewrite sort_names. apply ssort_unique; [exact ncmp_order|exact ncmp_strict|apply seq_sorted|exact H].
Qed.
Lemma upto_nodup : forall n, NoDup (upto n).
Proof. intros n. unfold upto. apply FinFun.Injective_map_NoDup; [intros x y; lia|apply seq_NoDup]. Qed.
Lemma upto_nth : forall n i x, nth_error (upto n) i = Some x -> x = N.of_nat (S i) /\ (i < n)%nat.
Proof.
  intros n i x H. assert (Hi : (i < n)%nat).
  { assert (Hl : (i < length (upto n))%nat) by (apply nth_error_Some; congruence). unfold upto in Hl. rewrite map_length, seq_length in Hl. exact Hl. }
  split; [|exact Hi]. unfold upto in H. rewrite nth_error_map in H.
  assert (Hs : nth_error (seq 1 n) i = Some (S i)).
  { rewrite (nth_error_nth' _ 0%nat) by (rewrite seq_length; exact Hi). rewrite seq_nth by exact Hi. reflexivity. }
  rewrite Hs in H. cbn in H. inversion H. reflexivity.
Qed.
(** In a list numbered 1..=n the entry number is the position. *)
Lemma numbered : forall (l : list hist) n h, map fst l = upto (length l) -> (In (n, h) l <-> (1 <= n /\ nth_error (map snd l) (N.to_nat n - 1) = Some h)).
Proof.
  intros l n h Hl. split.
  - intros Hi. apply In_nth_error in Hi. destruct Hi as (i & Hi).
    assert (Hf : nth_error (map fst l) i = Some n) by (rewrite nth_error_map, Hi; reflexivity).
    rewrite Hl in Hf. apply upto_nth in Hf. destruct Hf as [-> _]. split; [lia|].
    replace (N.to_nat (N.of_nat (S i)) - 1)%nat with i by lia. rewrite nth_error_map, Hi. reflexivity.
  - intros [Hn Hi]. rewrite nth_error_map in Hi. destruct (nth_error l (N.to_nat n - 1)) as [[m g]|] eqn:E; cbn in Hi; [|discriminate Hi].
    inversion Hi; subst g.
    assert (Hf : nth_error (map fst l) (N.to_nat n - 1) = Some m) by (rewrite nth_error_map, E; reflexivity).
    rewrite Hl in Hf. apply upto_nth in Hf. destruct Hf as [Hm _]. replace m with n in E by lia. eapply nth_error_In; exact E.
Qed.

Lemma legacy_from_map : forall n k, legacy_from (N.of_nat k) n = map (fun i => (N.of_nat i, legacy)) (seq k n).
Proof.
  induction n as [|n IH]; intros k; cbn [legacy_from seq map]; [reflexivity|]. f_equal.
  replace (N.of_nat k + 1) with (N.of_nat (S k)) by lia. apply IH.
Qed.
Lemma legacy_names : forall n, map fst (legacy_from 1 n) = upto n.
Proof. intros n. change 1 with (N.of_nat 1). rewrite legacy_from_map, map_map. reflexivity. Qed.
Lemma legacy_hents : forall n, map snd (legacy_from 1 n) = repeat legacy n.
Proof.
  intros n. change 1 with (N.of_nat 1). rewrite legacy_from_map, map_map. cbn [snd]. generalize 1%nat.
  induction n; intros k; cbn; [reflexivity|]. f_equal. apply IHn.
Qed.
Lemma legacy_length : forall n, length (legacy_from 1 n) = n.
Proof. intros n. rewrite <- (map_length snd), legacy_hents. apply repeat_length. Qed.
Lemma named_fst : forall l, map fst (named l) = map fst l.
Proof. intros l. unfold named. rewrite map_map. reflexivity. Qed.
Lemma named_in : forall l n o, In (n, o) l -> In (n, wants o) (named l).
Proof. intros l n o H. unfold named. apply (in_map (fun p => (fst p, wants (snd p)))) in H. exact H. Qed.

Lemma finish_item_done : forall l o h, finish_item l = Done (o, h) ->
  map fst h = upto (length h) /\ ((h = [] /\ silent l) \/ (h <> [] /\ declares l (map snd h))).
Proof.
  intros l o h H. unfold finish_item in H. apply mbind_done in H. destruct H as (o' & Hf & H). apply mbind_done in H.
  destruct H as (h' & Hr & H). inversion H; subst o' h'. clear H. apply istep_fold in Hf. destruct Hf as (He & Hn & _).
  cbn [iopts0 io_entries io_revision app] in He, Hn. unfold resolve_history in Hr. rewrite He in Hr.
  destruct Hn as [(Hn & Hv)|(n & Hn & Hv)]; rewrite Hv in Hr.
  - destruct (named (entries l)) as [|e0 es] eqn:Ee.
    + inversion Hr; subst. split; [reflexivity|]. left. split; [reflexivity|]. split; [exact Hn|]. destruct (entries l); [reflexivity|discriminate].
    + rewrite <- Ee in *. apply mbind_done in Hr. destruct Hr as ([] & Hc & Hr). inversion Hr; subst h. clear Hr.
      change 1 with (N.of_nat 1) in Hc. apply contiguous_iff in Hc. rewrite ssort_length in Hc.
      split; [rewrite ssort_length; exact Hc|]. right. split.
      { intros F. apply (f_equal (@length hist)) in F. rewrite ssort_length, Ee in F. discriminate. }
      right. split; [exact Hn|]. split; [intros F; rewrite F in Ee; discriminate|].
      rewrite map_length, ssort_length. split.
      * apply sorted_upto in Hc. rewrite named_fst in Hc. exact Hc.
      * intros n o0 Hi. apply named_in in Hi. apply (Permutation_in _ (Permutation_sym (ssort_perm _ by_number _))) in Hi.
        apply numbered in Hi; [apply Hi|]. rewrite ssort_length. exact Hc.
  - destruct (named (entries l)) as [|e0 es] eqn:Ee; [|discriminate]. destruct (n =? 0) eqn:E0; [discriminate|]. apply N.eqb_neq in E0.
    inversion Hr; subst h. split; [rewrite legacy_length; apply legacy_names|]. right. split.
    { intros F. apply (f_equal (@length hist)) in F. rewrite legacy_length in F. cbn in F. lia. }
    left. exists n. split; [exact Hn|]. split; [destruct (entries l); [reflexivity|discriminate]|]. split; [lia|]. apply legacy_hents.
Qed.

Lemma last_upto : forall (h : list hist) d, h <> [] -> map fst h = upto (length h) -> fst (last h d) = len h.
Proof.
  intros h d Hne Hh. destruct (exists_last Hne) as (a & [n e] & ->). rewrite last_last. cbn [fst].
  rewrite map_app in Hh. cbn [map fst] in Hh. rewrite app_length in Hh. cbn [length] in Hh.
  assert (Hn : nth_error (map fst a ++ [n]) (length a) = Some n) by (rewrite nth_error_app2, map_length, PeanoNat.Nat.sub_diag by (rewrite map_length; lia); reflexivity).
  rewrite Hh in Hn. apply upto_nth in Hn. destruct Hn as [-> _]. unfold len. rewrite app_length. cbn [length]. f_equal. lia.
Qed.

(** ** What acceptance means *)
Record accepted (i : mitem) (s : schema) (x : impls) : Prop := {
  acc_hist : (silent (mi_attrs i) /\ declares (mi_args i) (s_hist s)) \/ (silent (mi_args i) /\ declares (mi_attrs i) (s_hist s));
  acc_cur : 1 <= scur s < 2 ^ 16;
  acc_body : parse_kind (mi_kind i) = Done (s_body s, s_conv s);
  acc_range : validate_revision (scur s) (s_body s) = Done tt;
  acc_opt : forall r h, sent s r = Some h -> validate_optimised (s_body s) (r, h) = Done tt /\ emit_deserialize (s_body s) (r, h) = Done tt;
  acc_ser : forall h, sent s (scur s) = Some h -> emit_serialize (s_body s) (scur s, h) = Done tt
}.
Lemma sent_numbered : forall (h : list hist) b c r e, map fst h = upto (length h) -> sent (MkSchema (map snd h) b c) r = Some e -> In (r, e) h.
Proof.
  intros h b c r e Hh Hs. unfold sent in Hs. cbn [s_hist] in Hs. destruct (r =? 0) eqn:E0; [discriminate|]. apply N.eqb_neq in E0.
  apply numbered; [exact Hh|]. split; [lia|]. replace (N.to_nat r - 1)%nat with (N.to_nat (r - 1)) by lia. exact Hs.
Qed.
Lemma expand_accepted : forall i s x, expand i = Done (s, x) -> accepted i s x.
Proof.
  intros i s x H. unfold expand in H.
  apply mbind_done in H. destruct H as ([oa ha] & Ha & H). apply mbind_done in H. destruct H as ([ot ht] & Ht & H).
  apply mbind_done in H. destruct H as ([b conv] & Hk & H). cbn [fst snd] in H.
  apply mbind_done in H. destruct H as (h & Hh & H).
  apply finish_item_done in Ha, Ht. destruct Ha as [Ha1 Ha2], Ht as [Ht1 Ht2].
  assert (Hd : map fst h = upto (length h) /\ h <> [] /\
    ((silent (mi_attrs i) /\ declares (mi_args i) (map snd h)) \/ (silent (mi_args i) /\ declares (mi_attrs i) (map snd h)))).
  { destruct ht as [|t0 ht], ha as [|a0 ha]; inversion Hh; subst h.
    - split; [exact Ha1|]. split; [discriminate|]. destruct Ha2 as [[F _]|[_ Ha2]]; [discriminate|]. destruct Ht2 as [[_ Ht2]|[F _]]; [|congruence]. auto.
    - split; [exact Ht1|]. split; [discriminate|]. destruct Ht2 as [[F _]|[_ Ht2]]; [discriminate|]. destruct Ha2 as [[_ Ha2]|[F _]]; [|congruence]. auto. }
  clear Hh Ha1 Ha2 Ht1 Ht2 ha ht. destruct Hd as (Hn & Hne & Hd).
  pose proof (last_upto h (0, mkHent false false) Hne Hn) as Hl. remember (last h (0, mkHent false false)) as e eqn:Ee. rewrite Hl in H.
  apply mbind_done in H. destruct H as (u1 & H1 & H). apply guard_done, N.ltb_lt in H1. apply mbind_done in H. destruct H as (u2 & H2 & H).
  apply guard_done, N.ltb_lt in H2. apply mbind_done in H. destruct H as ([] & H3 & H). apply mbind_done in H. destruct H as (u4 & H4 & H).
  apply mbind_done in H. destruct H as ([] & H5 & H). apply mbind_done in H. destruct H as (u6 & H6 & H). apply mbind_done in H. destruct H as (u7 & _ & H).
  inversion H; subst s x. clear H. apply mall_done in H4, H6. rewrite Forall_forall in H4, H6.
  assert (Hc : scur (MkSchema (map snd h) b conv) = len h) by (unfold scur, len; cbn [s_hist]; rewrite map_length; reflexivity).
  constructor; rewrite ?Hc; cbn [s_hist s_body s_conv].
  - exact Hd.
  - lia.
  - exact Hk.
  - exact H3.
  - intros r e' He. apply sent_numbered in He; [|exact Hn]. split; [apply (H4 _ He)|apply (H6 _ He)].
  - intros e' He. apply sent_numbered in He; [|exact Hn].
    assert (Hin : In e h).
    { subst e. destruct (exists_last Hne) as (a & z & ->). rewrite last_last. apply in_or_app. right. left. reflexivity. }
    assert (e = (len h, e')).
    { apply (NoDup_map_inj _ _ fst h); [rewrite Hn; apply upto_nodup|exact Hin|exact He|exact Hl]. }
    rewrite <- H. exact H5.
Qed.

(** ** The order of the entries *)
Definition with_entries (o : iopts) (e : list hist) : iopts :=
  mkIopts (io_revision o) e (io_ser o) (io_de o) (io_skip o) (io_walk o).
Lemma istep_others : forall o e x, match x with IEntry _ _ => False | _ => True end ->
  istep (with_entries o e) x = mbind (istep o x) (fun o' => Done (with_entries o' e)).
Proof.
  intros [rv en s d k w] e x Hx. destruct x as [n|n l|b|b|b|b]; cbn; try contradiction; try reflexivity.
  - destruct rv; [reflexivity|]. unfold lit. destruct (n <? _); reflexivity.
  - destruct k; reflexivity.
  - destruct w; reflexivity.
Qed.
Lemma istep_split : forall l o r, mfold istep o l = Done r -> exists r0, mfold istep o (others l) = Done r0
  /\ r = with_entries r0 (io_entries o ++ named (entries l)).
Proof.
  induction l as [|x l IH]; intros o r H; cbn [mfold] in H.
  - inversion H; subst. exists r. cbn. rewrite app_nil_r. split; [reflexivity|]. destruct r; reflexivity.
  - apply mbind_done in H. destruct H as (o' & Hx & H). apply IH in H. destruct H as (r0 & Hr & ->).
    destruct x as [n|n e|b|b|b|b].
    2: { cbn [istep] in Hx. destruct o as [rv en s d k w]. apply mbind_done in Hx. destruct Hx as (h & Hh & Hx). apply entry_done in Hh.
         destruct Hh as (-> & _). inversion Hx; subst o'. cbn [others filter io_entries named entries flat_map map app].
         change (mkIopts rv (en ++ [(n, wants e)]) s d k w) with (with_entries (mkIopts rv en s d k w) (en ++ [(n, wants e)])) in Hr.
         assert (G : forall l o e r, mfold istep (with_entries o e) (others l) = Done r -> exists r', mfold istep o (others l) = Done r' /\ r = with_entries r' e).
         { clear. induction l as [|x l IH]; intros o e r H.
           - cbn in *. inversion H; subst. exists o. auto.
           - destruct x; cbn [others filter] in *; try (apply IH; exact H); cbn [mfold] in *; rewrite istep_others in H by exact I;
               (destruct (istep o _) as [o'|] eqn:Es; [|discriminate H]); cbn [mbind] in *; apply IH; exact H. }
         apply G in Hr. destruct Hr as (r' & Hr & ->). exists r'. split; [exact Hr|]. unfold with_entries. cbn. rewrite <- app_assoc. reflexivity. }
    all: exists r0; cbn [others filter mfold]; rewrite Hx; cbn [mbind]; split; [exact Hr|].
    all: f_equal; f_equal; destruct o as [rv en s d k w]; cbn [istep] in Hx.
    + destruct rv; [discriminate|]. apply mbind_done in Hx. destruct Hx as (m & _ & Hx). inversion Hx; subst. reflexivity.
    + inversion Hx; subst. reflexivity.
    + inversion Hx; subst. reflexivity.
    + apply mbind_done in Hx. destruct Hx as (m & _ & Hx). inversion Hx; subst. reflexivity.
    + apply mbind_done in Hx. destruct Hx as (m & _ & Hx). inversion Hx; subst. reflexivity.
Qed.
Lemma istep_join : forall l o r0, mfold istep o (others l) = Done r0 -> Forall (fun p => fst p < 2 ^ 64 /\ fine (snd p)) (entries l) ->
  mfold istep o l = Done (with_entries r0 (io_entries o ++ named (entries l))).
Proof.
  induction l as [|x l IH]; intros o r0 H Hf.
  - cbn in *. inversion H; subst. rewrite app_nil_r. destruct r0; reflexivity.
  - destruct x as [n|n e|b|b|b|b].
    2: { cbn [others filter] in H. inversion Hf as [|? ? Hp Hf']; subst. cbn [fst snd] in Hp. destruct Hp as [Hp1 Hp2].
         cbn [mfold]. destruct o as [rv en s d k w]. cbn [istep]. rewrite (entry_intro n e Hp1 Hp2). cbn [mbind].
         assert (G : forall l o e r, mfold istep o (others l) = Done r -> mfold istep (with_entries o e) (others l) = Done (with_entries r e)).
         { clear. induction l as [|x l IH]; intros o e r H.
           - cbn in *. inversion H; subst. auto.
           - destruct x; cbn [others filter] in *; try (apply IH; exact H); cbn [mfold] in *; rewrite istep_others by exact I;
               (destruct (istep o _) as [o'|] eqn:Es; [|discriminate H]); cbn [mbind] in *; apply IH; exact H. }
         apply (G l _ (en ++ [(n, wants e)])) in H. unfold with_entries in H at 1. cbn in H. rewrite (IH _ _ H Hf').
         unfold with_entries. cbn. rewrite <- app_assoc. reflexivity. }
    all: cbn [others filter mfold] in *; destruct (istep o _) as [o'|] eqn:Es; [|discriminate H]; cbn [mbind] in *.
    all: rewrite (IH _ _ H Hf); f_equal; f_equal; f_equal; destruct o as [rv en s d k w]; cbn [istep] in Es.
    + destruct rv; [discriminate|]. apply mbind_done in Es. destruct Es as (m & _ & Hx). inversion Hx; subst. reflexivity.
    + inversion Es; subst. reflexivity.
    + inversion Es; subst. reflexivity.
    + apply mbind_done in Es. destruct Es as (m & _ & Hx). inversion Hx; subst. reflexivity.
    + apply mbind_done in Es. destruct Es as (m & _ & Hx). inversion Hx; subst. reflexivity.
Qed.
Lemma by_number_order : order by_number.
Proof. exact (order_pull _ _ fst N.compare ncmp_order). Qed.
Lemma named_perm : forall a b, Permutation a b -> Permutation (named a) (named b).
Proof. intros a b P. apply Permutation_map, P. Qed.
Lemma resolve_perm : forall r a b h, Permutation a b -> resolve_history r a = Done h -> resolve_history r b = Done h.
Proof.
  intros r a b h P H. unfold resolve_history in *. destruct r as [n|].
  - destruct a; [|discriminate]. apply Permutation_nil in P. subst b. exact H.
  - destruct a as [|x a]; [apply Permutation_nil in P; subst b; exact H|].
    destruct b as [|y b]; [apply Permutation_sym, Permutation_nil in P; discriminate|].
    remember (x :: a) as a0. remember (y :: b) as b0. apply mbind_done in H. destruct H as ([] & Hc & H).
    assert (Hc' := Hc). change 1 with (N.of_nat 1) in Hc'. apply contiguous_iff in Hc'.
    assert (Es : ssort by_number a0 = ssort by_number b0).
    { apply ssort_keyed; [exact by_number_order|exact P|]. intros u v Hu Hv Huv. apply N.compare_eq_iff in Huv.
      apply (NoDup_map_inj _ _ fst (ssort by_number a0)).
      - rewrite Hc'. apply upto_nodup.
      - apply (Permutation_in _ (Permutation_sym (ssort_perm _ _ _))), Hu.
      - apply (Permutation_in _ (Permutation_sym (ssort_perm _ _ _))), Hv.
      - exact Huv. }
    rewrite <- Es, Hc. exact H.
Qed.
Lemma finish_item_order : forall l l' o h, others l = others l' -> Permutation (entries l) (entries l') ->
  finish_item l = Done (o, h) -> exists e, finish_item l' = Done (with_entries o e, h).
Proof.
  intros l l' o h Ho P H. unfold finish_item in *. apply mbind_done in H. destruct H as (o1 & Hf & H).
  apply mbind_done in H. destruct H as (h1 & Hr & H). inversion H; subst o1 h1. clear H.
  destruct (istep_fold _ _ _ Hf) as (He & _ & Hfi). destruct (istep_split _ _ _ Hf) as (r0 & Hr0 & ->). rewrite Ho in Hr0.
  apply istep_join in Hr0; [|apply (Permutation_Forall P), Hfi]. rewrite Hr0. cbn [mbind]. exists (named (entries l')).
  cbn [with_entries io_revision io_entries iopts0 app] in *. rewrite (resolve_perm _ _ _ _ (named_perm _ _ P) Hr). reflexivity.
Qed.
Lemma expand_order : forall i i' s x, mi_kind i' = mi_kind i ->
  others (mi_args i) = others (mi_args i') -> Permutation (entries (mi_args i)) (entries (mi_args i')) ->
  others (mi_attrs i) = others (mi_attrs i') -> Permutation (entries (mi_attrs i)) (entries (mi_attrs i')) ->
  expand i = Done (s, x) -> expand i' = Done (s, x).
Proof.
  intros i i' s x Hk Ho1 P1 Ho2 P2 H. unfold expand in *. rewrite Hk.
  destruct (finish_item (mi_args i)) as [[o1 h1]|] eqn:E1; [|discriminate H]. destruct (finish_item (mi_attrs i)) as [[o2 h2]|] eqn:E2; [|discriminate H].
  destruct (finish_item_order _ _ _ _ Ho1 P1 E1) as (e1 & ->). destruct (finish_item_order _ _ _ _ Ho2 P2 E2) as (e2 & ->). exact H.
Qed.

(** Every history that is declared properly is accepted. *)
Lemma finish_item_intro : forall l h, declares l h -> (forall n, In n (numbers l) -> n < 2 ^ 64) ->
  Forall (fun x => match x with IRevision _ | IEntry _ _ => True | _ => False end) l ->
  (forall n o, In (n, o) (entries l) -> fine o) -> len h < 2 ^ 16 ->
  exists h0 e, finish_item l = Done (with_entries (mkIopts (hd_error (numbers l)) [] true true None None) e, h0) /\ map snd h0 = h
    /\ map fst h0 = upto (length h0).
Proof.
  intros l h Hd Hb Hl Hfi Hlen.
  assert (Hot : mfold istep iopts0 (others l) = Done (mkIopts (hd_error (numbers l)) [] true true None None)).
  { assert (Hn : (length (numbers l) <= 1)%nat).
    { destruct Hd as [(n & -> & _)|(-> & _)]; cbn; lia. }
    clear - Hb Hl Hn. assert (G : forall l o, Forall (fun x => match x with IRevision _ | IEntry _ _ => True | _ => False end) l ->
      (forall n, In n (numbers l) -> n < 2 ^ 64) ->
      match io_revision o with Some n => numbers l = [] | None => (length (numbers l) <= 1)%nat end ->
      mfold istep o (others l) = Done (mkIopts (match io_revision o with Some n => Some n | None => hd_error (numbers l) end) (io_entries o) (io_ser o) (io_de o) (io_skip o) (io_walk o))).
    { clear. induction l as [|x l IH]; intros o Hl Hb Hn.
      - cbn. destruct o as [[n|] en s d k w]; reflexivity.
      - inversion Hl as [|? ? Hx Hl']; subst. destruct x as [n|n e|b|b|b|b]; try contradiction.
        + destruct o as [[m|] en s d k w]; cbn [io_revision] in Hn; [discriminate|]. cbn [others filter mfold istep].
          unfold lit. rewrite (proj2 (N.ltb_lt _ _) (Hb n (or_introl eq_refl))). cbn [mbind].
          assert (Hn0 : numbers l = []).
          { cbn [numbers flat_map app length] in Hn. change (flat_map (fun x => match x with IRevision n => [n] | _ => [] end) l) with (numbers l) in Hn.
            destruct (numbers l); [reflexivity|cbn [length] in Hn; lia]. }
          rewrite IH; [reflexivity|exact Hl'|intros m Hm; rewrite Hn0 in Hm; destruct Hm|exact Hn0].
        + apply IH; assumption. }
    rewrite (G l iopts0 Hl Hb Hn). reflexivity. }
  assert (Hen : Forall (fun p => fst p < 2 ^ 64 /\ fine (snd p)) (entries l)).
  { apply Forall_forall. intros [n o] Hi. cbn [fst snd]. split; [|eapply Hfi; exact Hi].
    destruct Hd as [(m & _ & He & _)|(_ & _ & P & _)]; [rewrite He in Hi; destruct Hi|].
    apply (in_map fst) in Hi. apply (Permutation_in _ P) in Hi. cbn [fst] in Hi. apply In_nth_error in Hi. destruct Hi as (i & Hi).
    apply upto_nth in Hi. destruct Hi as [-> Hi]. unfold len in Hlen. clear - Hi Hlen.
    assert (2 ^ 16 < 2 ^ 64) by (apply N.pow_lt_mono_r; lia). remember (2 ^ 16) as A. remember (2 ^ 64) as B. clear HeqA HeqB. lia. }
  unfold finish_item. rewrite (istep_join _ _ _ Hot Hen). cbn [mbind with_entries io_revision io_entries iopts0 app].
  destruct Hd as [(n & Hn & He & Hn1 & ->)|(Hn & He & P & Hh)]; rewrite Hn; cbn [hd_error resolve_history].
  - rewrite He. cbn [named map]. replace (n =? 0) with false by (symmetry; apply N.eqb_neq; lia).
    exists (legacy_from 1 (N.to_nat n)), []. split; [reflexivity|]. split; [apply legacy_hents|]. rewrite legacy_length. apply legacy_names.
  - destruct (named (entries l)) as [|p ps] eqn:Ep; [destruct (entries l); [congruence|discriminate]|]. rewrite <- Ep.
    assert (Hle : length h = length (named (entries l))).
    { apply Permutation_length in P. unfold upto in P. rewrite !map_length, seq_length in P. unfold named. rewrite map_length. auto. }
    assert (Hup : map fst (ssort by_number (named (entries l))) = upto (length (named (entries l)))).
    { apply sorted_upto. rewrite named_fst, <- Hle. exact P. }
    assert (Hc : contiguous 1 None (ssort by_number (named (entries l))) = Done tt).
    { change 1 with (N.of_nat 1). apply contiguous_iff. rewrite ssort_length. exact Hup. }
    rewrite Hc. cbn [mbind]. exists (ssort by_number (named (entries l))), (named (entries l)). split; [reflexivity|].
    split; [|rewrite ssort_length; exact Hup].
    assert (Hsn : forall i, nth_error (map snd (ssort by_number (named (entries l)))) i = nth_error h i).
    { intros i. destruct (nth_error (ssort by_number (named (entries l))) i) as [[n g]|] eqn:E.
      - assert (Hi : In (n, g) (named (entries l))) by (apply (Permutation_in _ (ssort_perm _ by_number _)); eapply nth_error_In; exact E).
        unfold named in Hi. apply in_map_iff in Hi. destruct Hi as ([n' o] & Eq & Hi). cbn [fst snd] in Eq. inversion Eq; subst n' g. clear Eq.
        specialize (Hh _ _ Hi).
        assert (Hf : nth_error (map fst (ssort by_number (named (entries l)))) i = Some n) by (rewrite nth_error_map, E; reflexivity).
        rewrite Hup in Hf. apply upto_nth in Hf. destruct Hf as [-> _]. replace (N.to_nat (N.of_nat (S i)) - 1)%nat with i in Hh by lia.
        rewrite nth_error_map, E, Hh. reflexivity.
      - rewrite nth_error_map, E. cbn. symmetry. apply nth_error_None. apply nth_error_None in E. rewrite ssort_length in E. lia. }
    clear - Hsn. remember (map snd (ssort by_number (named (entries l)))) as a eqn:Ea. clear Ea. revert h Hsn. induction a as [|x a IH]; intros [|y h] Hs.
    + reflexivity.
    + specialize (Hs 0%nat). discriminate.
    + specialize (Hs 0%nat). discriminate.
    + f_equal; [specialize (Hs 0%nat); cbn in Hs; congruence|]. apply IH. intros i. apply (Hs (S i)).
Qed.

(** ** Options that may be given once *)
Section Once.
Variables X O A : Type.
Variable step : O -> X -> mres O.
Variable get : O -> option A.
Variable sel : X -> option A.
Hypothesis once_step : forall o x o', step o x = Done o' ->
  match sel x with Some a => get o = None /\ get o' = Some a | None => get o' = get o end.
Lemma once_fold : forall l o r, mfold step o l = Done r ->
  match get o with
  | Some a => get r = Some a /\ forall x, In x l -> sel x = None
  | None => forall a, get r = Some a <-> exists x, In x l /\ sel x = Some a
  end.
Proof.
  induction l as [|x l IH]; intros o r H; cbn [mfold] in H.
  - inversion H; subst. destruct (get r) as [a|] eqn:E; [split; [reflexivity|intros x []]|]. intros a. split; [discriminate|intros (x & [] & _)].
  - apply mbind_done in H. destruct H as (o' & Hx & H). apply IH in H. apply once_step in Hx.
    destruct (sel x) as [a|] eqn:Es.
    + destruct Hx as [-> Hx]. rewrite Hx in H. destruct H as [-> H]. intros b. split.
      * intros Hb. inversion Hb; subst. exists x. split; [left; reflexivity|exact Es].
      * intros (y & [<-|Hy] & Hb); [congruence|]. rewrite (H y Hy) in Hb. discriminate.
    + rewrite Hx in H. destruct (get o) as [a|].
      * destruct H as [H1 H2]. split; [exact H1|]. intros y [<-|Hy]; [exact Es|apply H2, Hy].
      * intros b. rewrite H. split; intros (y & Hy & Hb); exists y.
        -- split; [right; exact Hy|exact Hb].
        -- destruct Hy as [<-|Hy]; [congruence|]. split; assumption.
Qed.
Lemma once_unique : forall l o r, get o = None -> mfold step o l = Done r -> forall x y a b,
  In x l -> In y l -> sel x = Some a -> sel y = Some b -> a = b.
Proof.
  intros l o r Ho H x y a b Hx Hy Ha Hb. apply once_fold in H. rewrite Ho in H.
  assert (H1 : get r = Some a) by (apply H; eauto). assert (H2 : get r = Some b) by (apply H; eauto). congruence.
Qed.
End Once.
Definition flag (b : bool) : option unit := if b then Some tt else None.
Definition noted (i : fidx) : option fidx := match i with INone => None | _ => Some i end.

Lemma fstep_start : forall o x o', fstep o x = Done o' ->
  match (match x with FStart n => Some n | _ => None end) with Some a => fo_start o = None /\ fo_start o' = Some a | None => fo_start o' = fo_start o end.
Proof.
  intros [s e c d i fx sp] x o' H. destruct x as [n|n|f|f|j| |]; cbn [fstep] in H.
  - apply mbind_done in H. destruct H as (m & Hm & H). apply lit_done in Hm. destruct Hm as [-> _].
    apply mbind_done in H. destruct H as (y & Hy & H). apply once_done in Hy. destruct Hy as [-> ->]. inversion H; subst. split; reflexivity.
  - apply mbind_done in H. destruct H as (m & Hm & H). apply mbind_done in H. destruct H as (y & Hy & H). inversion H; subst. reflexivity.
  - apply mbind_done in H. destruct H as (y & Hy & H). inversion H; subst. reflexivity.
  - apply mbind_done in H. destruct H as (y & Hy & H). inversion H; subst. reflexivity.
  - destruct i; inversion H; subst; reflexivity.
  - destruct fx; inversion H; subst; reflexivity.
  - destruct sp; inversion H; subst; reflexivity.
Qed.
Lemma fstep_end : forall o x o', fstep o x = Done o' ->
  match (match x with FEnd n => Some n | _ => None end) with Some a => fo_end o = None /\ fo_end o' = Some a | None => fo_end o' = fo_end o end.
Proof.
  intros [s e c d i fx sp] x o' H. destruct x as [n|n|f|f|j| |]; cbn [fstep] in H.
  - apply mbind_done in H. destruct H as (m & Hm & H). apply mbind_done in H. destruct H as (y & Hy & H). inversion H; subst. reflexivity.
  - apply mbind_done in H. destruct H as (m & Hm & H). apply lit_done in Hm. destruct Hm as [-> _].
    apply mbind_done in H. destruct H as (y & Hy & H). apply once_done in Hy. destruct Hy as [-> ->]. inversion H; subst. split; reflexivity.
  - apply mbind_done in H. destruct H as (y & Hy & H). inversion H; subst. reflexivity.
  - apply mbind_done in H. destruct H as (y & Hy & H). inversion H; subst. reflexivity.
  - destruct i; inversion H; subst; reflexivity.
  - destruct fx; inversion H; subst; reflexivity.
  - destruct sp; inversion H; subst; reflexivity.
Qed.
Lemma fstep_convert : forall o x o', fstep o x = Done o' ->
  match (match x with FConvert n => Some n | _ => None end) with Some a => fo_convert o = None /\ fo_convert o' = Some a | None => fo_convert o' = fo_convert o end.
Proof.
  intros [s e c d i fx sp] x o' H. destruct x as [n|n|f|f|j| |]; cbn [fstep] in H.
  1-2: apply mbind_done in H; destruct H as (m & Hm & H); apply mbind_done in H; destruct H as (y & Hy & H); inversion H; subst; reflexivity.
  - apply mbind_done in H. destruct H as (y & Hy & H). apply once_done in Hy. destruct Hy as [-> ->]. inversion H; subst. split; reflexivity.
  - apply mbind_done in H. destruct H as (y & Hy & H). inversion H; subst. reflexivity.
  - destruct i; inversion H; subst; reflexivity.
  - destruct fx; inversion H; subst; reflexivity.
  - destruct sp; inversion H; subst; reflexivity.
Qed.
Lemma fstep_default : forall o x o', fstep o x = Done o' ->
  match (match x with FDefault n => Some n | _ => None end) with Some a => fo_default o = None /\ fo_default o' = Some a | None => fo_default o' = fo_default o end.
Proof.
  intros [s e c d i fx sp] x o' H. destruct x as [n|n|f|f|j| |]; cbn [fstep] in H.
  1-2: apply mbind_done in H; destruct H as (m & Hm & H); apply mbind_done in H; destruct H as (y & Hy & H); inversion H; subst; reflexivity.
  - apply mbind_done in H. destruct H as (y & Hy & H). inversion H; subst. reflexivity.
  - apply mbind_done in H. destruct H as (y & Hy & H). apply once_done in Hy. destruct Hy as [-> ->]. inversion H; subst. split; reflexivity.
  - destruct i; inversion H; subst; reflexivity.
  - destruct fx; inversion H; subst; reflexivity.
  - destruct sp; inversion H; subst; reflexivity.
Qed.
Lemma fstep_idx : forall o x o', fstep o x = Done o' ->
  match (match x with FIndexed n => noted n | _ => None end) with Some a => noted (fo_idx o) = None /\ noted (fo_idx o') = Some a | None => noted (fo_idx o') = noted (fo_idx o) end.
Proof.
  intros [s e c d i fx sp] x o' H. destruct x as [n|n|f|f|j| |]; cbn [fstep] in H.
  1-2: apply mbind_done in H; destruct H as (m & Hm & H); apply mbind_done in H; destruct H as (y & Hy & H); inversion H; subst; reflexivity.
  1-2: apply mbind_done in H; destruct H as (y & Hy & H); inversion H; subst; reflexivity.
  - destruct i; inversion H; subst; destruct j; cbn; auto.
  - destruct fx; inversion H; subst; reflexivity.
  - destruct sp; inversion H; subst; reflexivity.
Qed.
Lemma fstep_fixed : forall o x o', fstep o x = Done o' ->
  match (match x with FFixed => Some tt | _ => None end) with Some a => flag (fo_fixed o) = None /\ flag (fo_fixed o') = Some a | None => flag (fo_fixed o') = flag (fo_fixed o) end.
Proof.
  intros [s e c d i fx sp] x o' H. destruct x as [n|n|f|f|j| |]; cbn [fstep] in H.
  1-2: apply mbind_done in H; destruct H as (m & Hm & H); apply mbind_done in H; destruct H as (y & Hy & H); inversion H; subst; reflexivity.
  1-2: apply mbind_done in H; destruct H as (y & Hy & H); inversion H; subst; reflexivity.
  - destruct i; inversion H; subst; reflexivity.
  - destruct fx; inversion H; subst; auto.
  - destruct sp; inversion H; subst; reflexivity.
Qed.
Lemma fstep_spec : forall o x o', fstep o x = Done o' ->
  match (match x with FSpecialised => Some tt | _ => None end) with Some a => flag (fo_spec o) = None /\ flag (fo_spec o') = Some a | None => flag (fo_spec o') = flag (fo_spec o) end.
Proof.
  intros [s e c d i fx sp] x o' H. destruct x as [n|n|f|f|j| |]; cbn [fstep] in H.
  1-2: apply mbind_done in H; destruct H as (m & Hm & H); apply mbind_done in H; destruct H as (y & Hy & H); inversion H; subst; reflexivity.
  1-2: apply mbind_done in H; destruct H as (y & Hy & H); inversion H; subst; reflexivity.
  - destruct i; inversion H; subst; reflexivity.
  - destruct fx; inversion H; subst; reflexivity.
  - destruct sp; inversion H; subst; auto.
Qed.
Lemma finish_field_done : forall l o, finish_field l = Done o ->
  (forall n, fo_start o = Some n <-> In (FStart n) l) /\ (forall n, fo_end o = Some n <-> In (FEnd n) l)
  /\ (forall c, fo_convert o = Some c <-> In (FConvert c) l) /\ (forall d, fo_default o = Some d <-> In (FDefault d) l)
  /\ (forall i, i <> INone -> (fo_idx o = i <-> In (FIndexed i) l))
  /\ (fo_fixed o = true <-> In FFixed l) /\ (fo_spec o = true <-> In FSpecialised l)
  /\ (fo_end o <> None -> fo_convert o <> None).
Proof.
  intros l o H. unfold finish_field in H. apply mbind_done in H. destruct H as (o' & H & Hc).
  assert (o' = o /\ (fo_end o <> None -> fo_convert o <> None)) as [-> Hend].
  { destruct (fo_end o') eqn:Ee, (fo_convert o') eqn:Ec; inversion Hc; subst; split; try reflexivity; rewrite ?Ee, ?Ec; congruence. }
  repeat split.
  1-2: pose proof (once_fold _ _ _ _ fo_start _ fstep_start _ _ _ H n) as G; cbn in G.
  - intros E. apply G in E. destruct E as (x & Hx & E). destruct x; inversion E; subst; exact Hx.
  - intros E. apply G. exists (FStart n). auto.
  - pose proof (once_fold _ _ _ _ fo_end _ fstep_end _ _ _ H n) as G; cbn in G.
    intros E. apply G in E. destruct E as (x & Hx & E). destruct x; inversion E; subst; exact Hx.
  - pose proof (once_fold _ _ _ _ fo_end _ fstep_end _ _ _ H n) as G; cbn in G. intros E. apply G. exists (FEnd n). auto.
  - pose proof (once_fold _ _ _ _ fo_convert _ fstep_convert _ _ _ H c) as G; cbn in G.
    intros E. apply G in E. destruct E as (x & Hx & E). destruct x; inversion E; subst; exact Hx.
  - pose proof (once_fold _ _ _ _ fo_convert _ fstep_convert _ _ _ H c) as G; cbn in G. intros E. apply G. exists (FConvert c). auto.
  - pose proof (once_fold _ _ _ _ fo_default _ fstep_default _ _ _ H d) as G; cbn in G.
    intros E. apply G in E. destruct E as (x & Hx & E). destruct x; inversion E; subst; exact Hx.
  - pose proof (once_fold _ _ _ _ fo_default _ fstep_default _ _ _ H d) as G; cbn in G. intros E. apply G. exists (FDefault d). auto.
  - pose proof (once_fold _ _ _ _ (fun o => noted (fo_idx o)) _ fstep_idx _ _ _ H i) as G; cbn in G.
    intros E. assert (G' : noted (fo_idx o) = Some i) by (rewrite E; destruct i; [congruence|reflexivity|reflexivity|reflexivity]).
    apply G in G'. destruct G' as (x & Hx & Ex). destruct x as [| | | |j| |]; try discriminate. destruct j; inversion Ex; subst; exact Hx.
  - pose proof (once_fold _ _ _ _ (fun o => noted (fo_idx o)) _ fstep_idx _ _ _ H i) as G; cbn in G.
    intros E. assert (G' : noted (fo_idx o) = Some i) by (apply G; exists (FIndexed i); split; [exact E|destruct i; [congruence|reflexivity|reflexivity|reflexivity]]).
    destruct (fo_idx o); inversion G'; reflexivity.
  - pose proof (once_fold _ _ _ _ (fun o => flag (fo_fixed o)) _ fstep_fixed _ _ _ H tt) as G; cbn in G.
    intros E. rewrite E in G. destruct (proj1 G eq_refl) as (x & Hx & Ex). destruct x; try discriminate. exact Hx.
  - pose proof (once_fold _ _ _ _ (fun o => flag (fo_fixed o)) _ fstep_fixed _ _ _ H tt) as G; cbn in G.
    intros E. destruct (fo_fixed o); [reflexivity|]. discriminate (proj2 G (ex_intro _ FFixed (conj E eq_refl))).
  - pose proof (once_fold _ _ _ _ (fun o => flag (fo_spec o)) _ fstep_spec _ _ _ H tt) as G; cbn in G.
    intros E. rewrite E in G. destruct (proj1 G eq_refl) as (x & Hx & Ex). destruct x; try discriminate. exact Hx.
  - pose proof (once_fold _ _ _ _ (fun o => flag (fo_spec o)) _ fstep_spec _ _ _ H tt) as G; cbn in G.
    intros E. destruct (fo_spec o); [reflexivity|]. discriminate (proj2 G (ex_intro _ FSpecialised (conj E eq_refl))).
  - exact Hend.
Qed.

Lemma parse_field_made : forall m f c, parse_field m = Done (f, c) -> field_made m f
  /\ (c = true <-> exists g, In (FConvert g) (mf_opts m)) /\ (forall n, In (FEnd n) (mf_opts m) -> exists g, In (FConvert g) (mf_opts m)).
Proof.
  intros m f c H. unfold parse_field in H. apply mbind_done in H. destruct H as (o & Ho & H). inversion H; subst f c. clear H.
  apply finish_field_done in Ho. destruct Ho as (H1 & H2 & H3 & H4 & H5 & H6 & H7 & H8). split; [|split].
  - unfold field_made, field_of. cbn [f_ty f_start f_end f_default f_convert f_fixed f_spec f_idx]. split; [reflexivity|]. split; [|split; [|split; [|split; [|split; [exact H6|split; [exact H7|exact H5]]]]]].
    + intros r. unfold falive, exists_at, field_lives. cbn [f_start f_end]. rewrite andb_true_iff, N.leb_le. split.
      * intros [Ha Hb]. split.
        -- intros n Hn. apply H1 in Hn. rewrite Hn in Ha. exact Ha.
        -- intros n Hn. apply H2 in Hn. rewrite Hn in Hb. apply N.ltb_lt in Hb. exact Hb.
      * intros [Ha Hb]. split.
        -- destruct (fo_start o) as [n|] eqn:E; cbn; [|lia]. apply Ha, H1. reflexivity.
        -- destruct (fo_end o) as [n|] eqn:E; [|reflexivity]. apply N.ltb_lt, Hb, H2. reflexivity.
    + intros d Hd. apply H4 in Hd. rewrite Hd. reflexivity.
    + intros Hd. destruct (fo_default o) as [d|] eqn:E; [|reflexivity]. exfalso. apply (Hd d), H4. reflexivity.
    + intros d Hd. apply H3 in Hd. rewrite Hd. reflexivity.
  - destruct (fo_convert o) as [g|] eqn:E.
    + split; [|reflexivity]. intros _. exists g. apply H3. reflexivity.
    + split; [discriminate|]. intros (g & Hg). apply H3 in Hg. discriminate.
  - intros n Hn. apply H2 in Hn. destruct (fo_convert o) as [g|] eqn:E; [exists g; apply H3; reflexivity|]. exfalso. apply H8; [congruence|reflexivity].
Qed.

(** ** Overrides *)
Lemma mfold_app : forall A B (f : B -> A -> mres B) l l' b, mfold f b (l ++ l') = mbind (mfold f b l) (fun b' => mfold f b' l').
Proof. intros A B f. induction l as [|x l IH]; intros l' b; cbn; [reflexivity|]. destruct (f b x); cbn; [apply IH|reflexivity]. Qed.
Lemma ostep_disc : forall o x o', ostep o x = Done o' ->
  match (match x with ODiscriminant n => Some n | _ => None end) with Some a => fst o = None /\ fst o' = Some a | None => fst o' = fst o end.
Proof.
  intros [d r] x o' H. destruct x as [n|n]; cbn [ostep fst snd] in H; apply mbind_done in H; destruct H as (y & Hy & H);
    apply mbind_done in Hy; destruct Hy as (m & Hm & Hy); apply lit_done in Hm; destruct Hm as [-> _].
  - destruct d; [discriminate|]. inversion Hy; subst. inversion H; subst. split; reflexivity.
  - inversion H; subst. reflexivity.
Qed.
Lemma ostep_rev : forall o x o', ostep o x = Done o' ->
  match (match x with ORevision n => Some n | _ => None end) with Some a => snd o = None /\ snd o' = Some a | None => snd o' = snd o end.
Proof.
  intros [d r] x o' H. destruct x as [n|n]; cbn [ostep fst snd] in H; apply mbind_done in H; destruct H as (y & Hy & H);
    apply mbind_done in Hy; destruct Hy as (m & Hm & Hy); apply lit_done in Hm; destruct Hm as [-> _].
  - inversion H; subst. reflexivity.
  - destruct r; [discriminate|]. inversion Hy; subst. inversion H; subst. split; reflexivity.
Qed.
Lemma ostep_bound : forall l o r n, mfold ostep o l = Done r -> In (ODiscriminant n) l -> n < 2 ^ 32.
Proof.
  induction l as [|x l IH]; intros o r n H Hn; [destruct Hn|]. cbn [mfold] in H. apply mbind_done in H. destruct H as (o' & Hx & H).
  destruct Hn as [->|Hn]; [|eapply IH; eassumption]. cbn [ostep] in Hx. apply mbind_done in Hx. destruct Hx as (y & Hy & _).
  apply mbind_done in Hy. destruct Hy as (m & Hm & _). apply lit_done in Hm. apply Hm.
Qed.
Lemma ostep_fold : forall l d r, mfold ostep (None, None) l = Done (d, r) ->
  (forall n, d = Some n <-> In (ODiscriminant n) l) /\ (forall n, r = Some n <-> In (ORevision n) l).
Proof.
  intros l d r H. split; intros n.
  - pose proof (once_fold _ _ _ _ fst _ ostep_disc _ _ _ H n) as G. cbn [fst] in G. rewrite G. split.
    + intros (x & Hx & E). destruct x; inversion E; subst. exact Hx.
    + intros Hn. eauto.
  - pose proof (once_fold _ _ _ _ snd _ ostep_rev _ _ _ H n) as G. cbn [snd] in G. rewrite G. split.
    + intros (x & Hx & E). destruct x; inversion E; subst. exact Hx.
    + intros Hn. eauto.
Qed.
Lemma vstep_over : forall o x o', vstep o x = Done o' ->
  match x with
  | VOverride l => exists d r, mfold ostep (None, None) l = Done (d, Some r) /\ vo_over o' = (r, d) :: vo_over o
  | _ => vo_over o' = vo_over o
  end.
Proof.
  intros [s e c d f ov z] x o' H. destruct x as [n|n|g| | |l|z']; cbn [vstep] in H.
  1-2: apply mbind_done in H; destruct H as (m & Hm & H); apply mbind_done in H; destruct H as (y & Hy & H); inversion H; subst; reflexivity.
  - apply mbind_done in H; destruct H as (y & Hy & H); inversion H; subst; reflexivity.
  - destruct d; inversion H; subst; reflexivity.
  - destruct f; inversion H; subst; reflexivity.
  - apply mbind_done in H. destruct H as ([d' r'] & Hl & H). cbn [fst snd] in H. destruct r' as [r'|]; [|discriminate]. inversion H; subst. eauto.
  - apply mbind_done in H. destruct H as (y & Hy & H). destruct z' as [|n|]; [|destruct (n <? 256)|]; inversion H; subst; reflexivity.
Qed.
Lemma app_snoc_inv : forall A (l a b : list A) x y, l ++ [x] = a ++ y :: b ->
  (b = [] /\ a = l /\ x = y) \/ (exists b', b = b' ++ [x] /\ l = a ++ y :: b').
Proof.
  intros A l a b x y H. destruct b as [|z b] using rev_ind.
  - left. apply app_inj_tail in H. destruct H as [-> ->]. auto.
  - right. clear IHb. exists b. rewrite app_comm_cons, app_assoc in H. apply app_inj_tail in H. destruct H as [-> ->]. auto.
Qed.
Lemma vstep_overs : forall l o, mfold vstep vopts0 l = Done o -> forall r d, over_at (vo_over o) r = Some d <-> overrides_to l r d.
Proof.
  induction l as [|x l IH] using rev_ind; intros o H r d.
  - cbn in H. inversion H; subst. cbn. split; [discriminate|]. intros (a & b & c & E & _). destruct a; discriminate.
  - rewrite mfold_app in H. apply mbind_done in H. destruct H as (o' & Hl & H). cbn [mfold] in H.
    apply mbind_done in H. destruct H as (o2 & Hx & H). inversion H; subst o2. clear H. specialize (IH _ Hl r d). apply vstep_over in Hx.
    assert (Hkeep : (forall l', x = VOverride l' -> ~ In (ORevision r) l') -> (overrides_to (l ++ [x]) r d <-> overrides_to l r d)).
    { intros Hn. split.
      - intros (a & b & c & E & Hr & Hd & Hc). apply app_snoc_inv in E. destruct E as [(-> & -> & ->)|(c' & -> & ->)].
        + exfalso. apply (Hn b eq_refl Hr).
        + exists a, b, c'. repeat split; auto. intros o2 Ho2. apply Hc, in_or_app. left. exact Ho2.
      - intros (a & b & c & -> & Hr & Hd & Hc). exists a, b, (c ++ [x]). rewrite <- app_assoc. cbn. repeat split; auto.
        intros o2 Ho2. apply in_app_or in Ho2. destruct Ho2 as [Ho2|[->|[]]]; [apply Hc, Ho2|apply Hn; reflexivity]. }
    destruct x as [n|n|g| | |l'|z']; try (rewrite Hx, Hkeep by congruence; exact IH).
    destruct Hx as (d' & r' & Hf & Ho). rewrite Ho. apply ostep_fold in Hf. destruct Hf as [Hfd Hfr].
    unfold over_at. cbn [find fst]. destruct (r' =? r) eqn:Er.
    + apply N.eqb_eq in Er. subst r'. cbn [snd]. rewrite Hfd. split.
      * intros Hd. exists l, l', []. repeat split; auto. apply Hfr. reflexivity.
      * intros (a & b & c & E & Hr & Hd & Hc). apply app_snoc_inv in E. destruct E as [(-> & -> & Eq)|(c' & -> & ->)].
        -- inversion Eq; subst. exact Hd.
        -- exfalso. apply (Hc l'); [apply in_or_app; right; left; reflexivity|apply Hfr; reflexivity].
    + fold (over_at (vo_over o') r). rewrite IH. symmetry. apply Hkeep. intros l2 E2. inversion E2; subst l2. intros Hr. apply Hfr in Hr. inversion Hr; subst.
      rewrite N.eqb_refl in Er. discriminate.
Qed.
Lemma over_bound : forall l o r d, mfold vstep vopts0 l = Done o -> over_at (vo_over o) r = Some d -> d < 2 ^ 32.
Proof.
  intros l o r d H Ho. apply (vstep_overs _ _ H) in Ho. destruct Ho as (a & b & c & -> & _ & Hd & _).
  rewrite mfold_app in H. apply mbind_done in H. destruct H as (o1 & _ & H). cbn [mfold] in H. apply mbind_done in H. destruct H as (o2 & H & _).
  apply vstep_over in H. destruct H as (d' & r' & H & _). eapply ostep_bound; eassumption.
Qed.

(** ** Variants *)
Lemma vstep_start : forall o x o', vstep o x = Done o' ->
  match (match x with VStart n => Some n | _ => None end) with Some a => vo_start o = None /\ vo_start o' = Some a | None => vo_start o' = vo_start o end.
Proof.
  intros [s e c d f ov z] x o' H. destruct x as [n|n|g| | |l|z']; cbn [vstep] in H.
  - apply mbind_done in H. destruct H as (m & Hm & H). apply lit_done in Hm. destruct Hm as [-> _].
    apply mbind_done in H. destruct H as (y & Hy & H). apply once_done in Hy. destruct Hy as [-> ->]. inversion H; subst. split; reflexivity.
  - apply mbind_done in H; destruct H as (m & Hm & H); apply mbind_done in H; destruct H as (y & Hy & H); inversion H; subst; reflexivity.
  - apply mbind_done in H; destruct H as (y & Hy & H); inversion H; subst; reflexivity.
  - destruct d; inversion H; subst; reflexivity.
  - destruct f; inversion H; subst; reflexivity.
  - apply mbind_done in H. destruct H as ([d' r'] & Hl & H). cbn [fst snd] in H. destruct r' as [r'|]; [|discriminate]. inversion H; subst. reflexivity.
  - apply mbind_done in H. destruct H as (y & Hy & H). destruct z' as [|n|]; [|destruct (n <? 256)|]; inversion H; subst; reflexivity.
Qed.
Lemma vstep_end : forall o x o', vstep o x = Done o' ->
  match (match x with VEnd n => Some n | _ => None end) with Some a => vo_end o = None /\ vo_end o' = Some a | None => vo_end o' = vo_end o end.
Proof.
  intros [s e c d f ov z] x o' H. destruct x as [n|n|g| | |l|z']; cbn [vstep] in H.
  - apply mbind_done in H; destruct H as (m & Hm & H); apply mbind_done in H; destruct H as (y & Hy & H); inversion H; subst; reflexivity.
  - apply mbind_done in H. destruct H as (m & Hm & H). apply lit_done in Hm. destruct Hm as [-> _].
    apply mbind_done in H. destruct H as (y & Hy & H). apply once_done in Hy. destruct Hy as [-> ->]. inversion H; subst. split; reflexivity.
  - apply mbind_done in H; destruct H as (y & Hy & H); inversion H; subst; reflexivity.
  - destruct d; inversion H; subst; reflexivity.
  - destruct f; inversion H; subst; reflexivity.
  - apply mbind_done in H. destruct H as ([d' r'] & Hl & H). cbn [fst snd] in H. destruct r' as [r'|]; [|discriminate]. inversion H; subst. reflexivity.
  - apply mbind_done in H. destruct H as (y & Hy & H). destruct z' as [|n|]; [|destruct (n <? 256)|]; inversion H; subst; reflexivity.
Qed.
Lemma vstep_convert : forall o x o', vstep o x = Done o' ->
  match (match x with VConvert n => Some n | _ => None end) with Some a => vo_convert o = None /\ vo_convert o' = Some a | None => vo_convert o' = vo_convert o end.
Proof.
  intros [s e c d f ov z] x o' H. destruct x as [n|n|g| | |l|z']; cbn [vstep] in H.
  1-2: apply mbind_done in H; destruct H as (m & Hm & H); apply mbind_done in H; destruct H as (y & Hy & H); inversion H; subst; reflexivity.
  - apply mbind_done in H. destruct H as (y & Hy & H). apply once_done in Hy. destruct Hy as [-> ->]. inversion H; subst. split; reflexivity.
  - destruct d; inversion H; subst; reflexivity.
  - destruct f; inversion H; subst; reflexivity.
  - apply mbind_done in H. destruct H as ([d' r'] & Hl & H). cbn [fst snd] in H. destruct r' as [r'|]; [|discriminate]. inversion H; subst. reflexivity.
  - apply mbind_done in H. destruct H as (y & Hy & H). destruct z' as [|n|]; [|destruct (n <? 256)|]; inversion H; subst; reflexivity.
Qed.
Lemma vstep_size : forall o x o', vstep o x = Done o' ->
  match (match x with VSize n => Some n | _ => None end) with Some a => vo_size o = None /\ vo_size o' = Some a | None => vo_size o' = vo_size o end.
Proof.
  intros [s e c d f ov z] x o' H. destruct x as [n|n|g| | |l|z']; cbn [vstep] in H.
  1-2: apply mbind_done in H; destruct H as (m & Hm & H); apply mbind_done in H; destruct H as (y & Hy & H); inversion H; subst; reflexivity.
  - apply mbind_done in H; destruct H as (y & Hy & H); inversion H; subst; reflexivity.
  - destruct d; inversion H; subst; reflexivity.
  - destruct f; inversion H; subst; reflexivity.
  - apply mbind_done in H. destruct H as ([d' r'] & Hl & H). cbn [fst snd] in H. destruct r' as [r'|]; [|discriminate]. inversion H; subst. reflexivity.
  - apply mbind_done in H. destruct H as (y & Hy & H). apply once_done in Hy. destruct Hy as [-> ->].
    destruct z' as [|n|]; [|destruct (n <? 256)|]; inversion H; subst; split; reflexivity.
Qed.
Lemma size_bound : forall l o n, mfold vstep vopts0 l = Done o -> In (VSize (SFixed n)) l -> n < 256.
Proof.
  intros l o n H Hi. apply in_split in Hi. destruct Hi as (a & b & ->). rewrite mfold_app in H. apply mbind_done in H. destruct H as ([s e c d f ov z] & _ & H).
  cbn [mfold] in H. apply mbind_done in H. destruct H as (o2 & H & _). cbn [vstep] in H. apply mbind_done in H. destruct H as (y & _ & H).
  destruct (n <? 256) eqn:E; [apply N.ltb_lt, E|discriminate].
Qed.
Lemma Forall2_map_r : forall A B C (R : A -> C -> Prop) (g : B -> C) l l', Forall2 (fun x y => R x (g y)) l l' -> Forall2 R l (map g l').
Proof. intros A B C R g l l' H. induction H; cbn; constructor; auto. Qed.
Lemma Forall2_imp : forall A B (R S : A -> B -> Prop) l l', (forall x y, In x l -> In y l' -> R x y -> S x y) -> Forall2 R l l' -> Forall2 S l l'.
Proof.
  intros A B R S l l' Hi H. induction H; constructor.
  - apply Hi; [left; reflexivity|left; reflexivity|assumption].
  - apply IHForall2. intros a b Ha Hb. apply Hi; right; assumption.
Qed.
Lemma fields_made : forall ms l, mmap parse_field ms = Done l -> Forall2 field_made ms (map fst l)
  /\ (existsb snd l = true <-> exists m c, In m ms /\ In (FConvert c) (mf_opts m))
  /\ (forall m n, In m ms -> In (FEnd n) (mf_opts m) -> exists g, In (FConvert g) (mf_opts m)).
Proof.
  intros ms l H. apply mmap_done in H. induction H as [|m [f c] ms l Hm H (I1 & I2 & I3)].
  - split; [constructor|]. split; [split; [discriminate|intros (m & c & [] & _)]|]. intros m n [].
  - apply parse_field_made in Hm. destruct Hm as (M1 & M2 & M3). split; [|split].
    + cbn. constructor; assumption.
    + cbn [existsb snd]. rewrite orb_true_iff, M2, I2. split.
      * intros [(g & Hg)|(m' & g & Hi & Hg)]; [exists m, g; cbn; auto|exists m', g; cbn; auto].
      * intros (m' & g & [<-|Hi] & Hg); [left; eauto|right; eauto].
    + intros m' n [<-|Hi] Hn; [eapply M3, Hn|eapply I3; eassumption].
Qed.
Lemma parse_variant_made : forall m v c, parse_variant m = Done (v, c) -> variant_made m v
  /\ (c = true <-> (exists g, In (VConvert g) (mv_opts m)) \/ exists f g, In f (mv_fields m) /\ In (FConvert g) (mf_opts f))
  /\ (forall n, In (VEnd n) (mv_opts m) -> exists g, In (VConvert g) (mv_opts m))
  /\ (forall f n, In f (mv_fields m) -> In (FEnd n) (mf_opts f) -> exists g, In (FConvert g) (mf_opts f))
  /\ (forall r d, v_over v r = Some d -> d < 2 ^ 32) /\ (forall n, v_size v = Some (SFixed n) -> n < 256).
Proof.
  intros m v c H. unfold parse_variant in H. apply mbind_done in H. destruct H as (o & Ho & H). apply mbind_done in H. destruct H as (l & Hl & H).
  inversion H; subst v c. clear H. apply fields_made in Hl. destruct Hl as (L1 & L2 & L3).
  unfold finish_variant in Ho. apply mbind_done in Ho. destruct Ho as (o' & Ho & Hc).
  assert (o' = o /\ (vo_end o <> None -> vo_convert o <> None)) as [-> Hend].
  { destruct (vo_end o') eqn:Ee, (vo_convert o') eqn:Ec; inversion Hc; subst; split; try reflexivity; rewrite ?Ee, ?Ec; congruence. }
  assert (H1 : forall n, vo_start o = Some n <-> In (VStart n) (mv_opts m)).
  { intros n. pose proof (once_fold _ _ _ _ vo_start _ vstep_start _ _ _ Ho n) as G; cbn in G. rewrite G. split; [|eauto].
    intros (x & Hx & E). destruct x; inversion E; subst; exact Hx. }
  assert (H2 : forall n, vo_end o = Some n <-> In (VEnd n) (mv_opts m)).
  { intros n. pose proof (once_fold _ _ _ _ vo_end _ vstep_end _ _ _ Ho n) as G; cbn in G. rewrite G. split; [|eauto].
    intros (x & Hx & E). destruct x; inversion E; subst; exact Hx. }
  assert (H3 : forall n, vo_convert o = Some n <-> In (VConvert n) (mv_opts m)).
  { intros n. pose proof (once_fold _ _ _ _ vo_convert _ vstep_convert _ _ _ Ho n) as G; cbn in G. rewrite G. split; [|eauto].
    intros (x & Hx & E). destruct x; inversion E; subst; exact Hx. }
  assert (H4 : forall n, vo_size o = Some n <-> In (VSize n) (mv_opts m)).
  { intros n. pose proof (once_fold _ _ _ _ vo_size _ vstep_size _ _ _ Ho n) as G; cbn in G. rewrite G. split; [|eauto].
    intros (x & Hx & E). destruct x; inversion E; subst; exact Hx. }
  unfold variant_of. cbn [v_name v_start v_end v_over v_size v_fields v_convert]. split; [|split; [|split; [|split; [exact L3|split]]]].
  - unfold variant_made. cbn [v_name v_start v_end v_over v_size v_fields v_convert]. split; [reflexivity|]. split; [|split; [exact (vstep_overs _ _ Ho)|split; [exact H4|split; [|exact L1]]]].
    + intros r. unfold valive, exists_at, variant_lives. cbn [v_start v_end]. rewrite andb_true_iff, N.leb_le. split.
      * intros [Ha Hb]. split.
        -- intros n Hn. apply H1 in Hn. rewrite Hn in Ha. exact Ha.
        -- intros n Hn. apply H2 in Hn. rewrite Hn in Hb. apply N.ltb_lt in Hb. exact Hb.
      * intros [Ha Hb]. split.
        -- destruct (vo_start o) as [n|] eqn:E; cbn; [|lia]. apply Ha, H1. reflexivity.
        -- destruct (vo_end o) as [n|] eqn:E; [|reflexivity]. apply N.ltb_lt, Hb, H2. reflexivity.
    + intros d Hd. apply H3 in Hd. rewrite Hd. reflexivity.
  - destruct (vo_convert o) as [g|] eqn:E.
    + split; [|reflexivity]. intros _. left. exists g. apply H3. reflexivity.
    + rewrite L2. split; [auto|]. intros [(g & Hg)|Hg]; [apply H3 in Hg; discriminate|exact Hg].
  - intros n Hn. apply H2 in Hn. destruct (vo_convert o) as [g|] eqn:E; [exists g; apply H3; reflexivity|]. exfalso. apply Hend; [congruence|reflexivity].
  - intros r d. apply over_bound with (1 := Ho).
  - intros n Hn. apply H4 in Hn. eapply size_bound; eassumption.
Qed.
Lemma parse_kind_made : forall k b c, parse_kind k = Done (b, c) -> body_made k b /\ (c = true <-> converts_somewhere k).
Proof.
  intros [ms|ms] b c H; cbn [parse_kind] in H; apply mbind_done in H; destruct H as (l & Hl & H); inversion H; subst b c; clear H.
  - apply fields_made in Hl. destruct Hl as (L1 & L2 & _). split; assumption.
  - apply mmap_done in Hl. cbn [body_made converts_somewhere]. induction Hl as [|m [v c] ms l Hm H (I1 & I2)].
    + split; [constructor|]. split; [discriminate|intros (v & [] & _)].
    + apply parse_variant_made in Hm. destruct Hm as (M1 & M2 & _). split; [cbn; constructor; assumption|].
      cbn [existsb snd]. rewrite orb_true_iff, M2, I2. split.
      * intros [Hg|(m' & Hi & Hg)]; [exists m; cbn; auto|exists m'; cbn; auto].
      * intros (m' & [<-|Hi] & Hg); [left; exact Hg|right; eauto].
Qed.

(** ** Discriminants fit [u32] *)
Lemma below_len : forall d (used : list N), (forall k, k < d -> In k used) -> d <= len used.
Proof.
  intros d used H. assert (Hl : (length (map N.of_nat (seq 0 (N.to_nat d))) <= length used)%nat).
  { apply NoDup_incl_length.
    - apply FinFun.Injective_map_NoDup; [intros x y; lia|apply seq_NoDup].
    - intros k Hk. apply in_map_iff in Hk. destruct Hk as (i & <- & Hi). apply in_seq in Hi. apply H. lia. }
  rewrite map_length, seq_length in Hl. unfold len. lia.
Qed.
Definition autos (r : N) (vs : list variant) : list variant :=
  filter (fun v => valive r v && match v_over v r with Some _ => false | None => true end) vs.
Lemma assign_bound : forall r vs used n v d, (forall k, k < n -> In k used) -> In (v, d) (assign r vs used n) ->
  v_over v r = Some d \/ d < len used + len (autos r vs).
Proof.
  intros r. induction vs as [|w vs IH]; intros used n v d Hn Hi; [destruct Hi|]. cbn [assign] in Hi. unfold autos. cbn [filter].
  destruct (valive r w) eqn:Ea; cbn [andb].
  - destruct (v_over w r) as [o|] eqn:Eo.
    + destruct Hi as [Hi|Hi]; [inversion Hi; subst; left; exact Eo|]. apply (IH _ _ _ _ Hn Hi).
    + set (d0 := next_free (length used) used n) in *.
      assert (Hd : forall k, k < d0 -> In k used).
      { intros k Hk. destruct (N.lt_ge_cases k n) as [H|H]; [apply Hn, H|]. exact (next_free_least _ _ _ _ H Hk). }
      assert (Hd0 := below_len _ _ Hd).
      destruct Hi as [Hi|Hi].
      * inversion Hi; subst v d. right. unfold len in *. cbn [length]. lia.
      * destruct (IH (d0 :: used) d0 v d) as [H|H]; [intros k Hk; right; apply Hd, Hk|exact Hi|left; exact H|right].
        unfold autos in H. unfold len in *. cbn [length] in *. lia.
  - apply (IH _ _ _ _ Hn Hi).
Qed.
Lemma gather_len : forall r vs used u, gather r vs used = Some u -> len u + len (autos r vs) <= len used + len vs.
Proof.
  intros r. induction vs as [|v vs IH]; intros used u H; cbn [gather] in H.
  - inversion H; subst. cbn. lia.
  - unfold autos in *. cbn [filter]. destruct (valive r v); cbn [andb].
    + destruct (v_over v r) as [d|].
      * destruct (existsb (N.eqb d) used); [discriminate|]. apply IH in H. unfold len in *. cbn [length] in *. lia.
      * apply IH in H. unfold len in *. cbn [length] in *. lia.
    + apply IH in H. unfold len in *. cbn [length] in *. lia.
Qed.
Lemma calc_disc_bound : forall r vs ds v d, calc_disc r vs = Some ds -> In (v, d) ds -> v_over v r = Some d \/ d < len vs.
Proof.
  intros r vs ds v d H Hi. unfold calc_disc in H. destruct (gather r vs []) as [u|] eqn:G; [|discriminate]. inversion H; subst.
  apply gather_len in G. cbn in G. apply assign_bound in Hi; [|lia]. destruct Hi as [Hi|Hi]; [left; exact Hi|right]. lia.
Qed.

(** ** Accepted schemas are well formed *)
Lemma field_made_ok : forall m f, field_made m f -> attrs_fit m -> field_ok f = true.
Proof.
  intros m f (Ht & _ & _ & _ & _ & Hfx & Hsp & Hix) (F1 & F2 & F3 & F4 & F5). unfold field_ok. rewrite Ht. apply andb_true_iff. split.
  - unfold mode_legacy. destruct (f_fixed f) eqn:E1; [apply F1, Hfx; reflexivity|]. destruct (f_spec f) eqn:E2; [apply F2, Hsp; reflexivity|]. reflexivity.
  - unfold mode_opt. destruct (f_idx f) eqn:E; [reflexivity|apply F3|apply F4|apply F5]; apply Hix; congruence.
Qed.
Lemma fields_made_ok : forall ms fs, Forall2 field_made ms fs -> (forall m, In m ms -> attrs_fit m) -> forallb field_ok fs = true.
Proof.
  intros ms fs H. induction H as [|m f ms fs Hm H IH]; intros Hf; [reflexivity|]. cbn [forallb]. apply andb_true_iff. split.
  - eapply field_made_ok; [exact Hm|]. apply Hf. left. reflexivity.
  - apply IH. intros m' Hm'. apply Hf. right. exact Hm'.
Qed.
Lemma Forall2_in_r : forall A B (R : A -> B -> Prop) l l' y, Forall2 R l l' -> In y l' -> exists x, In x l /\ R x y.
Proof.
  intros A B R l l' y H. induction H as [|a b l l' Hr H IH]; intros Hy; [destruct Hy|].
  destruct Hy as [<-|Hy]; [exists a; split; [left; reflexivity|exact Hr]|].
  destruct (IH Hy) as (x & Hx & Hr'). exists x. split; [right; exact Hx|exact Hr'].
Qed.
Lemma expand_wf : forall i s x, expand i = Done (s, x) -> type_checks i -> wf_schema s.
Proof.
  intros i s x H [Hfit Htc]. apply expand_accepted in H. destruct H as [_ Hcur Hbody _ Hopt Hser].
  split; [clear - Hcur; lia|]. split; [apply Hcur|]. unfold fields_of in Hfit.
  destruct (mi_kind i) as [ms|ms] eqn:Ek; cbn [parse_kind] in Hbody; apply mbind_done in Hbody; destruct Hbody as (l & Hl & Hb); inversion Hb as [[Hb1 Hb2]]; clear Hb.
  - rewrite <- Hb1 in *. apply fields_made in Hl. destruct Hl as (L1 & _). apply (fields_made_ok _ _ L1). intros m Hm. apply (Hfit ms); auto.
  - rewrite <- Hb1 in *. destruct Htc as [Hnd Hlen]. apply mmap_done in Hl.
    assert (Hv : forall v, In v (map fst l) -> exists m c, In m ms /\ parse_variant m = Done (v, c)).
    { intros v Hv. apply in_map_iff in Hv. destruct Hv as ([v' c] & Ev & Hv). cbn [fst] in Ev. subst v'.
      destruct (Forall2_in_r _ _ _ _ _ _ Hl Hv) as (m & Hm & Hp). eauto. }
    assert (Hlen' : len (map fst l) = len ms).
    { unfold len. rewrite map_length. f_equal. symmetry. clear - Hl. induction Hl; cbn; congruence. }
    split; [|split].
    + replace (map v_name (map fst l)) with (map mv_name ms); [exact Hnd|]. clear - Hl. induction Hl as [|m [v c] ms l Hm Hl IH]; [reflexivity|].
      cbn [map fst]. f_equal; [|exact IH]. apply parse_variant_made in Hm. destruct Hm as ((Hn & _) & _). symmetry. exact Hn.
    + apply Forall_forall. intros v Hv'. destruct (Hv v Hv') as (m & c & Hm & Hp). apply parse_variant_made in Hp.
      destruct Hp as ((_ & _ & _ & _ & _ & Hfs) & _). apply (fields_made_ok _ _ Hfs). intros f Hf. apply (Hfit (mv_fields m)); [eauto|exact Hf].
    + intros r h Hs. destruct (Hopt r h Hs) as [Ho Hd]. cbn [emit_deserialize fst snd] in Hd. apply mbind_done in Hd. destruct Hd as (ds & Hds & Hd).
      unfold discriminants in Hds. destruct (calc_disc r (map fst l)) as [ds'|] eqn:Ec; [|discriminate]. inversion Hds; subst ds'. clear Hds.
      exists ds. split; [exact Ec|].
      assert (Hin : forall v d, In (v, d) ds -> In v (map fst l) /\ valive r v = true).
      { intros v d Hi. apply (in_map fst) in Hi. rewrite (calc_disc_fst _ _ _ Ec) in Hi. apply filter_In in Hi. exact Hi. }
      split.
      * apply Forall_forall. intros [v d] Hi. cbn [snd]. destruct (calc_disc_bound _ _ _ _ _ Ec Hi) as [Hov|Hlt].
        -- destruct (Hv v (proj1 (Hin _ _ Hi))) as (m & c & _ & Hp). apply parse_variant_made in Hp. apply Hp in Hov. exact Hov.
        -- rewrite Hlen' in Hlt. clear - Hlt Hlen. remember (2 ^ 32) as M. clear HeqM. lia.
      * intros Hh. rewrite Hh in Hd. apply mbind_done in Hd. destruct Hd as ([] & Hd1 & Hd2). apply mall_done in Hd1, Hd2.
        apply forallb_forall. intros [v d] Hi. unfold opt_variant_ok. cbn [fst snd].
        rewrite Forall_forall in Hd1, Hd2. specialize (Hd1 _ Hi). apply guard_done in Hd1. cbn [snd] in Hd1. rewrite Hd1. cbn [andb].
        destruct (Hin _ _ Hi) as [Hi1 Hi2]. assert (Hif : In v (filter (valive r) (map fst l))) by (apply filter_In; auto).
        specialize (Hd2 _ Hif). apply guard_done in Hd2. destruct (v_size v) as [[|n|]|] eqn:Ez; [| |reflexivity|discriminate].
        -- destruct (r =? scur s) eqn:Er; [|reflexivity]. cbn [negb orb]. apply N.eqb_eq in Er. subst r.
           specialize (Hser _ Hs). cbn [emit_serialize fst snd] in Hser. apply mbind_done in Hser. destruct Hser as (ds2 & _ & Hser).
           apply mall_done in Hser. rewrite Forall_forall in Hser. specialize (Hser _ Hif). cbn beta in Hser. rewrite Hh, Ez in Hser.
           apply guard_done in Hser. exact Hser.
        -- destruct (Hv v Hi1) as (m & c & _ & Hp). apply parse_variant_made in Hp. apply N.ltb_lt. apply Hp, Ez.
Qed.

(** ** Only the declared history matters *)
Definition numbered_hist (h : list hent) : list hist := combine (upto (length h)) h.
Lemma numbered_eq : forall (h0 : list hist), map fst h0 = upto (length h0) -> h0 = numbered_hist (map snd h0).
Proof.
  intros h0 H. unfold numbered_hist. rewrite map_length, <- H. clear H. induction h0 as [|[n h] l IH]; cbn; congruence.
Qed.
Lemma declares_len : forall l h, declares l h -> only_revisions l -> len h < 2 ^ 16 ->
  (forall n, In n (numbers l) -> n < 2 ^ 64)
  /\ Forall (fun x => match x with IRevision _ | IEntry _ _ => True | _ => False end) l
  /\ (forall n o, In (n, o) (entries l) -> fine o).
Proof.
  intros l h Hd Ho Hl. split; [|split].
  - intros n Hn. destruct Hd as [(m & E & _ & _ & ->)|(E & _)]; rewrite E in Hn; [|destruct Hn]. destruct Hn as [<-|[]].
    unfold len in Hl. rewrite repeat_length, N2Nat.id in Hl. eapply N.lt_trans; [exact Hl|]. apply N.pow_lt_mono_r; lia.
  - eapply Forall_impl; [|exact Ho]. intros x Hx. destruct x; auto.
  - intros n o Hi. unfold entries in Hi. apply in_flat_map in Hi. destruct Hi as (x & Hx & Hi). unfold only_revisions in Ho; rewrite Forall_forall in Ho. specialize (Ho x Hx).
    destruct x; try (destruct Hi; fail). destruct Hi as [Hi|[]]. inversion Hi; subst. exact Ho.
Qed.
Lemma finish_item_hist : forall l h, declares l h -> only_revisions l -> len h < 2 ^ 16 ->
  exists r e, finish_item l = Done (mkIopts r e true true None None, numbered_hist h).
Proof.
  intros l h Hd Ho Hl. destruct (declares_len _ _ Hd Ho Hl) as (H1 & H2 & H3).
  destruct (finish_item_intro _ _ Hd H1 H2 H3 Hl) as (h0 & e & Hf & Hs & Hn). rewrite Hf. apply numbered_eq in Hn. rewrite Hs in Hn. subst h0.
  unfold with_entries. cbn. eauto.
Qed.
Lemma declares_ne : forall l h, declares l h -> h <> [].
Proof.
  intros l h [(n & _ & _ & Hn & ->)|(_ & He & P & _)].
  - destruct (N.to_nat n) eqn:E; [lia|]. discriminate.
  - intros ->. cbn in P. apply Permutation_sym, Permutation_nil in P. destruct (entries l); [congruence|discriminate].
Qed.
Lemma expand_cong : forall a t a' t' k oa ot oa' ot' h h' g g',
  finish_item a = Done (oa, h) -> finish_item t = Done (ot, g) -> finish_item a' = Done (oa', h') -> finish_item t' = Done (ot', g') ->
  ((h' = h /\ g' = g) \/ (h' = g /\ g' = h)) -> io_ser oa = io_ser oa' -> io_de oa = io_de oa' -> io_skip oa = io_skip oa' -> io_walk oa = io_walk oa' ->
  (forall r, expand (mkItem a t k) = Done r -> expand (mkItem a' t' k) = Done r).
Proof.
  intros a t a' t' k oa ot oa' ot' h h' g g' H1 H2 H3 H4 He Hs Hd Hk Hw r H. unfold expand in *. cbn [mi_args mi_attrs mi_kind] in *.
  rewrite H1, H2 in H. rewrite H3, H4. cbn [mbind fst snd] in *. destruct (parse_kind k) as [[b c]|]; [|exact H]. cbn [mbind] in *.
  rewrite <- Hs, <- Hd, <- Hk, <- Hw. destruct He as [[-> ->]|[-> ->]]; [exact H|]. destruct h, g; exact H.
Qed.
Lemma istep_flags : forall l o r, mfold istep o l = Done r ->
  io_ser r = or_else (last_flag serialize_flag l) (io_ser o) /\ io_de r = or_else (last_flag deserialize_flag l) (io_de o)
  /\ io_skip r = match last_flag skip_flag l with Some b => Some b | None => io_skip o end
  /\ io_walk r = match last_flag walk_flag l with Some b => Some b | None => io_walk o end.
Proof.
  induction l as [|x l IH] using rev_ind; intros o r H.
  - cbn in H. inversion H; subst. auto.
  - rewrite mfold_app in H. apply mbind_done in H. destruct H as (o1 & Hl & H). cbn [mfold] in H. apply mbind_done in H. destruct H as (o2 & Hx & H). inversion H; subst o2. clear H.
    apply IH in Hl. destruct Hl as (L1 & L2 & L3 & L4). unfold last_flag in *. rewrite !fold_left_app. cbn [fold_left].
    destruct o1 as [rv en s d k w]. cbn [io_ser io_de io_skip io_walk] in *. subst s d k w.
    destruct x as [n|n e|b|b|b|b]; cbn [istep serialize_flag deserialize_flag skip_flag walk_flag] in *.
    + destruct rv; [discriminate|]. apply mbind_done in Hx. destruct Hx as (m & _ & Hx). inversion Hx; subst. auto.
    + apply mbind_done in Hx. destruct Hx as (m & _ & Hx). inversion Hx; subst. auto.
    + inversion Hx; subst. auto.
    + inversion Hx; subst. auto.
    + apply mbind_done in Hx. destruct Hx as (m & Hm & Hx). apply once_done in Hm. destruct Hm as [E1 ->]. inversion Hx; subst. auto.
    + apply mbind_done in Hx. destruct Hx as (m & Hm & Hx). apply once_done in Hm. destruct Hm as [E1 ->]. inversion Hx; subst. auto.
Qed.
Lemma expand_impls : forall i s x, expand i = Done (s, x) ->
  let ser := or_else (last_flag serialize_flag (mi_args i)) true in
  let de := or_else (last_flag deserialize_flag (mi_args i)) true in
  im_ser x = ser /\ im_de x = de
  /\ im_skip x = or_else (last_flag skip_flag (mi_args i)) de
  /\ im_check x = im_skip x && de
  /\ im_walk x = or_else (last_flag walk_flag (mi_args i)) de
  /\ (im_walk x = true -> s_conv s = true -> ser = true /\ de = true).
Proof.
  intros i s x H. unfold expand in H. apply mbind_done in H. destruct H as ([oa ha] & Ha & H). apply mbind_done in H. destruct H as ([ot ht] & _ & H).
  apply mbind_done in H. destruct H as ([b conv] & _ & H). cbn [fst snd] in H. apply mbind_done in H. destruct H as (h & _ & H).
  do 6 (apply mbind_done in H; destruct H as ([] & _ & H)). apply mbind_done in H. destruct H as ([] & Hg & H). inversion H; subst s x. clear H.
  unfold finish_item in Ha. apply mbind_done in Ha. destruct Ha as (o & Hf & Ha). apply mbind_done in Ha. destruct Ha as (h' & _ & Ha). inversion Ha; subst o h'. clear Ha.
  apply istep_flags in Hf. cbn [iopts0 io_ser io_de io_skip io_walk] in Hf. destruct Hf as (F1 & F2 & F3 & F4).
  cbn [im_ser im_de im_skip im_check im_walk s_conv]. rewrite <- F1, <- F2, F3, F4 in *.
  apply guard_done in Hg. repeat split; auto.
  - destruct (last_flag skip_flag (mi_args i)); reflexivity.
  - destruct (last_flag walk_flag (mi_args i)); reflexivity.
  - destruct (match match last_flag walk_flag (mi_args i) with Some b0 => Some b0 | None => None end with Some x => x | None => io_de oa end); [|discriminate].
    rewrite H0 in Hg. cbn [andb] in Hg. rewrite negb_involutive in Hg. apply andb_true_iff in Hg. apply Hg.
  - destruct (match match last_flag walk_flag (mi_args i) with Some b0 => Some b0 | None => None end with Some x => x | None => io_de oa end); [|discriminate].
    rewrite H0 in Hg. cbn [andb] in Hg. rewrite negb_involutive in Hg. apply andb_true_iff in Hg. apply Hg.
Qed.
(** Removed fields and variants have a [convert_fn]. *)
Lemma expand_converts : forall i s x, expand i = Done (s, x) ->
  (forall fs m n, fields_of i fs -> In m fs -> In (FEnd n) (mf_opts m) -> exists c, In (FConvert c) (mf_opts m))
  /\ (forall ms v n, mi_kind i = KEnum ms -> In v ms -> In (VEnd n) (mv_opts v) -> exists c, In (VConvert c) (mv_opts v)).
Proof.
  intros i s x H. apply expand_accepted in H. destruct H as [_ _ Hb _ _ _]. unfold fields_of. destruct (mi_kind i) as [ms|ms]; cbn [parse_kind] in Hb;
    apply mbind_done in Hb; destruct Hb as (l & Hl & _).
  - apply fields_made in Hl. split; [|discriminate]. intros fs m n ->. apply Hl.
  - apply mmap_done in Hl. assert (Hp : forall v, In v ms -> exists p, parse_variant v = Done p).
    { clear - Hl. induction Hl; intros v Hv; [destruct Hv|]. destruct Hv as [<-|Hv]; eauto. }
    split.
    + intros fs m n (v & Hv & ->) Hm Hn. destruct (Hp v Hv) as ([w c] & Hw). apply parse_variant_made in Hw. destruct Hw as (_ & _ & _ & Hw & _). eapply Hw; eassumption.
    + intros ms' v n E Hv Hn. inversion E; subst ms'. destruct (Hp v Hv) as ([w c] & Hw). apply parse_variant_made in Hw. destruct Hw as (_ & _ & Hw & _). eapply Hw; eassumption.
Qed.
(** The range checks say what they should. *)
Lemma in_range_done : forall cur s e u, in_range cur s e = Done u -> s <= cur /\ forall n, e = Some n -> n <= cur.
Proof.
  intros cur s e u H. unfold in_range in H. apply guard_done in H. apply andb_true_iff in H. destruct H as [H1 H2]. split; [apply N.leb_le, H1|].
  intros n ->. apply N.leb_le, H2.
Qed.
Lemma parse_field_range : forall cur m f c, parse_field m = Done (f, c) -> field_range cur f = Done tt ->
  forall o, In o (mf_opts m) -> match o with FStart n | FEnd n => n <= cur | _ => True end.
Proof.
  intros cur m f c H Hr o Ho. unfold parse_field in H. apply mbind_done in H. destruct H as (fo & Hf & H). inversion H; subst f c. clear H.
  unfold field_range, field_of in Hr. cbn [f_start f_end] in Hr. apply in_range_done in Hr. destruct Hr as [R1 R2].
  apply finish_field_done in Hf. destruct Hf as (F1 & F2 & _). destruct o as [n|n|?|?|?| |]; auto.
  - apply F1 in Ho. rewrite Ho in R1. exact R1.
  - apply R2, F2, Ho.
Qed.
Lemma fields_range : forall cur ms l, mmap parse_field ms = Done l -> mall (field_range cur) (map fst l) = Done tt ->
  forall m o, In m ms -> In o (mf_opts m) -> match o with FStart n | FEnd n => n <= cur | _ => True end.
Proof.
  intros cur ms l H Hr. apply mmap_done in H. apply mall_done in Hr. induction H as [|m [f c] ms l Hm H IH]; intros m' o Hi Ho; [destruct Hi|].
  cbn [map fst] in Hr. inversion Hr; subst. destruct Hi as [<-|Hi]; [eapply parse_field_range; eassumption|]. eapply IH; eassumption.
Qed.
Lemma expand_ranges : forall i s x, expand i = Done (s, x) ->
  (forall fs m o, fields_of i fs -> In m fs -> In o (mf_opts m) -> match o with FStart n | FEnd n => n <= scur s | _ => True end)
  /\ (forall ms v o, mi_kind i = KEnum ms -> In v ms -> In o (mv_opts v) -> match o with VStart n | VEnd n => n <= scur s | _ => True end).
Proof.
  intros i s x H. apply expand_accepted in H. destruct H as [_ _ Hb Hr _ _]. unfold fields_of. destruct (mi_kind i) as [ms|ms]; cbn [parse_kind] in Hb;
    apply mbind_done in Hb; destruct Hb as (l & Hl & Hb); inversion Hb as [[Hb1 Hb2]]; rewrite <- Hb1 in Hr; cbn [validate_revision] in Hr.
  - split; [|discriminate]. intros fs m o -> Hm Ho. eapply fields_range; eassumption.
  - apply mmap_done in Hl. apply mall_done in Hr.
    assert (G : forall v, In v ms -> exists w c, parse_variant v = Done (w, c) /\ in_range (scur s) (v_start w) (v_end w) = Done tt /\ mall (field_range (scur s)) (v_fields w) = Done tt).
    { clear - Hl Hr. induction Hl as [|m [w c] ms l Hm Hl IH]; intros v Hv; [destruct Hv|]. cbn [map fst] in Hr. inversion Hr as [|? ? Hw Hr']; subst.
      destruct Hv as [<-|Hv]; [|auto]. exists w, c. apply mbind_done in Hw. destruct Hw as ([] & W1 & W2). auto. }
    split.
    + intros fs m o (v & Hv & ->) Hm Ho. destruct (G v Hv) as (w & c & Hp & _ & Hf). unfold parse_variant in Hp. apply mbind_done in Hp. destruct Hp as (vo & _ & Hp).
      apply mbind_done in Hp. destruct Hp as (lf & Hlf & Hp). inversion Hp; subst w c. unfold variant_of in Hf. cbn [v_fields] in Hf. eapply fields_range; eassumption.
    + intros ms' v o E Hv Ho. inversion E; subst ms'. destruct (G v Hv) as (w & c & Hp & Hrg & _). unfold parse_variant in Hp. apply mbind_done in Hp. destruct Hp as (vo & Hvo & Hp).
      apply mbind_done in Hp. destruct Hp as (lf & _ & Hp). inversion Hp; subst w c. unfold variant_of in Hrg. cbn [v_start v_end] in Hrg. apply in_range_done in Hrg. destruct Hrg as [R1 R2].
      unfold finish_variant in Hvo. apply mbind_done in Hvo. destruct Hvo as (vo' & Hf & Hvo). assert (vo' = vo) by (destruct (vo_end vo'), (vo_convert vo'); inversion Hvo; reflexivity). subst vo'.
      destruct o as [n|n|?| | |?|?]; auto.
      * pose proof (once_fold _ _ _ _ vo_start _ vstep_start _ _ _ Hf n) as K; cbn in K. rewrite (proj2 K (ex_intro _ (VStart n) (conj Ho eq_refl))) in R1. exact R1.
      * pose proof (once_fold _ _ _ _ vo_end _ vstep_end _ _ _ Hf n) as K; cbn in K. apply R2, K. exists (VEnd n). auto.
Qed.
