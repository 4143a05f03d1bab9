(** C30, C31, C32, C36: random access into what the encoder writes. *)

From Verif Require Import Base BaseL Prog ProgL Prim Ty Ser De Typed Mig SortL DiscL RtL RtTy RtDer RtSch RtId Parts Agree SerL Spec Cross OrderFree OrdL Ex PropIdx IdxL IdxWalk IdxWalkL IdxEncL PropView PropSkip PropWire.
From Coq Require Import List NArith ZArith Bool Lia Arith Sorted Permutation.
Import ListNotations.
Open Scope N_scope.

(** The order in which indexed maps and sets are stored and searched is the lexicographic order of byte strings: a
    proper prefix comes first, otherwise the first different byte decides. *)
Definition bytes_before (a b : bytes) : Prop :=
  (exists x r, b = a ++ x :: r) \/ exists p x y ra rb, a = p ++ x :: ra /\ b = p ++ y :: rb /\ x < y.
Theorem C30_byte_order : forall a b,
  (bcmp a b = Eq <-> a = b) /\ (bcmp a b = Lt <-> bytes_before a b) /\ (bcmp a b = Gt <-> bytes_before b a).
Proof.
  assert (H : forall a b, bcmp a b = Lt <-> bytes_before a b).
  { induction a as [|x a IH]; intros [|y b]; cbn [bcmp].
    - split; [discriminate|]. intros [(x & r & E)|(p & x & y & ra & rb & E & _)]; [discriminate|destruct p; discriminate].
    - split; [|reflexivity]. intros _. left. exists y, b. reflexivity.
    - split; [discriminate|]. intros [(z & r & E)|(p & z & y & ra & rb & _ & E & _)]; [discriminate|destruct p; discriminate].
    - destruct (x ?= y) eqn:C.
      + apply N.compare_eq_iff in C. subst y. rewrite IH. split.
        * intros [(z & r & ->)|(p & z & y & ra & rb & -> & -> & L)]; [left; exists z, r; reflexivity|right; exists (x :: p), z, y, ra, rb; auto].
        * intros [(z & r & E)|(p & z & y & ra & rb & E1 & E2 & L)]; [left; cbn in E; inversion E; subst; eauto|].
          destruct p as [|q p]; cbn in E1, E2; inversion E1; inversion E2; subst; [lia|]. right. exists p, z, y, ra, rb. auto.
      + split; [|reflexivity]. intros _. right. exists [], x, y, a, b. auto.
      + split; [discriminate|]. intros [(z & r & E)|(p & z & w & ra & rb & E1 & E2 & L)].
        * cbn in E. inversion E; subst. rewrite N.compare_refl in C. discriminate.
        * destruct p as [|q p]; cbn in E1, E2; inversion E1; inversion E2; subst; [rewrite (proj2 (N.compare_lt_iff _ _) L) in C; discriminate|].
          rewrite N.compare_refl in C. discriminate. }
  intros a b. split; [apply bcmp_eq|]. split; [apply H|]. rewrite <- H, (bcmp_sym a b). destruct (bcmp a b); cbn; split; congruence.
Qed.
Print Assumptions C30_byte_order.

(** [es] are the encodings of the values [l], one by one. *)
Definition encodings (E : env) (d : nat) (t : ty) (l : list val) (es : list bytes) : Prop :=
  Forall2 (fun x e => to_vec E d t x = Ok e) l es.
Lemma rmapM_2 : forall A B (f : A -> res B) l r, rmapM f l = Ok r -> Forall2 (fun x y => f x = Ok y) l r.
Proof.
  intros A B f. induction l as [|x l IH]; intros r H; cbn [rmapM] in H.
  - inversion H. constructor.
  - destruct (f x) as [y|e|p] eqn:F; try discriminate. cbn [rbind] in H. destruct (rmapM f l) as [ys|e|p]; try discriminate. cbn [rbind rmap] in H.
    inversion H; subst. constructor; [exact F|apply IH; reflexivity].
Qed.
Lemma F2_len : forall A B (R : A -> B -> Prop) l r, Forall2 R l r -> len l = len r.
Proof. intros A B R l r H. unfold len. rewrite (Forall2_length H). reflexivity. Qed.
Lemma ub32 : forall E (b : bytes), wf_env E -> len b < 2 ^ 32 -> len b < 2 ^ e_ub E.
Proof. intros E b W H. eapply N.lt_le_trans; [exact H|]. apply N.pow_le_mono_r; [lia|]. destruct (we_ub _ W) as [-> | ->]; lia. Qed.
Lemma seq_pieces_small : forall bs b, enc_idx_seq bs = Ok b -> len b < 2 ^ 32 -> Forall (fun x => len x < 2 ^ 32) bs.
Proof.
  intros bs b H L. apply pieces_small. unfold enc_idx_seq in H. cbv zeta in H. destruct (_ <? _).
  - apply Ok_inj in H. subst b. rewrite len_cons, len_app in L. lia.
  - destruct (offsets 0 bs) as [[os e]|]; [|discriminate]. apply Ok_inj in H. subst b. rewrite len_cons, !len_app in L. lia.
Qed.

Lemma classic_inner : forall bs, inner_nonempty bs \/ ~ inner_nonempty bs.
Proof.
  intros bs. unfold inner_nonempty. induction bs as [|x bs IH]; [left; intros [|j] x H; discriminate|]. destruct bs as [|y bs].
  - left. intros [|j] z H Hj; [cbn in Hj; lia|]. destruct j; discriminate.
  - destruct x as [|a x]; [right; intros H; apply (H 0%nat [] eq_refl); [cbn; lia|reflexivity]|].
    destruct IH as [IH|IH]; [left|right].
    + intros [|j] z H Hj; [inversion H; discriminate|]. apply (IH j z H). cbn [length] in *. lia.
    + intros H. apply IH. intros j z Hz Hj. apply (H (S j) z Hz). cbn [length] in *. lia.
Qed.

(** Sequences: what [enc] is about, for elements in wire order. *)
Definition seq_view (E : env) (b : bytes) (es : list bytes) : Prop :=
  exists hd w, b = hd ++ concat es /\ seq_open E false b = Ok w /\ (forall w', seq_open E true b = Ok w' -> w' = w)
    /\ sw_len w = len es
    /\ forall i, element_bytes w i = match nth_error es (N.to_nat i) with
                                     | Some e => Ok e
                                     | None => Err (EDeserialize (MOther 1))
                                     end.
Definition seq_accepted (E : env) (b : bytes) : Prop := exists w, seq_open E true b = Ok w.
Lemma seq_view_of : forall E bs b, wf_env E -> enc_idx_seq bs = Ok b -> len b < 2 ^ 32 ->
  (8 <= len bs -> seq_view E b bs) /\ (seq_accepted E b <-> len bs < 8 \/ inner_nonempty bs).
Proof.
  intros E bs b W H L. pose proof (open_idx_seq E bs b (we_ub _ W) H (ub32 E b W L) (seq_pieces_small bs b H L)) as O.
  destruct (N.ltb_spec (len bs) 8) as [Hn|Hn].
  - split; [lia|]. split; [auto|]. intros _. eexists. apply O.
  - destruct O as (hd & t & Hb & Lt & M & O1 & O2 & O3). split.
    + intros _. exists hd. eexists. split; [exact Hb|]. split; [exact O1|]. split.
      { intros w' Hw. pose proof (seq_open_spec E true b) as S. rewrite Hw in S.
        assert (U : 16 <= 2 ^ e_ub E) by (destruct (we_ub _ W) as [-> | ->]; vm_compute; discriminate). specialize (S U).
        pose proof (classic_inner bs) as D.
        destruct D as [D|D]; [rewrite (O2 D) in Hw; inversion Hw; reflexivity|]. destruct (O3 D) as (e & He). congruence. }
      split; [reflexivity|]. intros i. unfold element_bytes. cbn [sw_offs sw_len sw_body].
      destruct (N.leb_spec (len bs) i) as [Hi|Hi].
      { rewrite (proj2 (nth_error_None _ _)); [reflexivity|]. unfold len in Hi. lia. }
      destruct (nth_error bs (N.to_nat i)) as [x|] eqn:N1; [|apply nth_error_None in N1; unfold len in Hi; lia].
      rewrite u32_in by lia. cbn [rbind].
      assert (E1 : off t (i * 4) = ends t 0 4 (len bs) (len (concat bs)) i) by (rewrite ends_in by exact Hi; rewrite N.add_0_r; reflexivity).
      assert (E2 : (if i + 1 <? len bs then u32_at t ((i + 1) * 4) else Ok (len (concat bs))) = Ok (ends t 0 4 (len bs) (len (concat bs)) (i + 1))).
      { unfold ends. destruct (N.ltb_spec (i + 1) (len bs)); [|reflexivity]. rewrite u32_in by lia. rewrite N.add_0_r. reflexivity. }
      rewrite E2, E1. cbn [rbind]. rewrite at_in.
      * f_equal. exact (marks_piece t 0 4 [] bs i x M N1).
      * pose proof (marks_ends t 0 4 0 bs i M) as Z1. pose proof (marks_ends t 0 4 0 bs (i + 1) M) as Z2. rewrite !N.add_0_l in Z1, Z2.
        rewrite Z1, Z2 by lia. rewrite (firstn_S_len bs i x N1). lia.
      * pose proof (marks_ends t 0 4 0 bs (i + 1) M) as Z2. rewrite !N.add_0_l in Z2. rewrite Z2 by lia. apply marks_mono.
    + split.
      * intros [w Hw]. right. intros j x Hx Hj Hz.
        destruct O3 as (e & He); [|congruence]. intros D. exact (D j x Hx Hj Hz).
      * intros [D|D]; [lia|]. eexists. apply O2. exact D.
Qed.

Lemma encode_seq : forall E d t a l b, t = TVec a \/ t = TImVec a -> encode_field E d MIdxSeq t (VSeq l) = Ok b ->
  exists es, encodings E d a l es /\ enc_idx_seq es = Ok b.
Proof.
  intros E d t a l b Ht H. apply ser_bytes_ok in H. destruct H as (ops & H & ->).
  assert (H' : rbind (rmapM (fun x => ser_bytes (ser_ty E (ser_ref E d) a x)) l) (fun bs => rbind (enc_idx_seq bs) sall) = Ok ops)
    by (destruct Ht as [-> | ->]; exact H). clear H.
  destruct (rmapM _ l) as [bs|e|p] eqn:R; try discriminate. cbn [rbind] in H'. destruct (enc_idx_seq bs) as [b|e|p] eqn:Eb; try discriminate.
  unfold sall in H'. apply Ok_inj in H'. subst ops. unfold out in *. cbn [flat_map wop_bytes] in *. rewrite app_nil_r in *.
  apply rmapM_2 in R. exists bs. split; [exact R|exact Eb].
Qed.
(** Reorder the values along with the bytes. *)
Lemma F2_perm : forall A B (R : A -> B -> Prop) (x y : list B), Permutation x y -> forall m, Forall2 R m x ->
  exists m', Permutation m' m /\ Forall2 R m' y.
Proof.
  intros A B R x y P. induction P as [|z x y P IH|z z' x|x y z P1 IH1 P2 IH2]; intros m F.
  - inversion F; subst. exists []. auto.
  - inversion F as [|v e m0 x0 Hv Hf]; subst. destruct (IH _ Hf) as (m' & Pm & Fm). exists (v :: m'). split; [constructor; exact Pm|constructor; assumption].
  - inversion F as [|v e m0 x0 Hv Hf]; subst. inversion Hf as [|v' e' m1 x1 Hv' Hf']; subst. exists (v' :: v :: m1). split; [constructor|]. constructor; [exact Hv'|constructor; assumption].
  - destruct (IH1 _ F) as (m1 & Pm1 & F1). destruct (IH2 _ F1) as (m2 & Pm2 & F2). exists m2. split; [eapply Permutation_trans; eassumption|exact F2].
Qed.
Lemma encode_set : forall E d k a l b, wf_env E -> encode_field E d MIdxSet (TSet k a) (VSeq l) = Ok b ->
  exists l' es, Permutation l' l /\ encodings E d a l' es /\ StronglySorted (fun x y => bcmp x y <> Gt) es /\ enc_idx_seq es = Ok b.
Proof.
  intros E d k a l b W H. apply ser_bytes_ok in H. destruct H as (ops & H & ->). cbn [ser_mode] in H.
  destruct (rmapM _ (citer E k (TSet k a) l)) as [bs|e|p] eqn:R; try discriminate. cbn [rbind] in H. destruct (enc_idx_seq (ssort bcmp bs)) as [b|e|p] eqn:Eb; try discriminate.
  unfold sall in H. apply Ok_inj in H. subst ops. unfold out in *. cbn [flat_map wop_bytes] in *. rewrite app_nil_r in *.
  assert (P : Permutation (citer E k (TSet k a) l) l) by (destruct k; [apply (we_iter _ W)|apply Permutation_refl]).
  apply rmapM_2 in R. destruct (F2_perm _ _ _ _ _ (Permutation_sym (ssort_perm _ bcmp bs)) _ R) as (l' & Pl & Fl).
  exists l', (ssort bcmp bs). split; [eapply Permutation_trans; [exact Pl|exact P]|]. split; [exact Fl|].
  split; [apply ssort_sorted; apply bcmp_order|exact Eb].
Qed.

(** C32: element [i] of an [indexed_seq] field of at least 8 elements is the encoding of the [i]-th
    element, and these encodings are the end of the payload. *)
Theorem C32_indexed_seq : forall E d t a l b,
  wf_env E -> t = TVec a \/ t = TImVec a -> encode_field E d MIdxSeq t (VSeq l) = Ok b -> len b < 2 ^ 32 -> 8 <= len l ->
  exists es, encodings E d a l es /\ seq_view E b es.
Proof.
  intros E d t a l b W Ht H L Hl. destruct (encode_seq E d t a l b Ht H) as (es & R & Eb). exists es. split; [exact R|].
  apply (seq_view_of E es b W Eb L). rewrite <- (F2_len _ _ _ _ _ R). exact Hl.
Qed.
Theorem C32_indexed_set : forall E d k a l b,
  wf_env E -> encode_field E d MIdxSet (TSet k a) (VSeq l) = Ok b -> len b < 2 ^ 32 -> 8 <= len l ->
  exists l' es, Permutation l' l /\ encodings E d a l' es /\ StronglySorted (fun x y => bcmp x y <> Gt) es /\ seq_view E b es.
Proof.
  intros E d k a l b W H L Hl. destruct (encode_set E d k a l b W H) as (l' & es & P & R & S & Eb). exists l', es.
  split; [exact P|]. split; [exact R|]. split; [exact S|].
  apply (seq_view_of E es b W Eb L). rewrite <- (F2_len _ _ _ _ _ R), (perm_len _ _ _ P). exact Hl.
Qed.
(** C36: the validating constructor accepts what the encoder wrote exactly when there are fewer
    than 8 elements or no element but the last encodes to nothing. *)
Theorem C36_indexed_seq : forall E d t a l b,
  wf_env E -> t = TVec a \/ t = TImVec a -> encode_field E d MIdxSeq t (VSeq l) = Ok b -> len b < 2 ^ 32 ->
  exists es, encodings E d a l es /\ (seq_accepted E b <-> len l < 8 \/ inner_nonempty es).
Proof.
  intros E d t a l b W Ht H L. destruct (encode_seq E d t a l b Ht H) as (es & R & Eb). exists es. split; [exact R|].
  rewrite (F2_len _ _ _ _ _ R). apply (seq_view_of E es b W Eb L).
Qed.
Theorem C36_indexed_set : forall E d k a l b,
  wf_env E -> encode_field E d MIdxSet (TSet k a) (VSeq l) = Ok b -> len b < 2 ^ 32 ->
  exists l' es, Permutation l' l /\ encodings E d a l' es /\ (seq_accepted E b <-> len l < 8 \/ inner_nonempty es).
Proof.
  intros E d k a l b W H L. destruct (encode_set E d k a l b W H) as (l' & es & P & R & S & Eb). exists l', es.
  split; [exact P|]. split; [exact R|]. rewrite <- (perm_len _ _ _ P), (F2_len _ _ _ _ _ R). apply (seq_view_of E es b W Eb L).
Qed.

(** ** Maps *)

(** [es] are the encodings of the entries [l]. *)
Definition entry_encodings (E : env) (d : nat) (a b : ty) (l : list val) (es : list (bytes * bytes)) : Prop :=
  Forall2 (fun p e => exists x y, p = VPair x y /\ to_vec E d a x = Ok (fst e) /\ to_vec E d b y = Ok (snd e)) l es.
Lemma encode_map : forall E d k a b l bs, wf_env E -> encode_field E d MIdxMap (TMap k a b) (VSeq l) = Ok bs ->
  exists l' es, Permutation l' l /\ entry_encodings E d a b l' es /\ StronglySorted (fun x y => key_cmp x y <> Gt) es /\ enc_idx_map es = Ok bs.
Proof.
  intros E d k a b l bs W H. apply ser_bytes_ok in H. destruct H as (ops & H & ->). cbn [ser_mode] in H.
  destruct (rmapM _ (citer E k (TMap k a b) l)) as [ps|e|p] eqn:R; try discriminate. cbn [rbind] in H. destruct (enc_idx_map (ssort key_cmp ps)) as [bs|e|p] eqn:Eb; try discriminate.
  unfold sall in H. apply Ok_inj in H. subst ops. unfold out in *. cbn [flat_map wop_bytes] in *. rewrite app_nil_r in *.
  assert (P : Permutation (citer E k (TMap k a b) l) l) by (destruct k; [apply (we_iter _ W)|apply Permutation_refl]).
  apply rmapM_2 in R. destruct (F2_perm _ _ _ _ _ (Permutation_sym (ssort_perm _ key_cmp ps)) _ R) as (l' & Pl & Fl).
  exists l', (ssort key_cmp ps). split; [eapply Permutation_trans; [exact Pl|exact P]|]. split.
  - clear - Fl. induction Fl as [|v e l es Hv Hf IH]; constructor; [|exact IH]. unfold pre_entry in Hv. destruct v; try discriminate.
    exists v1, v2. split; [reflexivity|]. unfold to_vec, to_writer.
    destruct (ser_bytes (ser_ty E (ser_ref E d) a v1)); try discriminate. cbn [rbind] in Hv.
    destruct (ser_bytes (ser_ty E (ser_ref E d) b v2)); try discriminate. cbn [rbind] in Hv. inversion Hv. auto.
  - split; [|exact Eb]. apply ssort_sorted. apply (order_pull _ _ fst bcmp bcmp_order).
Qed.
Lemma map_pieces_small : forall ps b, enc_idx_map ps = Ok b -> len b < 2 ^ 32 ->
  Forall (fun x => len x < 2 ^ 32) (map fst ps) /\ Forall (fun x => len x < 2 ^ 32) (map snd ps).
Proof.
  intros ps b H L. unfold enc_idx_map in H. cbv zeta in H. destruct (_ <? _).
  - apply Ok_inj in H. subst b. rewrite len_cons, len_app in L.
    assert (L' : len (flat_map (fun p : bytes * bytes => fst p ++ snd p) ps) < 2 ^ 32) by (unfold len, bytes in *; lia). clear L.
    revert L'. generalize (2 ^ 32) as M. induction ps as [|p ps IH]; intros M L'; cbn [map]; [split; constructor|].
    cbn [flat_map] in L'. rewrite !len_app in L'. destruct (IH M) as [I1 I2]; [unfold len, bytes in *; lia|]. split; constructor; auto; unfold len, bytes in *; lia.
  - destruct (offsets 0 (map fst ps)) as [[ks ke]|]; [|discriminate]. destruct (offsets 0 (map snd ps)) as [[vs ve]|]; [|discriminate].
    apply Ok_inj in H. subst b. rewrite len_cons, !len_app in L. split; apply pieces_small; unfold len, bytes in *; lia.
Qed.
(** Distinct keys have distinct encodings, so the keys of the payload are strictly ascending. *)
Lemma keys_strict : forall E d k a b l l' es, wf_env E -> sizes_honest E -> wt E d (TMap k a b) (VSeq l) -> Permutation l' l -> entry_encodings E d a b l' es ->
  StronglySorted (fun x y => key_cmp x y <> Gt) es -> StronglySorted (fun x y => bcmp x y = Lt) (map fst es).
Proof.
  intros E d k a b l l' es W Hh (_ & Hw & Hs) P F S.
  assert (D : NoDup (map pkey l)).
  { clear - Hs W. induction Hs as [|p l Hs IH Hf]; cbn [map]; constructor; [|exact IH]. intros Hi. apply in_map_iff in Hi. destruct Hi as (q & Hq & Hi).
    rewrite Forall_forall in Hf. specialize (Hf q Hi). rewrite Hq in Hf. pose proof (law_sym _ (we_cmp _ W a) (pkey p) (pkey p)) as Z. rewrite Hf in Z. discriminate. }
  assert (D' : NoDup (map pkey l')) by (eapply Permutation_NoDup; [apply Permutation_map, Permutation_sym; exact P|exact D]).
  assert (Hw' : Forall (fun p => match p with VPair x y => wt E d a x /\ wt E d b y | _ => False end) l').
  { rewrite Forall_forall in *. intros p Hp. apply Hw. eapply Permutation_in; [exact P|exact Hp]. }
  clear P Hw Hs D l. revert l' F D' Hw'. induction S as [|e es S IH Hf]; intros l' F D' Hw'; cbn [map]; [constructor|].
  inversion F as [|p e' l0 es' (x & y & -> & Ex & Ey) F' ]; subst. cbn [map pkey] in D'. inversion D' as [|u v Hn D'']; subst. inversion Hw' as [|u v Hp Hw'']; subst.
  constructor; [apply (IH l0); assumption|]. apply Forall_map. rewrite Forall_forall in *. intros e0 He. specialize (Hf e0 He).
  unfold key_cmp in Hf. destruct (bcmp (fst e) (fst e0)) eqn:B; [|reflexivity|congruence]. exfalso. apply bcmp_eq in B.
  clear - F' He B Ex Hn Hp Hw'' W Hh.
  induction F' as [|q e1 l1 es1 (x1 & y1 & -> & Ex1 & Ey1) F1 IH1]; [destruct He|].
  assert (Hq := Hw'' _ (or_introl eq_refl)). cbn in Hq. destruct He as [<-|He].
  - apply Hn. left. cbn [pkey]. apply (inj_ty E W Hh d a x1 x (fst e1)); [apply Hq|apply Hp|exact Ex1|rewrite <- B; exact Ex].
  - apply IH1; auto. intros Hi. apply Hn. right. exact Hi. intros z Hz. apply Hw''. right. exact Hz.
Qed.
Lemma in_encodings : forall E d a b l es kb vb, entry_encodings E d a b l es ->
  (exists x y, In (VPair x y) l /\ to_vec E d a x = Ok kb /\ to_vec E d b y = Ok vb) <-> In (kb, vb) es.
Proof.
  intros E d a b l es kb vb F. induction F as [|p e l es (x & y & -> & Ex & Ey) F IH].
  - split; [intros (x & y & [] & _)|intros []].
  - cbn [In]. rewrite <- IH. split.
    + intros (x' & y' & [Hi|Hi] & Hx & Hy); [left|right; exists x', y'; auto]. inversion Hi; subst x' y'. rewrite Hx in Ex. rewrite Hy in Ey.
      apply Ok_inj in Ex, Ey. destruct e. cbn in *. congruence.
    + intros [He|(x' & y' & Hi & Hx & Hy)]; [|exists x', y'; auto]. subst e. cbn [fst snd] in *. exists x, y. auto.
Qed.
(** Opened without validation, [b] gives exactly the entries [es]; the validating constructor,
    where it accepts, gives the same walker. *)
Definition map_view (E : env) (b : bytes) (es : list (bytes * bytes)) : Prop :=
  exists w, map_open E false b = Ok w /\ (forall w', map_open E true b = Ok w' -> w' = w)
    /\ entries w = Some (Ok es)
    /\ (forall probe, exists r, find_value_bytes w (fun k => bcmp k probe) = Ok r /\ forall v, r = Some v <-> In (probe, v) es)
    /\ (forall probe hint, exists r h, find_value_bytes_with_hint w hint (fun k => bcmp k probe) = Ok (r, h)
         /\ find_value_bytes w (fun k => bcmp k probe) = Ok r
         /\ match r with Some v => exists i, h = Some i /\ nth_error es (N.to_nat i) = Some (probe, v) | None => h = hint end).
Definition map_accepted (E : env) (b : bytes) : Prop := exists w, map_open E true b = Ok w.
Lemma nth_ext_eq : forall A (x y : list A), (forall j, nth_error x j = nth_error y j) -> x = y.
Proof.
  induction x as [|a x IH]; intros [|b y] H; [reflexivity|specialize (H 0%nat); discriminate|specialize (H 0%nat); discriminate|].
  pose proof (H 0%nat) as H0. inversion H0. f_equal. apply IH. intros j. exact (H (S j)).
Qed.
Lemma map_view_of : forall E es b, wf_env E -> enc_idx_map es = Ok b -> len b < 2 ^ 32 -> StronglySorted (fun x y => bcmp x y = Lt) (map fst es) ->
  (8 <= len es -> map_view E b es)
  /\ (map_accepted E b <-> len es < 8 \/ (inner_nonempty (map fst es) /\ inner_nonempty (map snd es))).
Proof.
  intros E es b W H L S. destruct (map_pieces_small es b H L) as [Pk Pv].
  pose proof (open_idx_map E es b (we_ub _ W) H (ub32 E b W L) Pk Pv S) as O. destruct (N.ltb_spec (len es) 8) as [Hn|Hn].
  - destruct O as (body & O). split; [intros Z; lia|]. split; [left; exact Hn|]. intros _. eexists. apply O.
  - destruct O as (t & body & Lt & Lb & Mk & Mv & O1 & O2 & O3).
    set (p := mkMapP t (concat (map fst es)) (concat (map snd es))) in *.
    assert (Lk : len (map fst es) = len es) by (unfold len; rewrite map_length; reflexivity).
    assert (Lv : len (map snd es) = len es) by (unfold len; rewrite map_length; reflexivity).
    assert (Nx : forall i, i < len es -> exists e, nth_error es (N.to_nat i) = Some e).
    { intros i Hi. destruct (nth_error es (N.to_nat i)) as [e|] eqn:X; [exists e; reflexivity|]. apply nth_error_None in X. unfold len in Hi. lia. }
    set (kf := piece t 0 8 (len es) (concat (map fst es))). set (vf := piece t 4 8 (len es) (concat (map snd es))).
    assert (Kf : forall i e, nth_error es (N.to_nat i) = Some e -> kf i = fst e).
    { intros i e X. unfold kf. rewrite <- Lk. apply (marks_piece t 0 8 [] (map fst es) i (fst e) Mk). rewrite nth_error_map, X. reflexivity. }
    assert (Vf : forall i e, nth_error es (N.to_nat i) = Some e -> vf i = snd e).
    { intros i e X. unfold vf. rewrite <- Lv. apply (marks_piece t 4 8 [] (map snd es) i (snd e) Mv). rewrite nth_error_map, X. reflexivity. }
    assert (En : forall sh (ps : list bytes) i, len ps = len es -> marks t sh 8 0 ps -> i < len es ->
              ends t sh 8 (len es) (len (concat ps)) i <= ends t sh 8 (len es) (len (concat ps)) (i + 1) <= len (concat ps)).
    { intros sh ps i Lp M Hi. rewrite <- Lp in *. pose proof (marks_ends t sh 8 0 ps i M) as E1. pose proof (marks_ends t sh 8 0 ps (i + 1) M) as E2.
      rewrite N.add_0_l in E1, E2. rewrite E1, E2 by lia. rewrite !N.add_0_l. split; [|apply marks_mono].
      destruct (nth_error ps (N.to_nat i)) as [x|] eqn:X; [|apply nth_error_None in X; unfold len in Hi; lia]. rewrite (firstn_S_len ps i x X). lia. }
    assert (C : content p (len es) kf vf).
    { intros i Hi. do 4 eexists. split; [apply entry_ranges_in; [exact Lt|exact Hi]|]. cbn [mp_table mp_keys mp_vals p].
      destruct (En 0 (map fst es) i Lk Mk Hi) as [A1 A2]. destruct (En 4 (map snd es) i Lv Mv Hi) as [A3 A4]. split; rewrite get_in; auto. }
    assert (Sb : sorted_by (len es) kf).
    { apply ascending_sorted. intros j Hj. destruct (Nx j) as (e1 & X1); [lia|]. destruct (Nx (j + 1)) as (e2 & X2); [lia|].
      rewrite (Kf _ _ X1), (Kf _ _ X2). replace (N.to_nat (j + 1)) with (Datatypes.S (N.to_nat j)) in X2 by lia. clear - S X1 X2.
      revert X1 X2. generalize (N.to_nat j). clear j. induction es as [|e es IH]; intros j X1 X2; [destruct j; discriminate|].
      cbn [map] in S. inversion S as [|u v S' F]; subst. destruct j as [|j].
      - cbn [nth_error] in X1, X2. inversion X1; subst e1. rewrite Forall_forall in F. apply F. apply in_map. apply (nth_error_In es 0). exact X2.
      - cbn [nth_error] in X1. apply (IH S' j X1 X2). }
    assert (Li : listed (len es) kf vf = es).
    { apply nth_ext_eq. intros j. destruct (N.ltb_spec (N.of_nat j) (len es)) as [Hj|Hj].
      - pose proof (nth_listed (len es) kf vf (N.of_nat j) Hj) as X. rewrite Nat2N.id in X. rewrite X.
        destruct (Nx _ Hj) as (e & Xe). rewrite (Kf _ _ Xe), (Vf _ _ Xe). rewrite Nat2N.id in Xe. rewrite Xe. destruct e. reflexivity.
      - assert (A1 : nth_error (listed (len es) kf vf) j = None).
        { apply nth_error_None. unfold listed. rewrite map_length, seq_length. unfold len in *. lia. }
        rewrite A1. symmetry. apply nth_error_None. unfold len in Hj. lia. }
    set (w := mkMapW body (Some p) (len es)) in *. split.
    + intros _. exists w. split; [exact O1|]. split; [|split; [|split]].
      * intros w' Hw'. destruct (classic_inner (map fst es)) as [D1|D1]; [destruct (classic_inner (map snd es)) as [D2|D2]|].
        -- rewrite O2 in Hw' by auto. apply Ok_inj in Hw'. symmetry. exact Hw'.
        -- destruct O3 as (e & O3); [tauto|]. rewrite O3 in Hw'. discriminate.
        -- destruct O3 as (e & O3); [tauto|]. rewrite O3 in Hw'. discriminate.
      * pose proof (entries_listed w p kf vf eq_refl Lt C) as Z. cbn [mw_len w] in Z. rewrite Li in Z. exact Z.
      * intros probe. pose proof (find_exact w p kf vf probe eq_refl C Sb) as Z. cbn [mw_len w] in Z. rewrite Li in Z. exact Z.
      * intros probe hint. destruct (hint_exact w p kf vf probe hint eq_refl C Sb) as (r & h & A1 & A2 & A3).
        { cbn [mw_len w]. clear - L Lt Lb. lia. }
        cbn [mw_len w] in A3. rewrite Li in A3. exists r, h. auto.
    + split.
      * intros (w' & Hw'). right. destruct (classic_inner (map fst es)) as [D1|D1]; [destruct (classic_inner (map snd es)) as [D2|D2]|].
        -- auto.
        -- destruct O3 as (e & O3); [tauto|]. rewrite O3 in Hw'. discriminate.
        -- destruct O3 as (e & O3); [tauto|]. rewrite O3 in Hw'. discriminate.
      * intros [Z|Z]; [lia|]. eexists. apply O2. exact Z.
Qed.

(** C30: looking up a key in an encoded map finds the value stored under it, and nothing else. *)
Theorem C30_encoded : forall E d k a b l bs,
  wf_env E -> sizes_honest E -> wt E d (TMap k a b) (VSeq l) -> encode_field E d MIdxMap (TMap k a b) (VSeq l) = Ok bs -> len bs < 2 ^ 32 -> 8 <= len l ->
  exists w, map_open E false bs = Ok w /\ (forall w', map_open E true bs = Ok w' -> w' = w)
    /\ forall probe, exists r, find_value_bytes w (fun key => bcmp key probe) = Ok r
         /\ forall v, r = Some v <-> exists x y, In (VPair x y) l /\ to_vec E d a x = Ok probe /\ to_vec E d b y = Ok v.
Proof.
  intros E d k a b l bs W Hh Hw H L Hl. destruct (encode_map E d k a b l bs W H) as (l' & es & P & F & S & Eb).
  pose proof (keys_strict E d k a b l l' es W Hh Hw P F S) as K.
  destruct (map_view_of E es bs W Eb L K) as [V _]. destruct V as (w & O1 & O2 & _ & V & _).
  { rewrite <- (F2_len _ _ _ _ _ F), (perm_len _ _ _ P). exact Hl. }
  exists w. split; [exact O1|]. split; [exact O2|]. intros probe. destruct (V probe) as (r & Hr & Hv). exists r. split; [exact Hr|].
  intros v. rewrite Hv. rewrite <- (in_encodings E d a b l' es probe v F). split; intros (x & y & Hi & Hxy); exists x, y; (split; [|exact Hxy]).
  - exact (Permutation_in _ P Hi).
  - exact (Permutation_in _ (Permutation_sym P) Hi).
Qed.
(** C31: with a hint, the outcome is that of the search without; after a hit the hint is the
    position of the key among the entries, after a miss it is unchanged. *)
Theorem C31_encoded : forall E d k a b l bs,
  wf_env E -> sizes_honest E -> wt E d (TMap k a b) (VSeq l) -> encode_field E d MIdxMap (TMap k a b) (VSeq l) = Ok bs -> len bs < 2 ^ 32 -> 8 <= len l ->
  exists w es, map_open E false bs = Ok w /\ entries w = Some (Ok es)
    /\ forall probe hint, exists r h, find_value_bytes_with_hint w hint (fun key => bcmp key probe) = Ok (r, h)
         /\ find_value_bytes w (fun key => bcmp key probe) = Ok r
         /\ match r with Some v => exists i, h = Some i /\ nth_error es (N.to_nat i) = Some (probe, v) | None => h = hint end.
Proof.
  intros E d k a b l bs W Hh Hw H L Hl. destruct (encode_map E d k a b l bs W H) as (l' & es & P & F & S & Eb).
  pose proof (keys_strict E d k a b l l' es W Hh Hw P F S) as K.
  destruct (map_view_of E es bs W Eb L K) as [V _]. destruct V as (w & O1 & O2 & O3 & _ & V).
  { rewrite <- (F2_len _ _ _ _ _ F), (perm_len _ _ _ P). exact Hl. }
  exists w, es. auto.
Qed.
(** C32: iterating an encoded map gives the encodings of its entries, ascending by key. *)
Theorem C32_indexed_map : forall E d k a b l bs,
  wf_env E -> sizes_honest E -> wt E d (TMap k a b) (VSeq l) -> encode_field E d MIdxMap (TMap k a b) (VSeq l) = Ok bs -> len bs < 2 ^ 32 -> 8 <= len l ->
  exists w l' es, map_open E false bs = Ok w /\ (forall w', map_open E true bs = Ok w' -> w' = w)
    /\ Permutation l' l /\ entry_encodings E d a b l' es /\ StronglySorted (fun x y => bcmp x y = Lt) (map fst es)
    /\ entries w = Some (Ok es).
Proof.
  intros E d k a b l bs W Hh Hw H L Hl. destruct (encode_map E d k a b l bs W H) as (l' & es & P & F & S & Eb).
  pose proof (keys_strict E d k a b l l' es W Hh Hw P F S) as K.
  destruct (map_view_of E es bs W Eb L K) as [V _]. destruct V as (w & O1 & O2 & O3 & _).
  { rewrite <- (F2_len _ _ _ _ _ F), (perm_len _ _ _ P). exact Hl. }
  exists w, l', es. auto 10.
Qed.
Theorem C36_indexed_map : forall E d k a b l bs,
  wf_env E -> sizes_honest E -> wt E d (TMap k a b) (VSeq l) -> encode_field E d MIdxMap (TMap k a b) (VSeq l) = Ok bs -> len bs < 2 ^ 32 ->
  exists l' es, Permutation l' l /\ entry_encodings E d a b l' es
    /\ (map_accepted E bs <-> len l < 8 \/ (inner_nonempty (map fst es) /\ inner_nonempty (map snd es))).
Proof.
  intros E d k a b l bs W Hh Hw H L. destruct (encode_map E d k a b l bs W H) as (l' & es & P & F & S & Eb).
  pose proof (keys_strict E d k a b l l' es W Hh Hw P F S) as K. exists l', es. split; [exact P|]. split; [exact F|].
  rewrite <- (perm_len _ _ _ P), (F2_len _ _ _ _ _ F). apply (map_view_of E es bs W Eb L K).
Qed.

(** ** Structs in the indexed layout *)

(** Opened without validation, the payload [p] gives the fields [es]. *)
Definition struct_view (p : bytes) (es : list bytes) : Prop :=
  exists w, struct_open false p (len es) = Ok w /\ (forall w', struct_open true p (len es) = Ok w' -> w' = w)
    /\ forall i, field_bytes w i = match nth_error es (N.to_nat i) with
                                   | Some e => Ok e
                                   | None => Err (EDeserialize (MOther 1))
                                   end.
Definition struct_accepted (p : bytes) (count : N) : Prop := exists w, struct_open true p count = Ok w.
Lemma struct_view_of : forall es p, p = struct_offsets (4 * len es) es ++ concat es -> len p < 2 ^ 32 ->
  struct_view p es /\ (struct_accepted p (len es) <-> inner_nonempty es).
Proof.
  intros es p Hp L. assert (Lp : len p = 4 * len es + len (concat es)) by (rewrite Hp, len_app, struct_offsets_len; reflexivity).
  assert (M : marks p 0 4 (4 * len es) es) by (rewrite Hp; apply marks_struct; lia).
  assert (Nf : len p <? len es * 4 = false) by (apply N.ltb_ge; lia). split.
  - exists (mkStructW p (len es)). split; [unfold struct_open; rewrite Nf; reflexivity|]. split.
    + intros w' Hw. unfold struct_open in Hw. rewrite Nf in Hw. clear Nf. destruct (at_range _ _ _); try discriminate. cbn [rbind] in Hw.
      destruct (validate_prologue _ _ _ _); try discriminate. cbn [rbind] in Hw. destruct (0 <? len es); [|inversion Hw; reflexivity].
      destruct (u32_at _ _); try discriminate. cbn [rbind] in Hw. destruct (_ <? _); [discriminate|]. inversion Hw; reflexivity.
    + intros i. unfold field_bytes. cbn [stw_count stw_payload]. destruct (N.leb_spec (len es) i) as [Hi|Hi].
      { rewrite (proj2 (nth_error_None _ _)); [reflexivity|]. unfold len in Hi. lia. }
      destruct (nth_error es (N.to_nat i)) as [x|] eqn:N1; [|apply nth_error_None in N1; unfold len in Hi; lia].
      rewrite u32_in by lia. cbn [rbind].
      assert (E1 : off p (i * 4) = ends p 0 4 (len es) (len p) i) by (rewrite ends_in by exact Hi; rewrite N.add_0_r; reflexivity).
      assert (E2 : (if i + 1 <? len es then u32_at p ((i + 1) * 4) else Ok (len p)) = Ok (ends p 0 4 (len es) (len p) (i + 1))).
      { unfold ends. destruct (N.ltb_spec (i + 1) (len es)); [|reflexivity]. rewrite u32_in by lia. rewrite N.add_0_r. reflexivity. }
      rewrite E2, E1. cbn [rbind].
      pose proof (marks_ends p 0 4 (4 * len es) es i M) as Z1. pose proof (marks_ends p 0 4 (4 * len es) es (i + 1) M) as Z2. rewrite <- Lp in Z1, Z2.
      assert (M' : marks p 0 4 (len (struct_offsets (4 * len es) es)) es) by (rewrite struct_offsets_len; exact M).
      pose proof (marks_piece p 0 4 _ es i x M' N1) as Pc. rewrite <- Hp in Pc. unfold piece in Pc.
      rewrite at_in; [f_equal; exact Pc| |].
      * rewrite Z1, Z2 by lia. rewrite (firstn_S_len es i x N1). lia.
      * rewrite Z2 by lia. pose proof (marks_mono es (N.to_nat (i + 1))). lia.
  - unfold struct_accepted, struct_open. rewrite Nf. rewrite at_in by lia. cbn [rbind].
    rewrite N.mod_small by exact L.
    set (t := cutout p 0 (len es * 4)).
    assert (Lt : len t = 4 * len es) by (unfold t; rewrite len_cutout; lia).
    assert (Ht : t = struct_offsets (4 * len es) es).
    { unfold t. pose proof (cutout_app [] (struct_offsets (4 * len es) es) (concat es)) as C. rewrite struct_offsets_len in C. change (len (@nil N)) with 0 in C.
      rewrite N.add_0_l in C. cbn [app] in C. rewrite <- Hp in C. rewrite N.mul_comm. exact C. }
    assert (Mt : marks t 0 4 (4 * len es) es) by (rewrite Ht, <- (app_nil_r (struct_offsets _ _)); apply marks_struct; lia).
    pose proof (prologue_spec t (len es) 4 (len p)) as P. specialize (P ltac:(intros; lia)).
    pose proof (monotone_order t 4 (len es) (len p)) as Q1. pose proof (marks_order t 0 4 (4 * len es) es (len p) Mt ltac:(lia)) as Q2.
    destruct (validate_prologue _ _ _ _) as [u|e|x]; cbn [rbind]; [|split; [intros [w H]; discriminate|intros; tauto]|contradiction].
    split; [intros _; tauto|]. intros _. destruct (N.ltb_spec 0 (len es)) as [Z|Z]; [|eauto]. rewrite u32_in by lia. cbn [rbind]. clear Nf.
    pose proof (M 0 Z) as M0. change (0 * 4 + 0) with 0 in M0. change (N.to_nat 0) with 0%nat in M0. cbn [firstn concat] in M0. change (len (@nil N)) with 0 in M0.
    rewrite M0. rewrite (proj2 (N.ltb_ge _ _)) by lia. eauto.
Qed.
Lemma fields_enc : forall E d r fs vs es, rmapM ser_bytes (ser_fields E (ser_ref E d) true r fs vs) = Ok es ->
  Forall2 (fun fv e => encode_field E d (mode_opt (fst fv)) (f_ty (fst fv)) (snd fv) = Ok e) (combine (filter (falive r) fs) vs) es
  /\ length es = length vs /\ length es = length (filter (falive r) fs).
Proof.
  intros E d r. induction fs as [|f fs IH]; intros vs es H; cbn [ser_fields filter] in *.
  - destruct vs; [|discriminate]. apply Ok_inj in H. subst es. split; [constructor|auto].
  - destruct (falive r f) eqn:A; [|apply IH; exact H]. destruct vs as [|v vs]; [discriminate|]. cbn [rmapM] in H.
    destruct (ser_bytes (ser_mode E (ser_ref E d) (mode_of true f) (f_ty f) v)) as [e|x|x] eqn:Hv; try discriminate. cbn [rbind] in H.
    destruct (rmapM ser_bytes (ser_fields E (ser_ref E d) true r fs vs)) as [es'|x|x] eqn:R; try discriminate. apply Ok_inj in H. subst es.
    destruct (IH _ _ R) as (F & L1 & L2). cbn [combine length]. split; [constructor; [exact Hv|exact F]|]. split; congruence.
Qed.
(** C32, C36 for structs. *)
Theorem C32_indexed_struct : forall E d n s fs h vs b,
  e_sch E n = Some s -> s_body s = SStruct fs -> sent s (scur s) = Some h -> h_opt h = true -> h_idx h = true ->
  to_vec E (S d) (TRef n) (VSeq vs) = Ok b ->
  exists hd p es, to_vec E d (TInt U16) (VInt (Z.of_N (scur s))) = Ok hd /\ b = envelope hd p
    /\ Forall2 (fun fv e => encode_field E d (mode_opt (fst fv)) (f_ty (fst fv)) (snd fv) = Ok e) (combine (filter (falive (scur s)) fs) vs) es
    /\ length es = length vs /\ length es = length (filter (falive (scur s)) fs)
    /\ struct_view p es
    /\ (struct_accepted p (len es) <-> inner_nonempty es).
Proof.
  intros E d n s fs h vs b Hs Hb Hh Ho Hi H. apply to_vec_ok in H. destruct H as (ops & H & ->).
  unfold to_writer in H. assert (H' : ser_ref E (S d) n (VSeq vs) = Ok ops) by exact H. clear H.
  cbn [ser_ref] in H'. rewrite Hs in H'. unfold ser_derived in H'. rewrite Hh, Hb in H'. unfold ser_struct in H'. rewrite Ho in H'.
  unfold ser_struct_opt, ser_payload in H'.
  destruct (rmapM ser_bytes (ser_fields E (ser_ref E d) true (scur s) fs vs)) as [es|e|x] eqn:R; try discriminate H'. cbn [rbind] in H'. rewrite Hi in H'.
  set (p := struct_offsets (4 * len es) es ++ concat es) in *.
  destruct (N.ltb_spec (len p) (2 ^ 32)) as [Hp|]; [|discriminate H']. unfold sall, sbind in H'. cbn [rbind] in H'. apply Ok_inj in H'. subst ops.
  exists (ser_u16 (e_fw E) (scur s)), p, es. split; [|split].
  - unfold to_vec, to_writer. cbn [ser_ty]. unfold ser_int. rewrite N2Z.id. unfold ser_bytes, sall. cbn [rmap out flat_map wop_bytes]. rewrite app_nil_r. reflexivity.
  - unfold envelope, out. cbn [app flat_map wop_bytes]. rewrite app_nil_r. reflexivity.
  - destruct (fields_enc E d _ _ _ _ R) as (F & L1 & L2). destruct (struct_view_of es p eq_refl Hp) as [V A]. auto 10.
Qed.

(** ** The hypotheses are met *)

Definition map_of (b : bytes) : mapw := match map_open new false b with Ok w => w | _ => mkMapW [] None 0 end.
Example C30_case : let w := map_of scores_bytes in
  wt new 0 (TMap KHash TStr (TInt U64)) scores /\ encode_field new 0 MIdxMap (TMap KHash TStr (TInt U64)) scores = Ok scores_bytes
  /\ map_open new true scores_bytes = Ok w
  /\ find_value_bytes w (fun k => bcmp k [1; 55]) = Ok (Some [49]) /\ find_value_bytes w (fun k => bcmp k [1; 57]) = Ok None
  /\ find_value_bytes_with_hint w (Some 2) (fun k => bcmp k [1; 55]) = Ok (Some [49], Some 7)
  /\ find_value_bytes_with_hint w (Some 2) (fun k => bcmp k [1; 57]) = Ok (None, Some 2).
Proof. cbv zeta. split; [apply wtb_ok; vm_compute; reflexivity|]. repeat split; vm_compute; reflexivity. Qed.
Definition seq_of (b : bytes) : seqw := match seq_open new false b with Ok w => w | _ => mkSeqW [] None 0 end.
Example C32_set_case : let w := seq_of ports_bytes in
  seq_open new true ports_bytes = Ok w /\ element_bytes w 5 = Ok [251; 251; 0] /\ element_bytes w 10 = Err (EDeserialize (MOther 1)).
Proof. cbv zeta. repeat split; vm_compute; reflexivity. Qed.
(** The payload of [u_new]: five fields. *)
Definition u_payload : bytes := skipn 5 u_new_bytes.
Example C32_struct_case : u_new_bytes = envelope [3] u_payload
  /\ match struct_open true u_payload 5 with Ok w => field_bytes w 3 = Ok [9] /\ field_bytes w 5 = Err (EDeserialize (MOther 1)) | _ => False end.
Proof. vm_compute. repeat split. Qed.

(** ** C36 does not hold for elements that take no bytes *)

Definition units (n : nat) : val := VSeq (repeat VUnit n).
Theorem C36_seq_refuted : exists b e, wt new 0 (TVec TUnit) (units 8) /\ encode_field new 0 MIdxSeq (TVec TUnit) (units 8) = Ok b
  /\ run (decode_field new 0 MIdxSeq (TVec TUnit)) b = Ok (units 8, []) /\ seq_open new true b = Err e.
Proof. eexists. eexists. split; [apply wtb_ok; vm_compute; reflexivity|]. repeat split; vm_compute; reflexivity. Qed.
Definition flags : val := VSeq (map (fun n => VPair (VInt n) VUnit) [1; 2; 3; 4; 5; 6; 7; 8]%Z).
Theorem C36_map_refuted : exists b e, wt new 0 (TMap KOrd (TInt U8) TUnit) flags /\ encode_field new 0 MIdxMap (TMap KOrd (TInt U8) TUnit) flags = Ok b
  /\ run (decode_field new 0 MIdxMap (TMap KOrd (TInt U8) TUnit)) b = Ok (flags, []) /\ map_open new true b = Err e.
Proof. eexists. eexists. split; [apply wtb_ok; vm_compute; reflexivity|]. repeat split; vm_compute; reflexivity. Qed.
(** A struct whose first field is a unit. *)
Definition marker : schema := mkSchema [mkHent true true] (SStruct [fld TUnit 1 None; fld (TInt U8) 1 None]).
Definition mark_env : env := ex_env (fun n => if n =? 0 then Some marker else None).
Theorem C36_struct_refuted : wf_env mark_env /\ wt mark_env 1 (TRef 0) (VSeq [VUnit; VInt 7])
  /\ exists hd p e, to_vec mark_env 1 (TRef 0) (VSeq [VUnit; VInt 7]) = Ok (envelope hd p)
     /\ from_slice mark_env 1 (TRef 0) (envelope hd p) = Ok (VSeq [VUnit; VInt 7]) /\ struct_open true p 2 = Err e.
Proof.
  split; [apply wf_ex; intros n s; destruct (n =? 0); intros H; inversion H; apply wf_schemab_ok; vm_compute; reflexivity|].
  split; [apply wtb_ok; vm_compute; reflexivity|]. exists [1], [8; 0; 0; 0; 8; 0; 0; 0; 7]. eexists. repeat split; vm_compute; reflexivity.
Qed.
(** Below 8 entries there is no table, and a lookup of a key that is there fails. *)
Definition few : val := VSeq (map score [0;1;2]).
Theorem C30_small_refuted : exists b w e, wt new 0 (TMap KHash TStr (TInt U64)) few /\ encode_field new 0 MIdxMap (TMap KHash TStr (TInt U64)) few = Ok b
  /\ In (score 1) (map score [0;1;2]) /\ to_vec new 0 TStr (VBytes [49]) = Ok [1; 49]
  /\ map_open new false b = Ok w /\ map_open new true b = Ok w /\ find_value_bytes w (fun k => bcmp k [1; 49]) = Err e /\ entries w = None.
Proof.
  eexists. eexists. eexists. split; [apply wtb_ok; vm_compute; reflexivity|]. split; [vm_compute; reflexivity|]. split; [right; left; reflexivity|].
  repeat split; vm_compute; reflexivity.
Qed.

(** The README looks a string up by its own bytes ([w.find_value_bytes(|k| k.cmp("bravo".as_bytes()))]).  The keys on the
    wire have a length in front: no entry is ever found under its own bytes, what is found belongs to another key. *)
Theorem C30_readme_refuted : forall E d k b l bs w text,
  wf_env E -> sizes_honest E -> wt E d (TMap k TStr b) (VSeq l) -> encode_field E d MIdxMap (TMap k TStr b) (VSeq l) = Ok bs -> len bs < 2 ^ 32 -> 8 <= len l ->
  map_open E true bs = Ok w ->
  exists r, find_value_bytes w (fun key => bcmp key text) = Ok r
    /\ forall v, r = Some v -> exists other y, other <> text /\ In (VPair (VBytes other) y) l /\ to_vec E d b y = Ok v.
Proof.
  intros E d k b l bs w text W Hh Hw He Hl H8 Ho. destruct (C30_encoded E d k TStr b l bs W Hh Hw He Hl H8) as (w0 & _ & H1 & H2).
  rewrite <- (H1 w Ho) in H2. clear H1. destruct (H2 text) as (r & Hr & H3). exists r. split; [exact Hr|]. intros v Hv. apply H3 in Hv.
  destruct Hv as (x & y & Hin & Hx & Hy). unfold to_vec, to_writer in Hx. destruct x as [| |o| | | |]; try discriminate. exists o, y. split; [|auto].
  cbn [ser_ty] in Hx. unfold ser_blob, ser_bytes, out in Hx. cbn [rmap flat_map wop_bytes] in Hx. apply Ok_inj in Hx. rewrite app_nil_r in Hx. intros ->.
  assert (Hn : len (ser_len E (len text)) = 0) by (pose proof (f_equal len Hx) as K; rewrite len_app in K; lia).
  apply len_0 in Hn. unfold ser_len, ser_usize, ser_u64 in Hn. destruct (e_fw E); [discriminate|]. unfold encode_u64 in Hn. repeat (destruct (_ <? _) in Hn; [discriminate|]). discriminate.
Qed.
(** So with the README's map nothing is found, and in another one the value of the key "a" under the text "\x01a". *)
Definition word (s : bytes) (n : Z) : val := VPair (VBytes s) (VInt n).
Definition a_map : val := VSeq ([word [1; 97] 10; word [97] 20] ++ map (fun c => word [c] 30) [98; 99; 100; 101; 102; 103]).
Example C30_readme : exists bs w, wt new 0 (TMap KOrd TStr (TInt U64)) a_map /\ encode_field new 0 MIdxMap (TMap KOrd TStr (TInt U64)) a_map = Ok bs
  /\ map_open new true bs = Ok w
  /\ find_value_bytes w (fun key => bcmp key [98]) = Ok None /\ find_value_bytes w (fun key => bcmp key [1; 97]) = Ok (Some [20])
  /\ find_value_bytes w (fun key => bcmp key [2; 1; 97]) = Ok (Some [10]).
Proof.
  eexists. eexists. split; [apply wtb_ok; vm_compute; reflexivity|]. split; [vm_compute; reflexivity|]. split; [vm_compute; reflexivity|]. repeat split; vm_compute; reflexivity.
Qed.

Print Assumptions C30_encoded.
Print Assumptions C30_small_refuted.
Print Assumptions C30_readme_refuted.
Print Assumptions C31_encoded.
Print Assumptions C32_indexed_seq.
Print Assumptions C32_indexed_set.
Print Assumptions C32_indexed_map.
Print Assumptions C32_indexed_struct.
Print Assumptions C36_indexed_seq.
Print Assumptions C36_indexed_set.
Print Assumptions C36_indexed_map.
Print Assumptions C36_seq_refuted.
Print Assumptions C36_map_refuted.
Print Assumptions C36_struct_refuted.
