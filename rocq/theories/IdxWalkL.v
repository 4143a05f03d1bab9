(** Lemmas about random access into indexed encodings.  Proof part. *)

From Verif Require Import Base BaseL Prog ProgL Ty Ser De SortL IdxL IdxWalk.
From Coq Require Import List NArith Bool Lia Arith Sorted.
Import ListNotations.
Open Scope N_scope.

(** Slices. *)
Definition cutout (b : bytes) (s e : N) : bytes := firstn (N.to_nat (e - s)) (skipn (N.to_nat s) b).
Lemma len_cutout : forall b s e, s <= e -> e <= len b -> len (cutout b s e) = e - s.
Proof. intros b s e H1 H2. unfold cutout, len in *. rewrite firstn_length, skipn_length. lia. Qed.
Lemma get_in : forall b s e, s <= e -> e <= len b -> get b s e = Some (cutout b s e).
Proof.
  intros b s e H1 H2. unfold get. rewrite (proj2 (N.leb_le _ _) H1), (proj2 (N.leb_le _ _) H2). reflexivity.
Qed.
Lemma get_some : forall b s e x, get b s e = Some x -> s <= e /\ e <= len b /\ x = cutout b s e.
Proof.
  intros b s e x H. unfold get in H. destruct (N.leb_spec s e); [|discriminate]. destruct (N.leb_spec e (len b)); [|discriminate].
  cbn [andb] in H. inversion H. auto.
Qed.
Lemma get_none : forall b s e, get b s e = None <-> e < s \/ len b < e.
Proof.
  intros b s e. unfold get. destruct (N.leb_spec s e); destruct (N.leb_spec e (len b)); cbn [andb]; split; intros H'; try discriminate; auto; lia.
Qed.
Lemma cutout_split : forall b s e, s <= e -> e <= len b -> exists p q, b = p ++ cutout b s e ++ q /\ len p = s.
Proof.
  intros b s e H1 H2. exists (firstn (N.to_nat s) b), (skipn (N.to_nat (e - s)) (skipn (N.to_nat s) b)).
  unfold cutout. rewrite !firstn_skipn. split; [reflexivity|]. unfold len in *. rewrite firstn_length. lia.
Qed.
Lemma cutout_app : forall p x q, cutout (p ++ x ++ q) (len p) (len p + len x) = x.
Proof.
  intros p x q. unfold cutout. replace (len p + len x - len p) with (len x) by lia. unfold len. rewrite !Nat2N.id.
  rewrite skipn_app_exact by reflexivity. apply firstn_app_exact. reflexivity.
Qed.
Lemma at_in : forall b s e, s <= e -> e <= len b -> at_range b s e = Ok (cutout b s e).
Proof. intros b s e H1 H2. unfold at_range. rewrite get_in by assumption. reflexivity. Qed.
Lemma at_out : forall b s e, e < s \/ len b < e -> at_range b s e = Panic PSlice.
Proof. intros b s e H. unfold at_range. rewrite (proj2 (get_none b s e) H). reflexivity. Qed.
Lemma at_ok : forall b s e x, at_range b s e = Ok x -> s <= e /\ e <= len b /\ x = cutout b s e.
Proof. intros b s e x H. unfold at_range in H. destruct (get b s e) eqn:G; [|discriminate]. inversion H; subst. apply get_some. exact G. Qed.
Lemma at_app : forall p x q, at_range (p ++ x ++ q) (len p) (len p + len x) = Ok x.
Proof. intros p x q. rewrite at_in; [rewrite cutout_app; reflexivity|lia|rewrite !len_app; lia]. Qed.

(** The offset at byte [o] of a table. *)
Definition off (b : bytes) (o : N) : N := le_val (cutout b o (o + 4)).
Lemma u32_in : forall b o, o + 4 <= len b -> u32_at b o = Ok (off b o).
Proof. intros b o H. unfold u32_at. rewrite at_in by lia. reflexivity. Qed.
Lemma u32_ok : forall b o x, u32_at b o = Ok x -> o + 4 <= len b /\ x = off b o.
Proof.
  intros b o x H. unfold u32_at in H. destruct (at_range b o (o + 4)) eqn:A; try discriminate. apply at_ok in A. destruct A as (_ & H2 & ->).
  inversion H. auto.
Qed.

(** The varint at the head of a payload is the one a reader reads. *)
Lemma varint_at_spec : forall E r, match varint_at E r with
  | Ok (n, k) => 1 <= k <= 9 /\ k <= len r /\ exists hd tl, r = hd ++ tl /\ len hd = k /\ run (read_varint E) r = Ok (n, tl)
  | Err e => exists e', run (read_varint E) r = Err e'
  | Panic p => False
  end.
Proof.
  intros E [|t r]; [exists EIo; reflexivity|]. unfold varint_at, read_varint. rewrite run_bind, run_read_byte_cons.
  assert (Hr : forall k (n : N), len (t :: r) <? 1 + N.of_nat k = false -> len (firstn k r) = N.of_nat k /\ r = firstn k r ++ skipn k r).
  { intros k n H. apply N.ltb_ge in H. split; [|symmetry; apply firstn_skipn]. unfold len in *. rewrite firstn_length. cbn [length] in H. lia. }
  assert (Hs : forall k, len (t :: r) <? 1 + N.of_nat k = true -> split_at (N.of_nat k) r = None).
  { intros k H. apply N.ltb_lt in H. apply split_at_none. unfold len in *. cbn [length] in H. lia. }
  assert (Hk : forall k, 0 < N.of_nat k -> len (t :: r) <? 1 + N.of_nat k = false -> run (read_n (N.of_nat k)) r = Ok (firstn k r, skipn k r)
     /\ 1 + N.of_nat k <= len (t :: r) /\ exists hd tl, t :: r = hd ++ tl /\ len hd = 1 + N.of_nat k /\ tl = skipn k r).
  { intros k H0 H. destruct (Hr k 0 H) as [H1 H2]. split; [|split; [apply N.ltb_ge; exact H|]].
    - rewrite H2 at 1. apply run_read_n_app. auto.
    - exists (t :: firstn k r), (skipn k r). split; [cbn [app]; f_equal; exact H2|]. split; [|reflexivity]. unfold len in *. cbn [length]. lia. }
  destruct (N.leb_spec t 250) as [H|H].
  { replace (t =? 251) with false by (symmetry; apply N.eqb_neq; lia). replace (t =? 252) with false by (symmetry; apply N.eqb_neq; lia).
    replace (t =? 253) with false by (symmetry; apply N.eqb_neq; lia). replace (253 <? t) with false by (symmetry; apply N.ltb_ge; lia).
    split; [lia|]. split; [unfold len; cbn [length]; lia|]. exists [t], r. repeat split. }
  destruct (N.eqb_spec t 251) as [H1|H1].
  { change 3 with (1 + N.of_nat 2). destruct (len (t :: r) <? 1 + N.of_nat 2) eqn:L.
    - eexists. rewrite run_bind. change 2 with (N.of_nat 2). unfold read_n. cbn [run]. rewrite (Hs _ L). reflexivity.
    - destruct (Hk 2%nat eq_refl L) as (H2 & H3 & hd & tl & H4 & H5 & H6). split; [lia|]. split; [exact H3|]. exists hd, tl. split; [exact H4|].
      split; [exact H5|]. change 2 with (N.of_nat 2). rewrite run_bind, H2. subst tl. reflexivity. }
  destruct (N.eqb_spec t 252) as [H1'|H1'].
  { change 5 with (1 + N.of_nat 4). destruct (len (t :: r) <? 1 + N.of_nat 4) eqn:L.
    - eexists. rewrite run_bind. change 4 with (N.of_nat 4). unfold read_n. cbn [run]. rewrite (Hs _ L). reflexivity.
    - destruct (Hk 4%nat eq_refl L) as (H2 & H3 & hd & tl & H4 & H5 & H6). split; [lia|]. split; [exact H3|]. exists hd, tl. split; [exact H4|].
      split; [exact H5|]. change 4 with (N.of_nat 4). rewrite run_bind, H2. subst tl. reflexivity. }
  destruct (N.eqb_spec t 253) as [H1''|H1''].
  { change 9 with (1 + N.of_nat 8). destruct (len (t :: r) <? 1 + N.of_nat 8) eqn:L.
    - eexists. rewrite run_bind. change 8 with (N.of_nat 8). unfold read_n. cbn [run]. rewrite (Hs _ L). reflexivity.
    - destruct (Hk 8%nat eq_refl L) as (H2 & H3 & hd & tl & H4 & H5 & H6). destruct (le_val (firstn 8 r) <? 2 ^ e_ub E) eqn:B.
      + split; [lia|]. split; [exact H3|]. exists hd, tl. split; [exact H4|]. split; [exact H5|].
        change 8 with (N.of_nat 8). rewrite run_bind, H2. rewrite B. subst tl. reflexivity.
      + eexists. change 8 with (N.of_nat 8). rewrite run_bind, H2. rewrite B. reflexivity. }
  eexists. replace (253 <? t) with true by (symmetry; apply N.ltb_lt; lia). reflexivity.
Qed.

(** Offset tables. *)
Definition fits_table (t : bytes) (stride i n : N) : Prop := forall j, i <= j < i + n -> j * stride + 4 <= len t.
Lemma prologue_loop_spec : forall n i t stride plen last, fits_table t stride i (N.of_nat n) ->
  match prologue_loop n i t stride plen last with
  | Ok _ => (forall j, i <= j < i + N.of_nat n -> off t (j * stride) <= plen)
            /\ (forall j, i <= j -> j + 1 < i + N.of_nat n -> off t (j * stride) < off t ((j + 1) * stride))
            /\ (forall p, last = Some p -> (0 < n)%nat -> p < off t (i * stride))
  | Err _ => ~ ((forall j, i <= j < i + N.of_nat n -> off t (j * stride) <= plen)
            /\ (forall j, i <= j -> j + 1 < i + N.of_nat n -> off t (j * stride) < off t ((j + 1) * stride))
            /\ (forall p, last = Some p -> (0 < n)%nat -> p < off t (i * stride)))
  | Panic _ => False
  end.
Proof.
  induction n as [|n IH]; intros i t stride plen last Hf; cbn [prologue_loop].
  - split; [lia|]. split; [lia|]. intros p _ H. inversion H.
  - rewrite u32_in by (apply Hf; lia). cbn [rbind].
    destruct (N.ltb_spec plen (off t (i * stride))) as [H|H].
    { intros (H1 & _). specialize (H1 i). lia. }
    destruct (match last with Some prev => off t (i * stride) <=? prev | None => false end) eqn:L.
    { destruct last as [p|]; [|discriminate]. apply N.leb_le in L. intros (_ & _ & H3). specialize (H3 p eq_refl). lia. }
    assert (Hf' : fits_table t stride (i + 1) (N.of_nat n)) by (intros j Hj; apply Hf; lia).
    assert (HL : forall p, last = Some p -> p < off t (i * stride)) by (intros p ->; apply N.leb_gt in L; exact L).
    specialize (IH (i + 1) t stride plen (Some (off t (i * stride))) Hf').
    destruct (prologue_loop n (i + 1) t stride plen (Some (off t (i * stride)))) as [u|e|p].
    + destruct IH as (H1 & H2 & H3). split; [|split].
      * intros j Hj. destruct (N.eq_dec j i) as [->|Hne]; [exact H|apply H1; lia].
      * intros j Hj Hj'. destruct (N.eq_dec j i) as [->|Hne]; [apply H3; [reflexivity|lia]|apply H2; lia].
      * intros p Hp _. apply HL. exact Hp.
    + intros (H1 & H2 & H3). apply IH. split; [|split].
      * intros j Hj. apply H1. lia.
      * intros j Hj Hj'. apply H2; lia.
      * intros p Hp Hn. inversion Hp; subst. apply H2; lia.
    + exact IH.
Qed.
Definition monotone_table (t : bytes) (stride n plen : N) : Prop :=
  (forall j, j < n -> off t (j * stride) <= plen) /\ (forall j, j + 1 < n -> off t (j * stride) < off t ((j + 1) * stride)).
Lemma prologue_spec : forall t n stride plen, (forall j, j < n -> j * stride + 4 <= len t) ->
  match validate_prologue t n stride plen with
  | Ok _ => monotone_table t stride n plen
  | Err _ => ~ monotone_table t stride n plen
  | Panic _ => False
  end.
Proof.
  intros t n stride plen Hf. unfold validate_prologue, monotone_table.
  pose proof (prologue_loop_spec (N.to_nat n) 0 t stride plen None) as H. rewrite N2Nat.id in H.
  assert (Hf' : fits_table t stride 0 n) by (intros j Hj; apply Hf; lia). specialize (H Hf').
  destruct (prologue_loop _ _ _ _ _ _).
  - destruct H as (H1 & H2 & _). split; intros j Hj; [apply H1|apply H2]; lia.
  - intros (H1 & H2). apply H. split; [|split]; [intros j Hj; apply H1; lia|intros j _ Hj; apply H2; lia|discriminate].
  - exact H.
Qed.

(** Cutting a region at non-decreasing positions. *)
Definition pieces (b : bytes) (c : N -> N) (i : N) (k : nat) : list bytes :=
  map (fun j => cutout b (c (i + N.of_nat j)) (c (i + N.of_nat j + 1))) (seq 0 k).
Lemma pieces_S : forall b c i k, pieces b c i (S k) = cutout b (c i) (c (i + 1)) :: pieces b c (i + 1) k.
Proof.
  intros b c i k. unfold pieces. cbn [seq map]. rewrite N.add_0_r. f_equal. rewrite <- seq_shift, map_map. apply map_ext.
  intros j. replace (i + N.of_nat (S j)) with (i + 1 + N.of_nat j) by lia. reflexivity.
Qed.
Lemma pieces_length : forall b c i k, length (pieces b c i k) = k.
Proof. intros. unfold pieces. rewrite map_length, seq_length. reflexivity. Qed.
Lemma pieces_nth : forall b c k j, (j < k)%nat -> nth_error (pieces b c 0 k) j = Some (cutout b (c (N.of_nat j)) (c (N.of_nat j + 1))).
Proof.
  intros b c k j H. unfold pieces. rewrite nth_error_map.
  assert (Hs : nth_error (seq 0 k) j = Some j).
  { rewrite (nth_error_nth' _ 0%nat) by (rewrite seq_length; exact H). rewrite seq_nth by exact H. reflexivity. }
  rewrite Hs. reflexivity.
Qed.
Lemma skipn_skipn' : forall A (l : list A) a b, skipn a (skipn b l) = skipn (b + a) l.
Proof. intros A l a b. revert l. induction b as [|b IH]; intros l; [reflexivity|]. destruct l; [rewrite !skipn_nil; reflexivity|]. apply IH. Qed.
Lemma cutout_glue : forall b s m e, s <= m -> m <= e -> e <= len b -> cutout b s m ++ cutout b m e = cutout b s e.
Proof.
  intros b s m e H1 H2 H3. unfold cutout. replace (N.to_nat m) with (N.to_nat s + N.to_nat (m - s))%nat by lia.
  rewrite <- skipn_skipn'. generalize (skipn (N.to_nat s) b) as l. intros l. replace (N.to_nat (e - s)) with (N.to_nat (m - s) + N.to_nat (e - m))%nat by lia.
  generalize (N.to_nat (m - s)) as x. generalize (N.to_nat (e - m)) as y. clear. intros y x. revert l.
  induction x as [|x IH]; intros l; [reflexivity|]. destruct l as [|a l]; [cbn; rewrite firstn_nil; reflexivity|]. cbn. f_equal. apply IH.
Qed.
Lemma pieces_concat : forall b c k i, (forall j, i <= j < i + N.of_nat k -> c j <= c (j + 1)) -> c (i + N.of_nat k) <= len b ->
  concat (pieces b c i k) = cutout b (c i) (c (i + N.of_nat k)) /\ c i <= c (i + N.of_nat k).
Proof.
  intros b c. induction k as [|k IH]; intros i Hm Hl.
  - cbn [N.of_nat] in *. rewrite N.add_0_r in *. split; [|lia]. unfold pieces, cutout. cbn [seq map concat]. rewrite N.sub_diag. reflexivity.
  - rewrite pieces_S. cbn [concat]. replace (i + N.of_nat (S k)) with (i + 1 + N.of_nat k) in * by lia.
    destruct (IH (i + 1)) as [H1 H2]; [intros j Hj; apply Hm; lia|exact Hl|]. rewrite H1. assert (c i <= c (i + 1)) by (apply Hm; lia).
    split; [apply cutout_glue; [assumption|assumption|exact Hl]|lia].
Qed.
(** The pieces from the first cut to the end of the region. *)
Lemma tiles : forall b c n, (forall j, j < n -> c j <= c (j + 1)) -> c n = len b ->
  exists pre, b = pre ++ concat (pieces b c 0 (N.to_nat n)) /\ len pre = c 0.
Proof.
  intros b c n Hm He. pose proof (pieces_concat b c (N.to_nat n) 0) as H. rewrite N2Nat.id, N.add_0_l in H.
  destruct H as [H1 H2]; [intros j Hj; apply Hm; lia|lia|]. rewrite H1. rewrite He in *.
  destruct (cutout_split b (c 0) (len b)) as (p & q & Hb & Hp); [exact H2|lia|]. exists p. split; [|exact Hp].
  rewrite Hb at 1. f_equal. assert (q = []); [|subst q; apply app_nil_r].
  assert (Hq : len b = len p + (len b - c 0) + len q).
  { rewrite Hb at 1. rewrite !len_app, len_cutout by lia. lia. }
  assert (len q = 0) by lia. destruct q; [reflexivity|]. unfold len in H. cbn [length] in H. lia.
Qed.

(** Opening. *)
Lemma uadd_no : forall E a b, a + b < 2 ^ e_ub E -> uadd E a b = Ok (a + b).
Proof. intros E a b H. unfold uadd. rewrite (proj2 (N.ltb_lt _ _) H). reflexivity. Qed.
Definition indexed (f : N) : Prop := N.land f FLAG_INDEXED <> 0.

(** The offsets that delimit the elements: those of the table, then the end of the region. *)
Definition ends (t : bytes) (sh stride n stop i : N) : N := if i <? n then off t (i * stride + sh) else stop.
Lemma ends_in : forall t sh stride n stop i, i < n -> ends t sh stride n stop i = off t (i * stride + sh).
Proof. intros. unfold ends. rewrite (proj2 (N.ltb_lt _ _) H). reflexivity. Qed.
Lemma ends_out : forall t sh stride n stop i, n <= i -> ends t sh stride n stop i = stop.
Proof. intros. unfold ends. rewrite (proj2 (N.ltb_ge _ _) H). reflexivity. Qed.
Definition in_order (t : bytes) (sh stride n plen : N) : Prop :=
  (forall j, j < n -> off t (j * stride + sh) <= plen)
  /\ (forall j, j + 1 < n -> off t (j * stride + sh) < off t ((j + 1) * stride + sh)).
Lemma monotone_order : forall t stride n plen, monotone_table t stride n plen <-> in_order t 0 stride n plen.
Proof.
  intros. unfold monotone_table, in_order. split; intros [H1 H2]; split; intros j Hj; specialize (H1 j); specialize (H2 j);
    rewrite ?N.add_0_r in *; auto; apply H2; exact Hj.
Qed.
Lemma ends_mono : forall t sh stride n plen stop, in_order t sh stride n plen -> plen <= stop ->
  (forall j, j < n -> ends t sh stride n stop j <= ends t sh stride n stop (j + 1))
  /\ (forall j, ends t sh stride n stop j <= stop).
Proof.
  intros t sh stride n plen stop [H1 H2] Hp. split.
  - intros j Hj. rewrite (ends_in _ _ _ _ _ j) by exact Hj. unfold ends. destruct (N.ltb_spec (j + 1) n).
    + specialize (H2 j). lia.
    + specialize (H1 j). lia.
  - intros j. unfold ends. destruct (N.ltb_spec j n); [specialize (H1 j); lia|lia].
Qed.

(** The parts of an indexed sequence payload. *)
Record seq_parts (E : env) (v : bool) (b : bytes) (w : seqw) : Prop := mkSeqParts
  { sp_head : exists hd, b = hd ++ sw_body w /\ 2 <= len hd
  ; sp_offs : forall t, sw_offs w = Some t -> exists hd, b = hd ++ t ++ sw_body w /\ len t = 4 * sw_len w
      /\ (v = true -> in_order t 0 4 (sw_len w) (len (sw_body w))) }.
(** The conditions under which opening overflows. *)
Definition seq_overflow (E : env) (b : bytes) : Prop :=
  exists f r n r', b = f :: r /\ indexed f /\ run (read_varint E) r = Ok (n, r')
    /\ n * 4 < 2 ^ e_ub E /\ 2 ^ e_ub E <= len b - len r' + n * 4.

Lemma at_tail : forall b c, c <= len b -> exists hd tl, at_range b c (len b) = Ok tl /\ b = hd ++ tl /\ len hd = c.
Proof.
  intros b c H. destruct (cutout_split b c (len b)) as (p & q & Hb & Hp); [exact H|lia|]. exists p, (cutout b c (len b)).
  rewrite at_in by lia. split; [reflexivity|]. split; [|exact Hp].
  assert (Hq : len b = len p + (len b - c) + len q) by (rewrite Hb at 1; rewrite !len_app, len_cutout by lia; lia).
  assert (len q = 0) by lia. destruct q; [rewrite app_nil_r in Hb; exact Hb|]. unfold len in H0. cbn [length] in H0. lia.
Qed.
Lemma at_eq : forall b p x q s e, b = p ++ x ++ q -> s = len p -> e = s + len x -> at_range b s e = Ok x.
Proof. intros b p x q s e -> -> ->. apply at_app. Qed.
Lemma at_eq_end : forall b p x s e, b = p ++ x -> s = len p -> e = s + len x -> at_range b s e = Ok x.
Proof. intros b p x s e H H1 H2. apply (at_eq b p x [] s e); [rewrite app_nil_r; exact H|exact H1|exact H2]. Qed.
Lemma cut_len : forall (b : bytes) n, n <= len b -> exists x y, b = x ++ y /\ len x = n.
Proof.
  intros b n H. exists (firstn (N.to_nat n) b), (skipn (N.to_nat n) b). split; [symmetry; apply firstn_skipn|].
  unfold len in *. rewrite firstn_length. lia.
Qed.
Lemma uadd_over : forall E a b, b < 2 ^ e_ub E -> 2 ^ e_ub E <= a + b -> a < 2 ^ e_ub E ->
  uadd E a b = Panic POverflow \/ (uadd E a b = Ok (a + b - 2 ^ e_ub E) /\ a + b - 2 ^ e_ub E < a).
Proof.
  intros E a b Hb H Ha. unfold uadd. rewrite (proj2 (N.ltb_ge _ _) H). destruct (e_dbg E); [left; reflexivity|]. right.
  assert (P : 2 ^ e_ub E <> 0) by (clear - Hb; lia). split; [|lia]. f_equal.
  replace (a + b) with (a + b - 2 ^ e_ub E + 1 * 2 ^ e_ub E) at 1 by lia. rewrite N.mod_add by exact P. apply N.mod_small. lia.
Qed.
Lemma seq_open_spec : forall E v b, 16 <= 2 ^ e_ub E -> match seq_open E v b with
  | Ok w => seq_parts E v b w /\ ~ seq_overflow E b
  | Err _ => ~ seq_overflow E b
  | Panic _ => seq_overflow E b
  end.
Proof.
  intros E v b Hub. unfold seq_open. destruct b as [|f r]; [intros (f & r & n & r' & H & _); discriminate|].
  pose proof (varint_at_spec E r) as V. destruct (varint_at E r) as [[n k]|e|p]; cbn [rbind fst snd].
  2: { destruct V as (e' & V). intros (f0 & r0 & n & r' & H & _ & Hr & _). inversion H; subst. congruence. }
  2: { contradiction. }
  destruct V as (Hk & Hkl & hd & tl & Hr & Hh & Hrun).
  assert (Lb : len (f :: r) = 1 + k + len tl) by (rewrite Hr; unfold len in *; cbn [length]; rewrite app_length; lia).
  assert (Lr : len (f :: r) - len tl = 1 + k) by lia.
  destruct (N.eqb_spec (N.land f FLAG_INDEXED) 0) as [Hf|Hf].
  { destruct (at_tail (f :: r) (1 + k)) as (p & q & H1 & H2 & H3); [lia|]. rewrite H1. cbn [rmap rbind]. split; [|intros (f0 & r0 & n0 & r' & H & Hi & _); inversion H; subst; contradiction].
    constructor; cbn [sw_body sw_offs].
    - exists p. split; [exact H2|lia].
    - discriminate. }
  destruct (N.ltb_spec (n * 4) (2 ^ e_ub E)) as [Hn|Hn].
  2: { intros (f0 & r0 & n0 & r' & H & _ & Hr' & Hn' & _). inversion H; subst f0 r0. rewrite Hrun in Hr'. inversion Hr'; subst. lia. }
  destruct (N.lt_ge_cases (1 + k + n * 4) (2 ^ e_ub E)) as [Hs|Hs].
  - assert (No : ~ seq_overflow E (f :: r)).
    { intros (f0 & r0 & n0 & r' & H & _ & Hr' & Hn' & Ho). inversion H; subst f0 r0. rewrite Hrun in Hr'. inversion Hr'; subst n0 r'. lia. }
    rewrite uadd_no by exact Hs. cbn [rbind]. destruct (N.ltb_spec (len (f :: r)) (1 + k + n * 4)) as [Hl|Hl]; [exact No|].
    destruct (cut_len tl (n * 4)) as (t & q & Htl & Lt'); [lia|].
    assert (Hb : f :: r = (f :: hd) ++ t ++ q) by (rewrite Hr, Htl; reflexivity).
    assert (Lhd : len (f :: hd) = 1 + k) by (unfold len in *; cbn [length]; lia).
    rewrite (at_eq (f :: r) (f :: hd) t q) by (try exact Hb; lia). cbn [rbind].
    assert (A : at_range (f :: r) (1 + k + n * 4) (len (f :: r)) = Ok q).
    { apply (at_eq_end (f :: r) ((f :: hd) ++ t) q); [rewrite <- app_assoc; exact Hb|rewrite len_app; lia|rewrite Hb, !len_app; lia]. }
    rewrite A.
    cbn [rbind].
    assert (Lt : len t = 4 * n) by lia.
    assert (Hp : (forall j, j < n -> j * 4 + 4 <= len t)) by (intros j Hj; lia).
    assert (Hparts : (v = true -> in_order t 0 4 n (len q)) -> seq_parts E v (f :: r) (mkSeqW q (Some t) n) /\ ~ seq_overflow E (f :: r)).
    { intros Ho. split; [|exact No]. constructor; cbn [sw_body sw_offs sw_len].
      - exists ((f :: hd) ++ t). rewrite <- app_assoc. split; [exact Hb|rewrite len_app; lia].
      - intros t' Ht. inversion Ht; subst t'. exists (f :: hd). split; [exact Hb|]. split; [exact Lt|exact Ho]. }
    destruct v.
    + pose proof (prologue_spec t n 4 (len q mod 2 ^ 32) Hp) as P. destruct (validate_prologue t n 4 (len q mod 2 ^ 32)); cbn [rbind].
      * apply Hparts. intros _. apply monotone_order in P. destruct P as [P1 P2]. split; [|exact P2]. intros j Hj. specialize (P1 j Hj).
        assert (len q mod 2 ^ 32 <= len q) by (apply N.mod_le; discriminate). lia.
      * exact No.
      * contradiction.
    + cbn [rbind]. apply Hparts. discriminate.
  - assert (Yes : seq_overflow E (f :: r)) by (exists f, r, n, tl; repeat split; auto; lia).
    destruct (N.lt_ge_cases (1 + k) (2 ^ e_ub E)) as [Hk'|Hk'].
    2: { exfalso. clear - Hk Hk' Hub. lia. }
    destruct (uadd_over E (1 + k) (n * 4) Hn Hs Hk') as [U|[U Hlt]]; rewrite U; cbn [rbind].
    + exact Yes.
    + destruct (N.ltb_spec (len (f :: r)) (1 + k + n * 4 - 2 ^ e_ub E)) as [Hl|Hl]; [exfalso; lia|].
      rewrite at_out by lia. cbn [rbind]. exact Yes.
Qed.

(** The [j]-th piece of a region. *)
Definition piece (t : bytes) (sh stride n : N) (region : bytes) (j : N) : bytes :=
  cutout region (ends t sh stride n (len region) j) (ends t sh stride n (len region) (j + 1)).
Lemma ble_lt : forall a b, ble b a = false <-> bcmp a b = Lt.
Proof. intros a b. unfold ble. rewrite (bcmp_sym a b). destruct (bcmp a b); cbn [CompOpp]; split; intros H; try discriminate; reflexivity. Qed.
Lemma ascending_loop_spec : forall k i n keys t, in_order t 0 8 n (len keys) -> len t = 8 * n -> i + N.of_nat k = n -> 1 <= i ->
  match ascending_loop k i n keys t (ends t 0 8 n (len keys) (i - 1)) (ends t 0 8 n (len keys) i) with
  | Ok _ => forall j, i - 1 <= j -> j + 1 < n -> bcmp (piece t 0 8 n keys j) (piece t 0 8 n keys (j + 1)) = Lt
  | Err _ => ~ (forall j, i - 1 <= j -> j + 1 < n -> bcmp (piece t 0 8 n keys j) (piece t 0 8 n keys (j + 1)) = Lt)
  | Panic _ => False
  end.
Proof.
  induction k as [|k IH]; intros i n keys t Ho Lt Hi Hp; cbn [ascending_loop].
  - intros j H1 H2. lia.
  - destruct (ends_mono t 0 8 n (len keys) (len keys) Ho (N.le_refl _)) as [Hm Hb].
    assert (He : (if i + 1 <? n then u32_at t ((i + 1) * 8) else Ok (len keys)) = Ok (ends t 0 8 n (len keys) (i + 1))).
    { unfold ends. destruct (N.ltb_spec (i + 1) n); [|reflexivity]. rewrite u32_in by lia. rewrite N.add_0_r. reflexivity. }
    rewrite He. cbn [rbind].
    assert (M1 : ends t 0 8 n (len keys) (i - 1) <= ends t 0 8 n (len keys) i).
    { specialize (Hm (i - 1)). replace (i - 1 + 1) with i in Hm by lia. apply Hm. lia. }
    assert (M2 : ends t 0 8 n (len keys) i <= ends t 0 8 n (len keys) (i + 1)) by (apply Hm; lia).
    rewrite at_in by (try apply Hb; exact M1). cbn [rbind]. rewrite at_in by (try apply Hb; exact M2). cbn [rbind].
    assert (P1 : cutout keys (ends t 0 8 n (len keys) (i - 1)) (ends t 0 8 n (len keys) i) = piece t 0 8 n keys (i - 1)).
    { unfold piece. replace (i - 1 + 1) with i by lia. reflexivity. }
    rewrite P1. change (cutout keys (ends t 0 8 n (len keys) i) (ends t 0 8 n (len keys) (i + 1))) with (piece t 0 8 n keys i).
    destruct (ble (piece t 0 8 n keys i) (piece t 0 8 n keys (i - 1))) eqn:B.
    + intros H. specialize (H (i - 1)). replace (i - 1 + 1) with i in H by lia. rewrite <- ble_lt in H. rewrite H in B; [discriminate|lia|lia].
    + specialize (IH (i + 1) n keys t Ho Lt). replace (i + 1 - 1) with i in IH by lia.
      assert (Hi' : i + 1 + N.of_nat k = n) by lia. assert (Hp' : 1 <= i + 1) by lia. specialize (IH Hi' Hp').
      apply ble_lt in B.
      destruct (ascending_loop k (i + 1) n keys t _ _).
      * intros j H1 H2. destruct (N.eq_dec j (i - 1)) as [->|Hne]; [replace (i - 1 + 1) with i by lia; exact B|apply IH; lia].
      * intros H. apply IH. intros j H1 H2. apply H; lia.
      * exact IH.
Qed.
Definition ascending (t : bytes) (n : N) (keys : bytes) : Prop :=
  forall j, j + 1 < n -> bcmp (piece t 0 8 n keys j) (piece t 0 8 n keys (j + 1)) = Lt.
Lemma ascending_spec : forall keys t n, in_order t 0 8 n (len keys) -> len t = 8 * n ->
  match validate_ascending keys t n with Ok _ => ascending t n keys | Err _ => ~ ascending t n keys | Panic _ => False end.
Proof.
  intros keys t n Ho Lt. unfold validate_ascending. destruct (N.ltb_spec n 2) as [H|H]; [intros j Hj; lia|].
  rewrite !u32_in by lia. cbn [rbind].
  pose proof (ascending_loop_spec (N.to_nat (n - 1)) 1 n keys t Ho Lt) as A. rewrite N2Nat.id in A.
  assert (E1 : 1 + (n - 1) = n) by lia. specialize (A E1 (N.le_refl _)). change (1 - 1) with 0 in A.
  rewrite (ends_in t 0 8 n (len keys) 0), (ends_in t 0 8 n (len keys) 1) in A by lia. change (0 * 8 + 0) with 0 in A. change (1 * 8 + 0) with 8 in A.
  destruct (ascending_loop _ _ _ _ _ _ _).
  - intros j Hj. apply A; lia.
  - intros Ha. apply A. intros j _ Hj. apply Ha. exact Hj.
  - exact A.
Qed.
Lemma off_drop : forall t o x, at_range t 4 (len t) = Ok x -> off x o = off t (o + 4) /\ len x = len t - 4.
Proof.
  intros t o x H. apply at_ok in H. destruct H as (H1 & H2 & ->). split; [|rewrite len_cutout by lia; reflexivity].
  unfold off, cutout. rewrite (firstn_all2 (n := N.to_nat (len t - 4))) by (rewrite skipn_length; unfold len in *; lia).
  rewrite skipn_skipn'. do 2 f_equal; [lia|f_equal; lia].
Qed.
Lemma map_prologue_spec : forall E t n kl vl, n * 8 < 2 ^ e_ub E -> len t = 8 * n -> 0 < n ->
  match validate_map_prologue E t n kl vl with
  | Ok _ => in_order t 0 8 n kl /\ in_order t 4 8 n vl
  | Err _ => ~ (in_order t 0 8 n kl /\ in_order t 4 8 n vl)
  | Panic _ => False
  end.
Proof.
  intros E t n kl vl Hn Lt Hp. unfold validate_map_prologue.
  replace (len t =? N.min (n * 8) (2 ^ e_ub E - 1)) with true by (symmetry; apply N.eqb_eq; lia). cbn [negb].
  pose proof (prologue_spec t n 8 kl) as P. assert (Hf : forall j, j < n -> j * 8 + 4 <= len t) by (intros; lia). specialize (P Hf).
  destruct (validate_prologue t n 8 kl); cbn [rbind].
  - apply monotone_order in P. destruct (at_range t 4 (len t)) as [x|e|pp] eqn:A; cbn [rbind].
    + pose proof (prologue_spec x n 8 vl) as Q. pose proof (off_drop t 0 x A) as [_ Lx].
      assert (Hf' : forall j, j < n -> j * 8 + 4 <= len x) by (intros; lia). specialize (Q Hf').
      assert (Q' : monotone_table x 8 n vl <-> in_order t 4 8 n vl).
      { unfold monotone_table, in_order. split; intros [H1 H2]; split; intros j Hj; specialize (H1 j); specialize (H2 j).
        - destruct (off_drop t (j * 8) x A) as [<- _]. auto.
        - destruct (off_drop t (j * 8) x A) as [<- _]. destruct (off_drop t ((j + 1) * 8) x A) as [<- _]. auto.
        - destruct (off_drop t (j * 8) x A) as [-> _]. auto.
        - destruct (off_drop t (j * 8) x A) as [-> _]. destruct (off_drop t ((j + 1) * 8) x A) as [-> _]. auto. }
      destruct (validate_prologue x n 8 vl); [split; [exact P|apply Q'; exact Q]| |exact Q]. intros [_ H]. apply Q, Q', H.
    + unfold at_range in A. destruct (get _ _ _); discriminate.
    + rewrite at_in in A by lia. discriminate.
  - intros [H _]. apply P. apply monotone_order. exact H.
  - exact P.
Qed.

(** The parts of an indexed map payload. *)
Record map_parts (v : bool) (b : bytes) (w : mapw) : Prop := mkMapParts
  { mpt_head : exists hd, b = hd ++ mw_body w /\ 2 <= len hd
  ; mpt_pro : forall p, mw_pro w = Some p ->
      exists hd lens tl, b = hd ++ mp_table p ++ lens ++ mp_keys p ++ mp_vals p ++ tl
      /\ len lens = 8 /\ len (mp_keys p) = off lens 0 /\ len (mp_vals p) = off lens 4
      /\ len (mp_table p) = 8 * mw_len w
      /\ (v = true -> in_order (mp_table p) 0 8 (mw_len w) (len (mp_keys p))
           /\ in_order (mp_table p) 4 8 (mw_len w) (len (mp_vals p))
           /\ ascending (mp_table p) (mw_len w) (mp_keys p)) }.
(** The conditions under which opening a map panics: the end of the table, or of the regions, does
    not fit a [usize]; or a validated payload declares no entry. *)
Definition map_overflow_at (E : env) (M : N) (v : bool) (b : bytes) : Prop :=
  exists f r n r', b = f :: r /\ indexed f /\ run (read_varint E) r = Ok (n, r') /\ n * 8 < M
    /\ (M <= len b - len r' + n * 8
        \/ exists t k4 v4 tl, r' = t ++ k4 ++ v4 ++ tl /\ len t = n * 8 /\ len k4 = 4 /\ len v4 = 4
           /\ ((M <= len b - len tl + le_val k4 + le_val v4
                /\ (e_dbg E = true \/ (len b - len tl + le_val k4 + le_val v4) mod M <= len b))
               \/ (v = true /\ n = 0 /\ le_val k4 + le_val v4 <= len tl))).
Definition map_overflow (E : env) (v : bool) (b : bytes) : Prop := map_overflow_at E (2 ^ e_ub E) v b.
Lemma app_len_inj : forall (a b c d : bytes), a ++ b = c ++ d -> len a = len c -> a = c /\ b = d.
Proof.
  intros a b c d H L. assert (length a = length c) by (unfold len in L; lia). clear L. revert c H H0.
  induction a as [|x a IH]; intros [|y c] H L; try discriminate; [auto|]. cbn [app] in H. inversion H; subst. cbn [length] in L.
  destruct (IH c H2) as [-> ->]; [lia|auto].
Qed.
Lemma uadd_mod : forall E a b, 0 < 2 ^ e_ub E -> a < 2 ^ e_ub E -> b < 2 ^ e_ub E -> (2 ^ e_ub E <= a + b -> e_dbg E = false) -> uadd E a b = Ok ((a + b) mod 2 ^ e_ub E).
Proof.
  intros E a b H0 Ha Hb Hd. unfold uadd. destruct (N.ltb_spec (a + b) (2 ^ e_ub E)); [rewrite N.mod_small by assumption; reflexivity|].
  rewrite Hd by assumption. reflexivity.
Qed.
Definition is_word (E : env) (M : N) : Prop := M = 2 ^ e_ub E.
Lemma uadd_noM : forall E M a b, is_word E M -> a + b < M -> uadd E a b = Ok (a + b).
Proof. intros E M a b ->. apply uadd_no. Qed.
Lemma uadd_overM : forall E M a b, is_word E M -> b < M -> M <= a + b -> a < M ->
  uadd E a b = Panic POverflow \/ (uadd E a b = Ok (a + b - M) /\ a + b - M < a).
Proof. intros E M a b ->. apply uadd_over. Qed.
Lemma uadd_modM : forall E M a b, is_word E M -> 0 < M -> a < M -> b < M -> (M <= a + b -> e_dbg E = false) -> uadd E a b = Ok ((a + b) mod M).
Proof. intros E M a b ->. apply uadd_mod. Qed.
Lemma uadd_dbgM : forall E M a b, is_word E M -> M <= a + b -> e_dbg E = true -> uadd E a b = Panic POverflow.
Proof. intros E M a b -> H D. unfold uadd. rewrite (proj2 (N.ltb_ge _ _) H), D. reflexivity. Qed.
Lemma map_open_spec : forall E v b, e_ub E = 32 \/ e_ub E = 64 -> wfb b -> len b + 16 <= 2 ^ e_ub E ->
  match map_open E v b with
  | Ok w => map_parts v b w /\ ~ map_overflow E v b
  | Err _ => ~ map_overflow E v b
  | Panic _ => map_overflow E v b
  end.
Proof.
  intros E v b Hub Hw Hlb. assert (H32 : 2 ^ 32 <= 2 ^ e_ub E) by (apply N.pow_le_mono_r; lia).
  unfold map_overflow, map_open. remember (2 ^ e_ub E) as M eqn:EM. assert (HM : 4294967296 <= M) by exact H32. clear H32 Hub.
  change (is_word E M) in EM. destruct b as [|f r]; [intros (f & r & n & r' & H & _); discriminate|].
  pose proof (varint_at_spec E r) as V. destruct (varint_at E r) as [[n k]|e|p]; cbn [rbind fst snd].
  2: { destruct V as (e' & V). intros (f0 & r0 & n & r' & H & _ & Hr & _). inversion H; subst. congruence. }
  2: { contradiction. }
  destruct V as (Hk & Hkl & hd & tl & Hr & Hh & Hrun).
  assert (Lhd : len (f :: hd) = 1 + k) by (unfold len in *; cbn [length]; lia).
  assert (Hb : f :: r = (f :: hd) ++ tl) by (rewrite Hr; reflexivity).
  assert (Lb : len (f :: r) = 1 + k + len tl) by (rewrite Hb, len_app; lia).
  assert (Lr : len (f :: r) - len tl = 1 + k) by lia.
  rewrite (at_eq_end (f :: r) (f :: hd) tl) by (try exact Hb; lia). cbn [rbind].
  assert (Hwt : wfb tl) by (rewrite Hb in Hw; apply wfb_app in Hw; apply Hw).
  destruct (N.eqb_spec (N.land f FLAG_INDEXED) 0) as [Hf|Hf].
  { split; [|intros (f0 & r0 & n0 & r' & H & Hi & _); inversion H; subst; contradiction].
    constructor; cbn [mw_body mw_pro]; [|discriminate]. exists (f :: hd). split; [exact Hb|lia]. }
  destruct (N.ltb_spec (n * 8) M) as [Hn|Hn].
  2: { intros (f0 & r0 & n0 & r' & H & _ & Hr' & Hn' & _). inversion H; subst f0 r0. rewrite Hrun in Hr'. inversion Hr'; subst. lia. }
  (* what overflowing means, for these bytes *)
  assert (OV : map_overflow_at E M v (f :: r) <-> (M <= 1 + k + n * 8
        \/ exists t k4 v4 t', tl = t ++ k4 ++ v4 ++ t' /\ len t = n * 8 /\ len k4 = 4 /\ len v4 = 4
           /\ ((M <= len (f :: r) - len t' + le_val k4 + le_val v4
                /\ (e_dbg E = true \/ (len (f :: r) - len t' + le_val k4 + le_val v4) mod M <= len (f :: r)))
               \/ (v = true /\ n = 0 /\ le_val k4 + le_val v4 <= len t')))).
  { split.
    - intros (f0 & r0 & n0 & r' & H & _ & Hr' & _ & Ho). inversion H; subst f0 r0. rewrite Hrun in Hr'. inversion Hr'; subst n0 r'.
      rewrite Lr in Ho. exact Ho.
    - intros Ho. exists f, r, n, tl. split; [reflexivity|]. split; [exact Hf|]. split; [exact Hrun|]. split; [exact Hn|]. rewrite Lr. exact Ho. }
  destruct (N.lt_ge_cases (1 + k + n * 8) M) as [Hs|Hs].
  2: { assert (Yes : map_overflow_at E M v (f :: r)) by (apply OV; left; exact Hs).
    destruct (uadd_overM E M (1 + k) (n * 8) EM) as [U|[U Hlt]]; [exact Hn|exact Hs|lia|rewrite U; exact Yes|]. rewrite U. cbn [rbind].
    destruct (N.ltb_spec (len (f :: r)) (1 + k + n * 8 - M)) as [Hl|Hl]; [exfalso; lia|]. rewrite at_out by lia. exact Yes. }
  rewrite (uadd_noM E M (1 + k) (n * 8) EM Hs). cbn [rbind].
  destruct (N.ltb_spec (len (f :: r)) (1 + k + n * 8)) as [Hl|Hl].
  { rewrite OV. intros [H|(t & k4 & v4 & t' & H & H1 & H2 & H3 & _)]; [lia|]. rewrite H, !len_app in Lb. lia. }
  destruct (cut_len tl (n * 8)) as (t & q & Htl & Lt); [lia|].
  assert (Hb1 : f :: r = (f :: hd) ++ t ++ q) by (rewrite Hb, Htl; reflexivity).
  rewrite (at_eq (f :: r) (f :: hd) t q) by (try exact Hb1; lia). cbn [rbind].
  rewrite (uadd_noM E M (1 + k + n * 8) 8 EM) by lia. cbn [rbind].
  assert (Lq : len (f :: r) = 1 + k + n * 8 + len q) by (rewrite Hb1, !len_app; lia).
  destruct (N.ltb_spec (len (f :: r)) (1 + k + n * 8 + 8)) as [Hl8|Hl8].
  { rewrite OV. intros [H|(t0 & k4 & v4 & t' & H & H1 & H2 & H3 & _)]; [lia|]. rewrite H, !len_app in Lb. lia. }
  destruct (cut_len q 4) as (k4 & q1 & Hq & Lk); [lia|]. destruct (cut_len q1 4) as (v4 & q2 & Hq1 & Lv); [subst q; rewrite len_app in Lq; lia|].
  subst q1. subst q. rewrite !len_app in Lq.
  assert (Hwq : wfb k4 /\ wfb v4 /\ wfb q2).
  { rewrite Htl in Hwt. apply wfb_app in Hwt. destruct Hwt as [_ Hwt]. apply wfb_app in Hwt. destruct Hwt as [H1 Hwt]. apply wfb_app in Hwt. tauto. }
  destruct Hwq as (Hwk & Hwv & Hwq).
  assert (Bk : le_val k4 < 4294967296) by (pose proof (le_val_bound k4 Hwk) as B; rewrite Lk in B; exact B).
  assert (Bv : le_val v4 < 4294967296) by (pose proof (le_val_bound v4 Hwv) as B; rewrite Lv in B; exact B).
  assert (Uk : u32_at (f :: r) (1 + k + n * 8) = Ok (le_val k4)).
  { unfold u32_at. rewrite (at_eq (f :: r) ((f :: hd) ++ t) k4 (v4 ++ q2)); [reflexivity|rewrite <- !app_assoc; exact Hb1|rewrite len_app; lia|lia]. }
  assert (Uv : u32_at (f :: r) (1 + k + n * 8 + 4) = Ok (le_val v4)).
  { unfold u32_at. rewrite (at_eq (f :: r) ((f :: hd) ++ t ++ k4) v4 q2); [reflexivity|rewrite <- !app_assoc; exact Hb1|rewrite !len_app; lia|lia]. }
  rewrite Uk, Uv. cbn [rbind]. set (kl := le_val k4) in *. set (vl := le_val v4) in *.
  set (c3 := 1 + k + n * 8 + 8) in *. assert (Lc3 : len (f :: r) = c3 + len q2) by (unfold c3; lia). assert (Hc3 : 10 <= c3) by (unfold c3; lia).
  assert (OV2 : map_overflow_at E M v (f :: r) <-> ((M <= c3 + kl + vl /\ (e_dbg E = true \/ (c3 + kl + vl) mod M <= len (f :: r)))
               \/ (v = true /\ n = 0 /\ kl + vl <= len q2))).
  { rewrite OV. split.
    - intros [H|(t0 & k0 & v0 & t' & H & H1 & H2 & H3 & Ho)]; [lia|]. rewrite Htl in H. apply app_len_inj in H; [|lia]. destruct H as [<- H].
      apply app_len_inj in H; [|lia]. destruct H as [<- H]. apply app_len_inj in H; [|lia]. destruct H as [<- <-].
      replace (len (f :: r) - len q2) with c3 in Ho by lia. exact Ho.
    - intros Ho. right. exists t, k4, v4, q2. replace (len (f :: r) - len q2) with c3 by lia. auto. }
  clear OV. assert (Ek : le_val k4 = kl) by reflexivity. assert (Ev : le_val v4 = vl) by reflexivity. clearbody c3 kl vl.
  (* the regions *)
  destruct (N.lt_ge_cases (c3 + kl + vl) M) as [Hs2|Hs2].
  2: { assert (EITHER : rbind (uadd E c3 kl) (fun c4 => uadd E c4 vl) = Panic POverflow /\ e_dbg E = true
         \/ (exists c4, uadd E c3 kl = Ok c4 /\ e_dbg E = false /\ uadd E c4 vl = Ok ((c3 + kl + vl) mod M) /\ c4 = (c3 + kl) mod M)).
    { destruct (e_dbg E) eqn:D.
      - left. split; [|reflexivity]. destruct (N.lt_ge_cases (c3 + kl) M) as [H|H].
        + rewrite (uadd_noM E M c3 kl EM H). cbn [rbind]. apply (uadd_dbgM E M _ _ EM); assumption.
        + rewrite (uadd_dbgM E M c3 kl EM H D). reflexivity.
      - right. exists ((c3 + kl) mod M). assert (M0 : M <> 0) by (clear - HM; lia).
        split; [apply (uadd_modM E M c3 kl EM); [lia|lia|lia|intros _; exact D]|]. split; [reflexivity|]. split; [|reflexivity].
        rewrite (uadd_modM E M _ vl EM); [|lia|apply N.mod_lt; exact M0|lia|intros _; exact D]. f_equal. rewrite N.add_mod_idemp_l by exact M0. reflexivity. }
    destruct EITHER as [[-> D]|(c4 & U1 & D & U2 & Hc4)]; cbn [rbind]; [apply OV2; left; auto|]. rewrite U1. cbn [rbind]. rewrite U2. cbn [rbind].
    destruct (N.ltb_spec (len (f :: r)) ((c3 + kl + vl) mod M)) as [Hl2|Hl2].
    { rewrite OV2. intros [[_ [H|H]]|(_ & _ & H)]; [congruence|lia|lia]. }
    assert (Yes : map_overflow_at E M v (f :: r)) by (apply OV2; left; auto).
    destruct (N.lt_ge_cases (c3 + kl) M) as [H4|H4].
    - rewrite N.mod_small in Hc4 by exact H4. subst c4. destruct (N.lt_ge_cases (len (f :: r)) (c3 + kl)) as [H5|H5].
      + rewrite at_out by lia. exact Yes.
      + rewrite at_in by lia. cbn [rbind].
        assert (Hm : (c3 + kl + vl) mod M = c3 + kl + vl - M).
        { replace (c3 + kl + vl) with (c3 + kl + vl - M + 1 * M) at 1 by lia. rewrite N.mod_add by lia. apply N.mod_small. lia. }
        rewrite Hm. rewrite at_out by lia. exact Yes.
    - assert (Hm : c4 = c3 + kl - M).
      { subst c4. replace (c3 + kl) with (c3 + kl - M + 1 * M) at 1 by lia. rewrite N.mod_add by lia. apply N.mod_small. lia. }
      rewrite at_out by lia. exact Yes. }
  rewrite (uadd_noM E M c3 kl EM) by lia. cbn [rbind]. rewrite (uadd_noM E M (c3 + kl) vl EM) by lia. cbn [rbind].
  destruct (N.ltb_spec (len (f :: r)) (c3 + kl + vl)) as [Hl2|Hl2].
  { rewrite OV2. intros [[H _]|(_ & _ & H)]; lia. }
  destruct (cut_len q2 kl) as (keys & q3 & Hq2 & Lkeys); [lia|]. destruct (cut_len q3 vl) as (vals & q4 & Hq3 & Lvals); [rewrite Hq2, len_app in Lc3; lia|].
  subst q3. subst q2. rewrite !len_app in Lc3.
  assert (Lp : len ((f :: hd) ++ t ++ k4 ++ v4) = c3).
  { rewrite Hb1, !len_app in Lc3. rewrite !len_app. lia. }
  assert (A1 : at_range (f :: r) c3 (c3 + kl) = Ok keys).
  { apply (at_eq (f :: r) ((f :: hd) ++ t ++ k4 ++ v4) keys (vals ++ q4)); [rewrite <- !app_assoc; exact Hb1|lia|lia]. }
  assert (A2 : at_range (f :: r) (c3 + kl) (c3 + kl + vl) = Ok vals).
  { apply (at_eq (f :: r) (((f :: hd) ++ t ++ k4 ++ v4) ++ keys) vals q4); [rewrite <- !app_assoc; exact Hb1|rewrite len_app; lia|lia]. }
  rewrite A1. cbn [rbind]. rewrite A2. cbn [rbind].
  assert (Hparts : (v = true -> in_order t 0 8 n (len keys) /\ in_order t 4 8 n (len vals) /\ ascending t n keys)
            -> (v = false \/ 0 < n) -> map_parts v (f :: r) (mkMapW tl (Some (mkMapP t keys vals)) n) /\ ~ map_overflow_at E M v (f :: r)).
  { intros Ho Hv. split; [|rewrite OV2; destruct Hv as [Hv|Hv]; intros [[H _]|(H & H' & _)]; try congruence; lia]. constructor; cbn [mw_body mw_pro mw_len].
    - exists (f :: hd). split; [exact Hb|lia].
    - intros p0 Hp. inversion Hp; subst p0. cbn [mp_table mp_keys mp_vals]. exists (f :: hd), (k4 ++ v4), q4.
      split; [rewrite <- !app_assoc; exact Hb1|]. split; [rewrite len_app; lia|].
      assert (O1 : off (k4 ++ v4) 0 = le_val k4) by (unfold off; f_equal; pose proof (cutout_app [] k4 v4) as C; rewrite Lk in C; exact C).
      assert (O2 : off (k4 ++ v4) 4 = le_val v4).
      { unfold off. f_equal. pose proof (cutout_app k4 v4 []) as C. rewrite app_nil_r, Lk, Lv in C. exact C. }
      split; [rewrite O1, Ek; exact Lkeys|]. split; [rewrite O2, Ev; exact Lvals|]. split; [lia|exact Ho]. }
  destruct v; [|cbn [rbind]; apply Hparts; [discriminate|left; reflexivity]].
  assert (DEC : n = 0 \/ 0 < n) by lia. destruct DEC as [Z|Z].
  { subst n. destruct t as [|? ?]; [|unfold len in Lt; cbn [length] in Lt; lia].
    unfold validate_map_prologue. change (len (@nil N)) with 0. cbn [N.mul]. rewrite N.min_0_l. cbn [N.eqb negb].
    change (validate_prologue [] 0 8 kl) with (Ok tt : res unit). cbn [rbind]. rewrite at_out by lia. cbn [rbind].
    apply OV2. right. rewrite !len_app. repeat split; lia. }
  assert (No : ~ map_overflow_at E M true (f :: r)) by (rewrite OV2; intros [[H _]|(_ & H & _)]; lia).
  assert (Hn' : n * 8 < 2 ^ e_ub E) by (rewrite <- EM; exact Hn).
  pose proof (map_prologue_spec E t n kl vl Hn') as P. assert (Lt' : len t = 8 * n) by lia. specialize (P Lt' Z).
  destruct (validate_map_prologue E t n kl vl); cbn [rbind]; [|exact No|contradiction].
  rewrite <- Lkeys, <- Lvals in P. destruct P as [P1 P2].
  pose proof (ascending_spec keys t n P1 Lt') as A. destruct (validate_ascending keys t n); cbn [rbind]; [|exact No|contradiction].
  apply Hparts; [auto|right; exact Z].
Qed.

(** Entries. *)
Definition content (p : mapp) (n : N) (kf vf : N -> bytes) : Prop :=
  forall i, i < n -> exists a b c d, entry_ranges p n i = Ok ((a, b), (c, d))
    /\ get (mp_keys p) a b = Some (kf i) /\ get (mp_vals p) c d = Some (vf i).
Lemma entry_ranges_in : forall p n i, len (mp_table p) = 8 * n -> i < n ->
  entry_ranges p n i = Ok ((ends (mp_table p) 0 8 n (len (mp_keys p)) i, ends (mp_table p) 0 8 n (len (mp_keys p)) (i + 1)),
                           (ends (mp_table p) 4 8 n (len (mp_vals p)) i, ends (mp_table p) 4 8 n (len (mp_vals p)) (i + 1))).
Proof.
  intros p n i L Hi. unfold entry_ranges. rewrite (ends_in _ 0 8 n _ i Hi), (ends_in _ 4 8 n _ i Hi). rewrite N.add_0_r.
  rewrite !u32_in by lia. cbn [rbind]. unfold ends. destruct (N.ltb_spec (i + 1) n) as [H|H].
  - rewrite !u32_in by lia. cbn [rbind]. rewrite N.add_0_r. reflexivity.
  - reflexivity.
Qed.
Lemma content_in : forall p n, len (mp_table p) = 8 * n -> in_order (mp_table p) 0 8 n (len (mp_keys p)) ->
  in_order (mp_table p) 4 8 n (len (mp_vals p)) ->
  content p n (piece (mp_table p) 0 8 n (mp_keys p)) (piece (mp_table p) 4 8 n (mp_vals p)).
Proof.
  intros p n L H1 H2 i Hi. do 4 eexists. split; [apply entry_ranges_in; assumption|].
  destruct (ends_mono _ 0 8 n _ _ H1 (N.le_refl _)) as [M1 B1]. destruct (ends_mono _ 4 8 n _ _ H2 (N.le_refl _)) as [M2 B2].
  split; rewrite get_in; auto.
Qed.
Definition steers (pred : bytes -> comparison) (n : N) (kf : N -> bytes) : Prop :=
  (forall i j, i < j -> j < n -> pred (kf j) = Lt -> pred (kf i) = Lt)
  /\ (forall i j, i < j -> j < n -> pred (kf i) = Gt -> pred (kf j) = Gt).
Lemma half : forall lo hi, lo < hi -> lo <= lo + (hi - lo) / 2 < hi.
Proof. intros lo hi H. assert ((hi - lo) / 2 < hi - lo) by (apply N.div_lt; lia). lia. Qed.
Lemma bsearch_any : forall fuel p n kf vf pred lo hi, content p n kf vf -> hi <= n -> hi - lo <= N.of_nat fuel ->
  exists r, bsearch fuel p n lo hi pred = Ok r
    /\ forall v m, r = Some (v, m) -> exists i, i < n /\ pred (kf i) = Eq /\ v = vf i /\ m = i mod 2 ^ 32.
Proof.
  intros fuel p n kf vf pred. induction fuel as [|fuel IH]; intros lo hi C Hn Hf; cbn [bsearch].
  - destruct (N.ltb_spec lo hi); [lia|]. exists None. split; [reflexivity|discriminate].
  - destruct (N.ltb_spec lo hi) as [H|H]; [|exists None; split; [reflexivity|discriminate]].
    pose proof (half lo hi H) as Hm. set (mid := lo + (hi - lo) / 2) in *. clearbody mid.
    destruct (N.leb_spec n mid); [lia|]. destruct (C mid) as (a & b & c & d & E1 & E2 & E3); [lia|].
    rewrite E1. cbn [rbind fst snd]. rewrite E2. destruct (pred (kf mid)) eqn:P.
    + rewrite E3. eexists. split; [reflexivity|]. intros v m Hv. inversion Hv; subst. exists mid. auto.
    + apply IH; [exact C|exact Hn|lia].
    + apply IH; [exact C|lia|lia].
Qed.
Lemma bsearch_exact : forall fuel p n kf vf pred lo hi, content p n kf vf -> steers pred n kf -> hi <= n -> hi - lo <= N.of_nat fuel ->
  (forall i, i < lo -> i < n -> pred (kf i) = Lt) -> (forall i, hi <= i -> i < n -> pred (kf i) = Gt) ->
  bsearch fuel p n lo hi pred = Ok None -> forall i, i < n -> pred (kf i) <> Eq.
Proof.
  intros fuel p n kf vf pred. induction fuel as [|fuel IH]; intros lo hi C [S1 S2] Hn Hf Hlo Hhi Hb i Hi; cbn [bsearch] in Hb.
  - destruct (N.ltb_spec lo hi); [lia|]. destruct (N.lt_ge_cases i lo) as [G|G]; [rewrite Hlo by assumption|rewrite Hhi by lia]; discriminate.
  - destruct (N.ltb_spec lo hi) as [H|H].
    2: { destruct (N.lt_ge_cases i lo) as [G|G]; [rewrite Hlo by assumption|rewrite Hhi by lia]; discriminate. }
    pose proof (half lo hi H) as Hm. set (mid := lo + (hi - lo) / 2) in *. clearbody mid.
    destruct (N.leb_spec n mid); [lia|]. destruct (C mid) as (a & b & c & d & E1 & E2 & E3); [lia|].
    rewrite E1 in Hb. cbn [rbind fst snd] in Hb. rewrite E2 in Hb. destruct (pred (kf mid)) eqn:P.
    + rewrite E3 in Hb. discriminate.
    + apply (IH (mid + 1) hi C (conj S1 S2) Hn); [lia| |exact Hhi|exact Hb|exact Hi].
      intros j Hj Hj'. destruct (N.eq_dec j mid) as [->|Hne]; [exact P|apply (S1 j mid); [lia|lia|exact P]].
    + apply (IH lo mid C (conj S1 S2)); [lia|lia|exact Hlo| |exact Hb|exact Hi].
      intros j Hj Hj'. destruct (N.eq_dec j mid) as [->|Hne]; [exact P|apply (S2 mid j); [lia|lia|exact P]].
Qed.
Lemma bsearch_safe : forall fuel p n pred lo hi, len (mp_table p) = 8 * n -> hi <= n -> hi - lo <= N.of_nat fuel ->
  match bsearch fuel p n lo hi pred with
  | Ok (Some (v, m)) => exists x y, mp_vals p = x ++ v ++ y
  | Ok None => True
  | Err e => exists a b, e = EOffsetRange a b
  | Panic _ => False
  end.
Proof.
  intros fuel p n pred. induction fuel as [|fuel IH]; intros lo hi L Hn Hf; cbn [bsearch].
  - destruct (N.ltb_spec lo hi); [lia|exact I].
  - destruct (N.ltb_spec lo hi) as [H|H]; [|exact I].
    pose proof (half lo hi H) as Hm. set (mid := lo + (hi - lo) / 2) in *. clearbody mid.
    destruct (N.leb_spec n mid); [lia|]. rewrite entry_ranges_in by (try exact L; lia). cbn [rbind fst snd].
    destruct (get (mp_keys p) _ _) as [key|]; [|eauto]. destruct (pred key).
    + destruct (get (mp_vals p) _ _) as [v|] eqn:G; [|eauto]. apply get_some in G. destruct G as (G1 & G2 & ->).
      destruct (cutout_split _ _ _ G1 G2) as (x & y & Hx & _). exists x, y. exact Hx.
    + apply IH; [exact L|exact Hn|lia].
    + apply IH; [exact L|lia|lia].
Qed.
Lemma entries_loop_spec : forall k p n kf vf i, len (mp_table p) = 8 * n -> content p n kf vf -> i + N.of_nat k = n ->
  entries_loop k i n p (ends (mp_table p) 0 8 n (len (mp_keys p)) i) (ends (mp_table p) 4 8 n (len (mp_vals p)) i)
  = Ok (map (fun j => (kf (i + N.of_nat j), vf (i + N.of_nat j))) (seq 0 k)).
Proof.
  induction k as [|k IH]; intros p n kf vf i L C Hi; cbn [entries_loop]; [reflexivity|].
  assert (Hi' : i < n) by lia.
  assert (He : (if i + 1 <? n then
               rbind (u32_at (mp_table p) ((i + 1) * 8)) (fun ke =>
               rbind (u32_at (mp_table p) ((i + 1) * 8 + 4)) (fun ve => Ok (ke, ve)))
             else Ok (len (mp_keys p), len (mp_vals p)))
     = Ok (ends (mp_table p) 0 8 n (len (mp_keys p)) (i + 1), ends (mp_table p) 4 8 n (len (mp_vals p)) (i + 1))).
  { unfold ends. destruct (N.ltb_spec (i + 1) n); [|reflexivity]. rewrite !u32_in by lia. rewrite N.add_0_r. reflexivity. }
  rewrite He. cbn [rbind fst snd]. destruct (C i Hi') as (a & b & c & d & E1 & E2 & E3). rewrite entry_ranges_in in E1 by assumption.
  inversion E1; subst a b c d. rewrite E2, E3. rewrite IH with (kf := kf) (vf := vf) by (assumption || lia).
  cbn [rmap rbind or_empty seq map]. rewrite N.add_0_r. do 2 f_equal. rewrite <- seq_shift, map_map. apply map_ext. intros j.
  replace (i + 1 + N.of_nat j) with (i + N.of_nat (S j)) by lia. reflexivity.
Qed.
Lemma entries_safe : forall k p n i ks vs, len (mp_table p) = 8 * n -> i + N.of_nat k = n -> exists l, entries_loop k i n p ks vs = Ok l
  /\ length l = k /\ forall a b, In (a, b) l -> (exists x y, mp_keys p = x ++ a ++ y) /\ exists x y, mp_vals p = x ++ b ++ y.
Proof.
  assert (OE : forall b s e, exists x y, b = x ++ or_empty (get b s e) ++ y).
  { intros b s e. destruct (get b s e) eqn:G; [|exists [], b; reflexivity]. apply get_some in G. destruct G as (G1 & G2 & ->).
    destruct (cutout_split _ _ _ G1 G2) as (x & y & Hx & _). exists x, y. exact Hx. }
  induction k as [|k IH]; intros p n i ks vs L Hi; cbn [entries_loop].
  - exists []. split; [reflexivity|]. split; [reflexivity|]. intros a b [].
  - assert (He : exists ke ve, (if i + 1 <? n then
               rbind (u32_at (mp_table p) ((i + 1) * 8)) (fun ke =>
               rbind (u32_at (mp_table p) ((i + 1) * 8 + 4)) (fun ve => Ok (ke, ve)))
             else Ok (len (mp_keys p), len (mp_vals p))) = Ok (ke, ve)).
    { destruct (N.ltb_spec (i + 1) n); [|eauto]. rewrite !u32_in by lia. cbn [rbind]. eauto. }
    destruct He as (ke & ve & ->). cbn [rbind fst snd]. destruct (IH p n (i + 1) ke ve L) as (l & El & Ll & Hl); [lia|].
    rewrite El. cbn [rmap rbind]. eexists. split; [reflexivity|]. split; [cbn [length]; lia|]. intros a b [H|H]; [|apply Hl; exact H].
    inversion H; subst. split; apply OE.
Qed.
Lemma off_app : forall x y o, o + 4 <= len x -> off (x ++ y) o = off x o.
Proof.
  intros x y o H. destruct (cut_len x o) as (x1 & y1 & -> & L1); [lia|]. rewrite len_app in H. destruct (cut_len y1 4) as (x2 & y2 & -> & L2); [lia|].
  unfold off. f_equal. rewrite <- !app_assoc. replace (o + 4) with (len x1 + len x2) by lia. rewrite <- L1. rewrite !cutout_app. reflexivity.
Qed.
Lemma off_prefix : forall b n o, n <= len b -> o + 4 <= n -> off (cutout b 0 n) o = off b o.
Proof.
  intros b n o H Ho. destruct (cut_len b n H) as (x & y & -> & Lx). pose proof (cutout_app [] x y) as C. change (len []) with 0 in C.
  cbn [app] in C. rewrite N.add_0_l, Lx in C. rewrite C. symmetry. apply off_app. lia.
Qed.

(** Sorted keys. *)
Definition sorted_by (n : N) (kf : N -> bytes) : Prop := forall i j, i < j -> j < n -> bcmp (kf i) (kf j) = Lt.
Lemma ascending_sorted : forall n kf, (forall j, j + 1 < n -> bcmp (kf j) (kf (j + 1)) = Lt) -> sorted_by n kf.
Proof.
  intros n kf H i j Hij Hj. replace j with (i + 1 + N.of_nat (N.to_nat (j - i - 1))) in * by lia. clear Hij.
  induction (N.to_nat (j - i - 1)) as [|k IH]; [rewrite N.add_0_r in *; apply H; exact Hj|].
  apply (bcmp_lt _ (kf (i + 1 + N.of_nat k))); [apply IH; lia|]. replace (i + 1 + N.of_nat (S k)) with (i + 1 + N.of_nat k + 1) in * by lia.
  apply H. exact Hj.
Qed.
Lemma steers_probe : forall n kf probe, sorted_by n kf -> steers (fun k => bcmp k probe) n kf.
Proof.
  intros n kf probe S. split; intros i j Hij Hj H; specialize (S i j Hij Hj).
  - exact (bcmp_lt _ _ _ S H).
  - rewrite (bcmp_sym probe (kf j)). rewrite (bcmp_sym probe (kf i)) in H.
    assert (H' : bcmp probe (kf i) = Lt) by (destruct (bcmp probe (kf i)); try discriminate; reflexivity).
    rewrite (bcmp_lt _ _ _ H' S). reflexivity.
Qed.
(** The entries, as a list. *)
Definition listed (n : N) (kf vf : N -> bytes) : list (bytes * bytes) :=
  map (fun j => (kf (N.of_nat j), vf (N.of_nat j))) (seq 0 (N.to_nat n)).
Lemma in_listed : forall n kf vf k v, In (k, v) (listed n kf vf) <-> exists i, i < n /\ k = kf i /\ v = vf i.
Proof.
  intros n kf vf k v. unfold listed. rewrite in_map_iff. split.
  - intros (j & H & Hj). apply in_seq in Hj. inversion H. exists (N.of_nat j). repeat split; lia.
  - intros (i & Hi & -> & ->). exists (N.to_nat i). rewrite N2Nat.id. split; [reflexivity|]. apply in_seq. lia.
Qed.
Lemma nth_listed : forall n kf vf i, i < n -> nth_error (listed n kf vf) (N.to_nat i) = Some (kf i, vf i).
Proof.
  intros n kf vf i Hi. unfold listed. rewrite nth_error_map.
  rewrite (nth_error_nth' (seq 0 (N.to_nat n)) 0%nat) by (rewrite seq_length; lia). rewrite seq_nth by lia. cbn [option_map Nat.add]. rewrite N2Nat.id. reflexivity.
Qed.
Lemma entries_listed : forall w p kf vf, mw_pro w = Some p -> len (mp_table p) = 8 * mw_len w -> content p (mw_len w) kf vf ->
  entries w = Some (Ok (listed (mw_len w) kf vf)).
Proof.
  intros w p kf vf Hp L C. unfold entries. rewrite Hp. f_equal. destruct (N.eqb_spec (mw_len w) 0) as [Z|Z].
  - rewrite Z. reflexivity.
  - rewrite !u32_in by lia. cbn [rbind].
    pose proof (entries_loop_spec (N.to_nat (mw_len w)) p (mw_len w) kf vf 0 L C) as H. rewrite N2Nat.id in H. specialize (H (N.add_0_l _)).
    rewrite (ends_in _ 0 8), (ends_in _ 4 8) in H by lia. exact H.
Qed.
Lemma find_any : forall w p kf vf pred, mw_pro w = Some p -> content p (mw_len w) kf vf ->
  exists r, find_value_bytes w pred = Ok r /\ forall v, r = Some v -> exists k, In (k, v) (listed (mw_len w) kf vf) /\ pred k = Eq.
Proof.
  intros w p kf vf pred Hp C. unfold find_value_bytes. rewrite Hp.
  destruct (bsearch_any (N.to_nat (mw_len w)) p (mw_len w) kf vf pred 0 (mw_len w) C (N.le_refl _)) as (r & -> & H); [lia|].
  cbn [rmap rbind]. eexists. split; [reflexivity|]. intros v Hv. destruct r as [[v' m]|]; [|discriminate]. cbn in Hv. inversion Hv; subst v'.
  destruct (H v m eq_refl) as (i & Hi & Hpk & Hvv & _). exists (kf i). split; [|exact Hpk]. apply in_listed. exists i. auto.
Qed.
Lemma hint_any : forall w p kf vf pred hint, mw_pro w = Some p -> content p (mw_len w) kf vf ->
  exists r h, find_value_bytes_with_hint w hint pred = Ok (r, h) /\ forall v, r = Some v -> exists k, In (k, v) (listed (mw_len w) kf vf) /\ pred k = Eq.
Proof.
  intros w p kf vf pred hint Hp C. unfold find_value_bytes_with_hint. rewrite Hp.
  assert (P : forall h, exists o, probe_hint p (mw_len w) h pred = Ok o /\ forall v, o = Some v -> exists k, In (k, v) (listed (mw_len w) kf vf) /\ pred k = Eq).
  { intros h. unfold probe_hint. destruct (N.leb_spec (mw_len w) h) as [H|H]; [eexists; split; [reflexivity|discriminate]|].
    destruct (C h H) as (a & b & c & d & E1 & E2 & E3). rewrite E1. cbn [rbind fst snd]. rewrite E2. destruct (pred (kf h)) eqn:Q;
      try (eexists; split; [reflexivity|discriminate]). rewrite E3. eexists. split; [reflexivity|]. intros v Hv. inversion Hv; subst.
    exists (kf h). split; [apply in_listed; exists h; auto|exact Q]. }
  destruct (bsearch_any (N.to_nat (mw_len w)) p (mw_len w) kf vf pred 0 (mw_len w) C (N.le_refl _)) as (r & B & H); [lia|].
  assert (BS : forall hint : option N, exists r' h', rmap (fun r => match r with Some (value, i) => (Some value, Some i) | None => (None, hint) end)
               (bsearch (N.to_nat (mw_len w)) p (mw_len w) 0 (mw_len w) pred) = Ok (r', h') /\ forall v, r' = Some v -> exists k, In (k, v) (listed (mw_len w) kf vf) /\ pred k = Eq).
  { intros hint'. rewrite B. cbn [rmap rbind]. destruct r as [[v m]|]; do 2 eexists; (split; [reflexivity|]); [|discriminate].
    intros v' Hv. inversion Hv; subst v'. destruct (H v m eq_refl) as (i & Hi & Hpk & Hvv & _). exists (kf i). split; [|exact Hpk]. apply in_listed. exists i. auto. }
  destruct hint as [h|]; [|cbn [rbind]; apply BS]. destruct (P h) as ([v|] & -> & Hv); cbn [rbind]; [|apply BS].
  do 2 eexists. split; [reflexivity|exact Hv].
Qed.
Lemma find_exact : forall w p kf vf probe, mw_pro w = Some p -> content p (mw_len w) kf vf -> sorted_by (mw_len w) kf ->
  exists r, find_value_bytes w (fun k => bcmp k probe) = Ok r /\ forall v, r = Some v <-> In (probe, v) (listed (mw_len w) kf vf).
Proof.
  intros w p kf vf probe Hp C S. unfold find_value_bytes. rewrite Hp.
  destruct (bsearch_any (N.to_nat (mw_len w)) p (mw_len w) kf vf (fun k => bcmp k probe) 0 (mw_len w) C (N.le_refl _)) as (r & B & H); [lia|].
  rewrite B. cbn [rmap rbind]. eexists. split; [reflexivity|]. intros v. rewrite in_listed. destruct r as [[v' m]|]; cbn [option_map fst].
  - destruct (H v' m eq_refl) as (i & Hi & Hpk & Hvv & _). apply bcmp_eq in Hpk. split.
    + intros Hv. inversion Hv; subst v'. exists i. auto.
    + intros (j & Hj & Hk & ->). subst v'. f_equal. f_equal. destruct (N.lt_trichotomy i j) as [L|[L|L]]; [|exact L|];
        [pose proof (S i j L Hj) as Z|pose proof (S j i L Hi) as Z]; rewrite Hpk, <- Hk in Z; rewrite (proj2 (bcmp_eq _ _) eq_refl) in Z; discriminate.
  - split; [discriminate|]. intros (j & Hj & Hk & ->). exfalso.
    apply (bsearch_exact _ p (mw_len w) kf vf (fun k => bcmp k probe) 0 (mw_len w) C (steers_probe _ _ probe S)) with (i := j) in B; [|lia|lia|lia|lia|exact Hj].
    apply B. apply bcmp_eq. symmetry. exact Hk.
Qed.
Lemma hint_exact : forall w p kf vf probe hint, mw_pro w = Some p -> content p (mw_len w) kf vf -> sorted_by (mw_len w) kf -> mw_len w <= 2 ^ 32 ->
  exists r h, find_value_bytes_with_hint w hint (fun k => bcmp k probe) = Ok (r, h) /\ find_value_bytes w (fun k => bcmp k probe) = Ok r
    /\ match r with
       | Some v => exists i, h = Some i /\ nth_error (listed (mw_len w) kf vf) (N.to_nat i) = Some (probe, v)
       | None => h = hint
       end.
Proof.
  intros w p kf vf probe hint Hp C S Hn. destruct (find_exact w p kf vf probe Hp C S) as (r & F & Hr). rewrite F.
  unfold find_value_bytes_with_hint. unfold find_value_bytes in F. rewrite Hp in *. set (pred := fun k => bcmp k probe) in *.
  destruct (bsearch_any (N.to_nat (mw_len w)) p (mw_len w) kf vf pred 0 (mw_len w) C (N.le_refl _)) as (s & B & H); [lia|]. rewrite B in *.
  cbn [rmap rbind] in F. inversion F as [F']. clear F.
  assert (BS : exists r0 h, rmap (fun r => match r with Some (value, i) => (Some value, Some i) | None => (None, hint) end) (Ok s) = Ok (r0, h) /\ (Ok (option_map fst s) = Ok r0 :> res _)
     /\ match r0 with Some v => exists i, h = Some i /\ nth_error (listed (mw_len w) kf vf) (N.to_nat i) = Some (probe, v) | None => h = hint end).
  { destruct s as [[v m]|]; cbn [rmap rbind option_map fst]; do 2 eexists; (split; [reflexivity|]); (split; [reflexivity|]); [|reflexivity].
    destruct (H v m eq_refl) as (i & Hi & Hpk & -> & ->). rewrite N.mod_small by lia. exists i. split; [reflexivity|]. rewrite nth_listed by exact Hi.
    apply bcmp_eq in Hpk. rewrite Hpk. reflexivity. }
  destruct hint as [h|]; [|cbn [rbind]; exact BS].
  unfold probe_hint. destruct (N.leb_spec (mw_len w) h) as [L|L]; [cbn [rbind]; exact BS|].
  destruct (C h L) as (a & b & c & d & E1 & E2 & E3). rewrite E1. cbn [rbind fst snd]. rewrite E2. destruct (pred (kf h)) eqn:Q; try (cbn [rbind]; exact BS).
  rewrite E3. cbn [rbind]. do 2 eexists. split; [reflexivity|]. apply bcmp_eq in Q. split; [|exists h; split; [reflexivity|rewrite nth_listed by exact L; rewrite Q; reflexivity]].
  rewrite F'. f_equal. apply Hr. apply in_listed. exists h. auto.
Qed.
