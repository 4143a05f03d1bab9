(** Random access into what the indexed encoders write: lemmas.  Proof part. *)

From Verif Require Import Base BaseL Prog ProgL Ty Ser De Typed SortL RtL IdxL IdxWalk IdxWalkL.
From Coq Require Import List NArith Bool Lia Arith Sorted.
Import ListNotations.
Open Scope N_scope.

Lemma varint_at_write : forall E n r, e_ub E <= 64 -> n < 2 ^ e_ub E ->
  varint_at E (write_varint n ++ r) = Ok (n, len (write_varint n)).
Proof.
  intros E n r Hu Hn. pose proof (varint_at_spec E (write_varint n ++ r)) as S. pose proof (run_read_varint E n r Hu Hn) as R.
  destruct (varint_at E (write_varint n ++ r)) as [[m k]|e|p].
  - destruct S as (_ & _ & hd & tl & Hb & Hl & Hr). rewrite R in Hr. inversion Hr; subst m tl. apply app_inv_tail in Hb. subst hd. rewrite Hl. reflexivity.
  - destruct S as (e' & S). rewrite R in S. discriminate.
  - contradiction.
Qed.
Lemma seq_open_eq : forall E v n t body, e_ub E <= 64 -> len t = 4 * n -> len (FLAG_INDEXED :: write_varint n ++ t ++ body) < 2 ^ e_ub E ->
  seq_open E v (FLAG_INDEXED :: write_varint n ++ t ++ body)
  = rbind (if v then validate_prologue t n 4 (len body mod 2 ^ 32) else Ok tt) (fun _ => Ok (mkSeqW body (Some t) n)).
Proof.
  intros E v n t body Hu Lt Lb. remember (FLAG_INDEXED :: write_varint n ++ t ++ body) as b eqn:Hb.
  assert (Hs : len b = 1 + len (write_varint n) + len t + len body) by (subst b; rewrite len_cons, !len_app; lia).
  unfold seq_open. rewrite Hb at 1. rewrite varint_at_write by (try exact Hu; lia). cbn [rbind fst snd].
  change (N.land FLAG_INDEXED FLAG_INDEXED =? 0) with false. cbv iota.
  rewrite (proj2 (N.ltb_lt (n * 4) _)) by lia. rewrite uadd_no by lia. cbn [rbind].
  rewrite (proj2 (N.ltb_ge (len b) _)) by lia.
  rewrite (at_eq b (FLAG_INDEXED :: write_varint n) t body) by (try exact Hb; rewrite ?len_cons; lia). cbn [rbind].
  rewrite (at_eq_end b (FLAG_INDEXED :: write_varint n ++ t) body); [reflexivity|rewrite Hb; cbn [app]; rewrite <- app_assoc; reflexivity|rewrite len_cons, len_app; lia|lia].
Qed.
Lemma map_open_eq : forall E v n t kl vl keys vals, e_ub E <= 64 -> len t = 8 * n ->
  kl < 2 ^ 32 -> vl < 2 ^ 32 -> len keys = kl -> len vals = vl ->
  len (FLAG_INDEXED :: write_varint n ++ t ++ le_bytes 4 kl ++ le_bytes 4 vl ++ keys ++ vals) < 2 ^ e_ub E ->
  map_open E v (FLAG_INDEXED :: write_varint n ++ t ++ le_bytes 4 kl ++ le_bytes 4 vl ++ keys ++ vals)
  = rbind (if v then rbind (validate_map_prologue E t n kl vl) (fun _ => validate_ascending keys t n) else Ok tt)
      (fun _ => Ok (mkMapW (t ++ le_bytes 4 kl ++ le_bytes 4 vl ++ keys ++ vals) (Some (mkMapP t keys vals)) n)).
Proof.
  intros E v n t kl vl keys vals Hu Lt Bk Bv Lk Lv Lb.
  remember (FLAG_INDEXED :: write_varint n ++ t ++ le_bytes 4 kl ++ le_bytes 4 vl ++ keys ++ vals) as b eqn:Hb.
  assert (Hs : len b = 1 + len (write_varint n) + len t + 8 + len keys + len vals) by (subst b; rewrite len_cons, !len_app, !le_bytes_len; lia).
  set (hd := FLAG_INDEXED :: write_varint n) in *. assert (Lh : len hd = 1 + len (write_varint n)) by (unfold hd; rewrite len_cons; lia).
  assert (Hb' : b = hd ++ t ++ le_bytes 4 kl ++ le_bytes 4 vl ++ keys ++ vals) by (rewrite Hb; reflexivity).
  unfold map_open. rewrite Hb at 1. rewrite varint_at_write by (try exact Hu; lia). cbn [rbind fst snd].
  rewrite (at_eq_end b hd (t ++ le_bytes 4 kl ++ le_bytes 4 vl ++ keys ++ vals)); [|exact Hb'|lia|rewrite !len_app, !le_bytes_len; lia]. cbn [rbind].
  change (N.land FLAG_INDEXED FLAG_INDEXED =? 0) with false. cbv iota.
  rewrite (proj2 (N.ltb_lt (n * 8) _)) by lia. rewrite uadd_no by lia. cbn [rbind].
  rewrite (proj2 (N.ltb_ge (len b) _)) by lia.
  rewrite (at_eq b hd t (le_bytes 4 kl ++ le_bytes 4 vl ++ keys ++ vals)); [|exact Hb'|lia|lia]. cbn [rbind].
  rewrite uadd_no by lia. cbn [rbind]. rewrite (proj2 (N.ltb_ge (len b) _)) by lia.
  assert (U1 : u32_at b (1 + len (write_varint n) + n * 8) = Ok kl).
  { unfold u32_at. rewrite (at_eq b (hd ++ t) (le_bytes 4 kl) (le_bytes 4 vl ++ keys ++ vals)); [|rewrite <- app_assoc; exact Hb'|rewrite len_app; lia|rewrite le_bytes_len; reflexivity].
    cbn [rmap rbind]. rewrite le_val_bytes by exact Bk. reflexivity. }
  assert (U2 : u32_at b (1 + len (write_varint n) + n * 8 + 4) = Ok vl).
  { unfold u32_at. rewrite (at_eq b (hd ++ t ++ le_bytes 4 kl) (le_bytes 4 vl) (keys ++ vals)); [|rewrite <- !app_assoc; exact Hb'|rewrite !len_app, le_bytes_len; lia|rewrite le_bytes_len; reflexivity].
    cbn [rmap rbind]. rewrite le_val_bytes by exact Bv. reflexivity. }
  rewrite U1, U2. cbn [rbind]. rewrite (uadd_no E (1 + len (write_varint n) + n * 8 + 8) kl) by lia. cbn [rbind].
  rewrite (uadd_no E _ vl) by lia. cbn [rbind]. rewrite (proj2 (N.ltb_ge (len b) _)) by lia.
  rewrite (at_eq b (hd ++ t ++ le_bytes 4 kl ++ le_bytes 4 vl) keys vals); [|rewrite <- !app_assoc; exact Hb'|rewrite !len_app, !le_bytes_len; lia|lia]. cbn [rbind].
  rewrite (at_eq_end b (hd ++ t ++ le_bytes 4 kl ++ le_bytes 4 vl ++ keys) vals); [reflexivity|rewrite <- !app_assoc; exact Hb'|rewrite !len_app, !le_bytes_len; lia|lia].
Qed.

(** Reading the tables back. *)
Lemma off_le32s : forall os j x, nth_error os j = Some x -> x < 2 ^ 32 -> off (le32s os) (N.of_nat j * 4) = x.
Proof.
  intros os j x H Hx. apply nth_error_split in H. destruct H as (l1 & l2 & -> & Hl). rewrite le32s_app.
  change (le32s (x :: l2)) with (le_bytes 4 x ++ le32s l2). unfold off.
  assert (L : N.of_nat j * 4 = len (le32s l1)) by (rewrite len_le32s; unfold len; lia). rewrite L.
  replace (len (le32s l1) + 4) with (len (le32s l1) + len (le_bytes 4 x)) by (rewrite le_bytes_len; reflexivity).
  rewrite cutout_app. apply le_val_bytes. exact Hx.
Qed.
Definition table8 (l : list (N * N)) : bytes := flat_map (fun p => le_bytes 4 (fst p) ++ le_bytes 4 (snd p)) l.
Lemma off_table8 : forall l j a b, nth_error l j = Some (a, b) -> a < 2 ^ 32 -> b < 2 ^ 32 ->
  off (table8 l) (N.of_nat j * 8) = a /\ off (table8 l) (N.of_nat j * 8 + 4) = b.
Proof.
  intros l j a b H Ha Hb. apply nth_error_split in H. destruct H as (l1 & l2 & -> & Hl).
  unfold table8. rewrite flat_map_app. cbn [flat_map fst snd]. fold (table8 l1) (table8 l2). rewrite <- app_assoc.
  assert (L : N.of_nat j * 8 = len (table8 l1)) by (unfold table8; rewrite len_table8; unfold len; lia). rewrite L. unfold off. split.
  - replace (len (table8 l1) + 4) with (len (table8 l1) + len (le_bytes 4 a)) by (rewrite le_bytes_len; reflexivity).
    rewrite cutout_app. apply le_val_bytes. exact Ha.
  - rewrite (app_assoc (table8 l1)). replace (len (table8 l1) + 4) with (len (table8 l1 ++ le_bytes 4 a)) by (rewrite len_app, le_bytes_len; reflexivity).
    replace (len (table8 l1 ++ le_bytes 4 a) + 4) with (len (table8 l1 ++ le_bytes 4 a) + len (le_bytes 4 b)) by (rewrite le_bytes_len; reflexivity).
    rewrite cutout_app. apply le_val_bytes. exact Hb.
Qed.

(** When the offsets are the starts of the pieces in a region [pre ++ concat ps], each piece is
    read back. *)
Definition marks (t : bytes) (sh stride base : N) (ps : list bytes) : Prop :=
  forall j, j < len ps -> off t (j * stride + sh) = base + len (concat (firstn (N.to_nat j) ps)).
Lemma marks_ends : forall t sh stride base ps j, marks t sh stride base ps -> j <= len ps ->
  ends t sh stride (len ps) (base + len (concat ps)) j = base + len (concat (firstn (N.to_nat j) ps)).
Proof.
  intros t sh stride base ps j M Hj. unfold ends. destruct (N.ltb_spec j (len ps)) as [H|H]; [apply M; exact H|].
  rewrite firstn_all2; [reflexivity|]. unfold len in *. lia.
Qed.
Lemma firstn_S_len : forall (ps : list bytes) j x, nth_error ps (N.to_nat j) = Some x ->
  len (concat (firstn (N.to_nat (j + 1)) ps)) = len (concat (firstn (N.to_nat j) ps)) + len x.
Proof.
  intros ps j x H. apply nth_error_split in H. destruct H as (l1 & l2 & -> & Hl).
  replace (N.to_nat (j + 1)) with (S (length l1)) by lia. rewrite <- Hl. rewrite (firstn_app_exact _ (length l1) l1 (x :: l2) eq_refl).
  replace (firstn (S (length l1)) (l1 ++ x :: l2)) with (l1 ++ [x]).
  2: { rewrite firstn_app, firstn_all2 by lia. replace (S (length l1) - length l1)%nat with 1%nat by lia. reflexivity. }
  rewrite !concat_app. cbn [concat]. rewrite app_nil_r, len_app. reflexivity.
Qed.
Lemma nth_lt : forall A (l : list A) j x, nth_error l (N.to_nat j) = Some x -> j < len l.
Proof. intros A l j x H. assert (N.to_nat j < length l)%nat by (apply nth_error_Some; congruence). unfold len. lia. Qed.
Lemma marks_piece : forall t sh stride pre ps j x, marks t sh stride (len pre) ps -> nth_error ps (N.to_nat j) = Some x ->
  piece t sh stride (len ps) (pre ++ concat ps) j = x.
Proof.
  intros t sh stride pre ps j x M H. pose proof (nth_lt _ _ _ _ H) as Hj.
  unfold piece. rewrite len_app. rewrite !marks_ends by (try exact M; lia). rewrite (firstn_S_len ps j x H).
  apply nth_error_split in H. destruct H as (l1 & l2 & -> & Hl). rewrite <- Hl, firstn_app_exact by reflexivity.
  rewrite concat_app. cbn [concat]. rewrite app_assoc. rewrite N.add_assoc.
  pose proof (cutout_app (pre ++ concat l1) x (concat l2)) as C. rewrite len_app in C. exact C.
Qed.
Lemma marks_mono : forall (ps : list bytes) j, len (concat (firstn j ps)) <= len (concat ps).
Proof. intros ps j. rewrite <- (firstn_skipn j ps) at 2. rewrite concat_app, len_app. lia. Qed.
(** All pieces but the last are not empty. *)
Definition inner_nonempty (ps : list bytes) : Prop := forall j x, nth_error ps j = Some x -> (j + 1 < length ps)%nat -> x <> [].
Lemma marks_order : forall t sh stride base ps plen, marks t sh stride base ps -> base + len (concat ps) <= plen ->
  in_order t sh stride (len ps) plen <-> inner_nonempty ps.
Proof.
  intros t sh stride base ps plen M Hp.
  assert (D : forall j, j + 1 < len ps -> exists x, nth_error ps (N.to_nat j) = Some x /\ off t ((j + 1) * stride + sh) = off t (j * stride + sh) + len x).
  { intros j Hj. destruct (nth_error ps (N.to_nat j)) as [x|] eqn:Hn; [|apply nth_error_None in Hn; unfold len in Hj; lia].
    exists x. split; [reflexivity|]. rewrite !M by lia. rewrite (firstn_S_len ps j x Hn). lia. }
  split.
  - intros [_ H] j x Hx Hj Hn. subst x. destruct (D (N.of_nat j)) as (x & Hx' & Ho); [unfold len; lia|]. rewrite Nat2N.id, Hx in Hx'. inversion Hx'; subst x.
    specialize (H (N.of_nat j)). rewrite Ho in H. change (len (@nil N)) with 0 in H. unfold len in H. lia.
  - intros H. split.
    + intros j Hj. rewrite M by exact Hj. pose proof (marks_mono ps (N.to_nat j)). lia.
    + intros j Hj. destruct (D j Hj) as (x & Hx & ->). assert (x <> []) by (apply (H (N.to_nat j) x Hx); unfold len in Hj; lia).
      destruct x; [congruence|]. rewrite len_cons. lia.
Qed.
Lemma nth_starts : forall l i o, (i < length l)%nat -> nth_error (starts o l) i = Some (o + len (concat (firstn i l))).
Proof.
  intros l i o H. destruct (nth_error (starts o l) i) as [x|] eqn:Hn.
  - f_equal. apply starts_nth. exact Hn.
  - apply nth_error_None in Hn. rewrite starts_length in Hn. lia.
Qed.
Lemma marks_le32s : forall ps, len (concat ps) < 2 ^ 32 -> marks (le32s (starts 0 ps)) 0 4 0 ps.
Proof.
  intros ps H j Hj. rewrite N.add_0_r, N.add_0_l. replace j with (N.of_nat (N.to_nat j)) at 1 by lia. apply off_le32s.
  - rewrite nth_starts by (unfold len in Hj; lia). rewrite N.add_0_l. reflexivity.
  - pose proof (marks_mono ps (N.to_nat j)). lia.
Qed.
Lemma marks_table8 : forall ks vs, length ks = length vs -> len (concat ks) < 2 ^ 32 -> len (concat vs) < 2 ^ 32 ->
  marks (table8 (combine (starts 0 ks) (starts 0 vs))) 0 8 0 ks /\ marks (table8 (combine (starts 0 ks) (starts 0 vs))) 4 8 0 vs.
Proof.
  intros ks vs L Hk Hv.
  assert (C : forall j, j < len ks -> nth_error (combine (starts 0 ks) (starts 0 vs)) (N.to_nat j)
     = Some (len (concat (firstn (N.to_nat j) ks)), len (concat (firstn (N.to_nat j) vs)))).
  { intros j Hj.
    assert (Q : forall (a b : list N) i x y, nth_error a i = Some x -> nth_error b i = Some y -> nth_error (combine a b) i = Some (x, y)).
    { induction a as [|u a IH]; intros [|w b] [|i] x y H1 H2; cbn in *; try discriminate; [congruence|auto]. }
    apply Q; rewrite nth_starts by (unfold len, bytes in *; lia); rewrite N.add_0_l; reflexivity. }
  split; intros j Hj; rewrite N.add_0_l.
  - specialize (C j Hj). apply off_table8 in C; [|eapply N.le_lt_trans; [apply marks_mono|exact Hk]|eapply N.le_lt_trans; [apply marks_mono|exact Hv]].
    rewrite N2Nat.id in C. rewrite N.add_0_r. apply C.
  - assert (Hj' : j < len ks) by (unfold len, bytes in *; lia). specialize (C j Hj').
    apply off_table8 in C; [|eapply N.le_lt_trans; [apply marks_mono|exact Hk]|eapply N.le_lt_trans; [apply marks_mono|exact Hv]].
    rewrite N2Nat.id in C. apply C.
Qed.
Lemma marks_struct : forall ps base rest, base + len (concat ps) < 2 ^ 32 -> marks (struct_offsets base ps ++ rest) 0 4 base ps.
Proof.
  intros ps base rest H j Hj. rewrite N.add_0_r.
  assert (S : forall ps base, base + len (concat ps) < 2 ^ 32 -> struct_offsets base ps = le32s (starts base ps)).
  { clear. induction ps as [|x ps IH]; intros base H; [reflexivity|]. cbn [struct_offsets starts concat] in *. rewrite len_app in H.
    rewrite IH by lia. rewrite N.mod_small by lia. reflexivity. }
  rewrite S by exact H. rewrite off_app.
  - replace j with (N.of_nat (N.to_nat j)) at 1 by lia. apply off_le32s.
    + apply nth_starts. unfold len in Hj. lia.
    + pose proof (marks_mono ps (N.to_nat j)). lia.
  - rewrite len_le32s. unfold len at 1. rewrite starts_length. unfold len in Hj. lia.
Qed.

(** What the encoders write, opened. *)
Lemma open_idx_seq : forall E bs b, e_ub E = 32 \/ e_ub E = 64 -> enc_idx_seq bs = Ok b -> len b < 2 ^ e_ub E -> Forall (fun x => len x < 2 ^ 32) bs ->
  if len bs <? 8 then forall v, seq_open E v b = Ok (mkSeqW (concat bs) None (len bs))
  else exists hd t, b = hd ++ concat bs /\ len t = 4 * len bs /\ marks t 0 4 0 bs
       /\ seq_open E false b = Ok (mkSeqW (concat bs) (Some t) (len bs))
       /\ (inner_nonempty bs -> seq_open E true b = Ok (mkSeqW (concat bs) (Some t) (len bs)))
       /\ (~ inner_nonempty bs -> exists e, seq_open E true b = Err e).
Proof.
  intros E bs b Hub H Lb Hs. assert (Hu : e_ub E <= 64) by (clear - Hub; lia).
  assert (H8 : 8 <= 2 ^ e_ub E) by (destruct Hub as [-> | ->]; vm_compute; discriminate). clear Hub. unfold enc_idx_seq in H. unfold OFFSET_TABLE_MIN_LEN in H. cbv zeta in H. destruct (N.ltb_spec (len bs) 8) as [Hn|Hn].
  - inversion H; subst b. intros v. set (b := 0 :: write_varint (len bs) ++ concat bs) in *. unfold seq_open.
    assert (Hb : len b = 1 + len (write_varint (len bs)) + len (concat bs)) by (unfold b; rewrite len_cons, len_app; lia).
    change b with (0 :: write_varint (len bs) ++ concat bs) at 1. cbv iota beta.
    assert (len bs < 2 ^ e_ub E) by lia.
    rewrite varint_at_write by assumption. cbn [rbind fst snd]. change (N.land 0 FLAG_INDEXED =? 0) with true. cbv iota.
    rewrite (at_eq_end b (0 :: write_varint (len bs)) (concat bs)); [reflexivity|reflexivity|rewrite len_cons; lia|lia].
  - destruct (offsets 0 bs) as [[os e]|] eqn:O; [|discriminate]. apply offsets_spec in O; [|exact Hs]. destruct O as (-> & He & Hlt).
    inversion H; subst b. assert (Lc : len (concat bs) < 2 ^ 32) by (apply (N.le_lt_trans _ e); [lia|apply Hlt; reflexivity]).
    assert (Lt : len (le32s (starts 0 bs)) = 4 * len bs) by (rewrite len_le32s; unfold len; rewrite starts_length; reflexivity).
    exists (FLAG_INDEXED :: write_varint (len bs) ++ le32s (starts 0 bs)), (le32s (starts 0 bs)).
    split; [cbn [app]; rewrite <- app_assoc; reflexivity|]. split; [exact Lt|]. split; [apply marks_le32s; exact Lc|].
    rewrite !seq_open_eq by assumption. cbn [rbind]. split; [reflexivity|]. rewrite N.mod_small by exact Lc.
    assert (Hf : forall j, j < len bs -> j * 4 + 4 <= len (le32s (starts 0 bs))) by (intros; lia).
    pose proof (prologue_spec (le32s (starts 0 bs)) (len bs) 4 (len (concat bs)) Hf) as P.
    pose proof (monotone_order (le32s (starts 0 bs)) 4 (len bs) (len (concat bs))) as Q1.
    pose proof (marks_order _ 0 4 0 bs (len (concat bs)) (marks_le32s bs Lc)) as Q2. specialize (Q2 (N.le_refl _)).
    destruct (validate_prologue _ _ _ _); cbn [rbind].
    + split; [reflexivity|intros; exfalso; tauto].
    + split; [intros; exfalso; tauto|]. intros _. eauto.
    + contradiction.
Qed.

Lemma map_open_small : forall E v n body, e_ub E <= 64 -> n < 2 ^ e_ub E -> map_open E v (0 :: write_varint n ++ body) = Ok (mkMapW body None n).
Proof.
  intros E v n body Hu Hn. unfold map_open. rewrite varint_at_write by assumption. cbn [rbind fst snd].
  rewrite (at_eq_end (0 :: write_varint n ++ body) (0 :: write_varint n) body); [reflexivity|reflexivity|rewrite len_cons; lia|rewrite len_cons, len_app; lia].
Qed.
Lemma open_idx_map : forall E ps b, e_ub E = 32 \/ e_ub E = 64 -> enc_idx_map ps = Ok b -> len b < 2 ^ e_ub E ->
  Forall (fun x => len x < 2 ^ 32) (map fst ps) -> Forall (fun x => len x < 2 ^ 32) (map snd ps) ->
  StronglySorted (fun x y => bcmp x y = Lt) (map fst ps) ->
  if len ps <? 8 then exists body, forall v, map_open E v b = Ok (mkMapW body None (len ps))
  else exists t body, let p := mkMapP t (concat (map fst ps)) (concat (map snd ps)) in
       let w := mkMapW body (Some p) (len ps) in
       len t = 8 * len ps /\ len t <= len b
       /\ marks t 0 8 0 (map fst ps) /\ marks t 4 8 0 (map snd ps)
       /\ map_open E false b = Ok w
       /\ (inner_nonempty (map fst ps) /\ inner_nonempty (map snd ps) -> map_open E true b = Ok w)
       /\ (~ (inner_nonempty (map fst ps) /\ inner_nonempty (map snd ps)) -> exists e, map_open E true b = Err e).
Proof.
  intros E ps b Hub H Lb Hk Hv Hsort. assert (Hu : e_ub E <= 64) by (clear - Hub; lia).
  assert (H8 : 8 <= 2 ^ e_ub E) by (destruct Hub as [-> | ->]; vm_compute; discriminate). clear Hub.
  unfold enc_idx_map in H. unfold OFFSET_TABLE_MIN_LEN in H. cbv zeta in H. destruct (N.ltb_spec (len ps) 8) as [Hn|Hn].
  - inversion H; subst b. eexists. intros v. apply map_open_small; [exact Hu|lia].
  - destruct (offsets 0 (map fst ps)) as [[ks ke]|] eqn:O1; [|discriminate]. destruct (offsets 0 (map snd ps)) as [[vs ve]|] eqn:O2; [|discriminate].
    apply offsets_spec in O1; [|exact Hk]. destruct O1 as (-> & He1 & Hlt1). apply offsets_spec in O2; [|exact Hv]. destruct O2 as (-> & He2 & Hlt2).
    specialize (Hlt1 eq_refl). specialize (Hlt2 eq_refl). rewrite N.add_0_l in He1, He2. subst ke ve.
    apply Ok_inj in H; subst b. fold (table8 (combine (starts 0 (map fst ps)) (starts 0 (map snd ps)))) in *.
    set (t := table8 (combine (starts 0 (map fst ps)) (starts 0 (map snd ps)))) in *.
    assert (L : length (map fst ps) = length (map snd ps)) by (rewrite !map_length; reflexivity).
    assert (Lt : len t = 8 * len ps).
    { unfold t, table8. rewrite len_table8. unfold len. rewrite combine_length, !starts_length, !map_length. lia. }
    destruct (marks_table8 _ _ L Hlt1 Hlt2) as [M1 M2]. fold t in M1, M2.
    assert (LK : len (map fst ps) = len ps) by (unfold len; rewrite map_length; reflexivity).
    assert (LV : len (map snd ps) = len ps) by (unfold len; rewrite map_length; reflexivity).
    eexists t, _. cbv zeta. split; [exact Lt|]. split; [rewrite len_cons, !len_app; clear; lia|]. split; [exact M1|]. split; [exact M2|].
    rewrite !map_open_eq by (try assumption; reflexivity). split; [reflexivity|].
    assert (L0 : 0 < len ps) by lia.
    assert (B8 : len ps * 8 < 2 ^ e_ub E) by (rewrite len_cons, !len_app in Lb; lia).
    pose proof (map_prologue_spec E t (len ps) (len (concat (map fst ps))) (len (concat (map snd ps))) B8 Lt L0) as P.
    pose proof (marks_order _ 0 8 0 (map fst ps) (len (concat (map fst ps))) M1) as Q1. rewrite LK in Q1.
    pose proof (marks_order _ 4 8 0 (map snd ps) (len (concat (map snd ps))) M2) as Q2. rewrite LV in Q2.
    specialize (Q1 (N.le_refl _)). specialize (Q2 (N.le_refl _)).
    destruct (validate_map_prologue _ _ _ _ _); cbn [rbind].
    + pose proof (ascending_spec (concat (map fst ps)) t (len ps) (proj1 P) Lt) as A.
      assert (A' : ascending t (len ps) (concat (map fst ps))).
      { intros j Hj.
        destruct (nth_error (map fst ps) (N.to_nat j)) as [x|] eqn:N1; [|apply nth_error_None in N1; rewrite map_length in N1; unfold len in Hj; lia].
        destruct (nth_error (map fst ps) (N.to_nat (j + 1))) as [y|] eqn:N2; [|apply nth_error_None in N2; rewrite map_length in N2; unfold len in Hj; lia].
        rewrite <- LK. pose proof (marks_piece t 0 8 [] (map fst ps) j x M1 N1) as Z1. pose proof (marks_piece t 0 8 [] (map fst ps) (j + 1) y M1 N2) as Z2.
        cbn [app] in Z1, Z2. rewrite Z1, Z2. clear - Hsort N1 N2.
        apply nth_error_split in N1. destruct N1 as (l1 & l2 & Hl & Hi). rewrite Hl in *.
        rewrite nth_error_app2 in N2 by lia. replace (N.to_nat (j + 1) - length l1)%nat with 1%nat in N2 by lia. cbn in N2. destruct l2 as [|z l2]; [discriminate|].
        cbn in N2. inversion N2; subst z. clear - Hsort. induction l1 as [|u l1 IH]; cbn in Hsort; inversion Hsort; subst; [|auto].
        inversion H2; assumption. }
      destruct (validate_ascending _ _ _); cbn [rbind]; [|contradiction|contradiction]. split; [reflexivity|intros; exfalso; tauto].
    + split; [intros; exfalso; tauto|]. intros _. eauto.
    + contradiction.
Qed.
