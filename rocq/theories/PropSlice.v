(** C42, C43: readers over slices, borrowed bytes. *)

From Verif Require Import Base BaseL Prog ProgL Prim PrimL Utf8 Tag Ty Ser De Typed Mig RtL RtTy RtSch RtId Spec Cross Ex SliceReader Skip SkipL Walk WalkSpec Yield PropWire PropSkip.
From Coq Require Import List NArith ZArith Bool Lia.
Import ListNotations.
Open Scope N_scope.

(** ** C42 *)

(** The operations on a [SliceReader], with their outcome: nothing, bytes, a reader, or an error. *)
Inductive rop := OpConsume (n : N) | OpAdvance (n : N) | OpSub (offset n : N) | OpRead (n : N) | OpPeek (n : N)
  | OpBorrow (n : N) | OpTake (n : N).
Inductive rout := OutUnit (r : res unit) | OutBytes (r : res bytes) | OutReader (r : res sreader).
Definition rstep (ub : N) (o : rop) (s : sreader) : rout * sreader :=
  match o with
  | OpConsume n => let (r, s') := sr_consume n s in (OutUnit r, s')
  | OpAdvance n => let (r, s') := sr_advance n s in (OutUnit r, s')
  | OpSub offset n => (OutReader (sr_sub ub offset n s), s)
  | OpRead n => let (x, s') := sr_read n s in (OutBytes (Ok x), s')
  | OpPeek n => (OutBytes (sr_peek n s), s)
  | OpBorrow n => let (r, s') := sr_borrow n s in (OutBytes r, s')
  | OpTake n => let (r, s') := take_reader n s in (OutBytes r, s')
  end.
Definition failed (o : rout) : bool :=
  match o with OutUnit (Ok _) | OutBytes (Ok _) | OutReader (Ok _) => false | _ => true end.
(** Readers over [b] reached by some sequence of operations. *)
Inductive reach (ub : N) (b : bytes) : sreader -> Prop :=
| reach_new : reach ub b (sr_new b)
| reach_step : forall s o, reach ub b s -> reach ub b (snd (rstep ub o s)).

Lemma split_ok : forall A n (l x y : list A), split_at n l = Some (x, y) -> l = x ++ y /\ len x = n.
Proof. intros A n l x y H. apply split_at_some in H. destruct H as [-> <-]. auto. Qed.
Definition moved (s s' : sreader) : Prop := exists x, sr_inner s = x ++ sr_inner s' /\ sr_orig s' = sr_orig s.
Lemma moved_refl : forall s, moved s s.
Proof. intros s. exists []. auto. Qed.
Lemma rstep_moved : forall ub o s, moved s (snd (rstep ub o s)).
Proof.
  intros ub o [b g]. destruct o; cbn [rstep]; unfold sr_advance, sr_consume, sr_read, sr_borrow, take_reader, sr_peek, sr_advance, sr_consume; cbn [sr_inner sr_orig];
    try apply moved_refl; match goal with |- context [split_at ?n ?l] => destruct (split_at n l) as [[x y]|] eqn:E end;
    cbn [snd]; try apply moved_refl; apply split_ok in E; destruct E as [-> _]; exists x; auto.
Qed.
Lemma reach_inv : forall ub b s, reach ub b s -> exists x, b = x ++ sr_inner s /\ sr_orig s = len b.
Proof.
  intros ub b s H. induction H as [|s o _ IH].
  - exists []. auto.
  - destruct IH as (x & Hx & Ho). destruct (rstep_moved ub o s) as (y & Hy & Ho'). exists (x ++ y).
    rewrite <- app_assoc, <- Hy. split; [exact Hx|congruence].
Qed.

(** What was consumed and what remains are together the input, at all times. *)
Theorem C42_consumed_and_remaining : forall ub b s, reach ub b s ->
  exists consumed, b = consumed ++ sr_remaining s /\ sr_consumed s = len consumed /\ sr_consumed s + len (sr_remaining s) = len b.
Proof.
  intros ub b s H. apply reach_inv in H. destruct H as (x & Hx & Ho). exists x. split; [exact Hx|].
  unfold sr_consumed, sr_remaining. rewrite Ho, Hx, len_app. split; lia.
Qed.
Theorem C42_failed_operations_change_nothing : forall ub o s, failed (fst (rstep ub o s)) = true -> snd (rstep ub o s) = s.
Proof.
  intros ub o [b g]. destruct o; cbn [rstep]; unfold sr_advance, sr_consume, sr_read, sr_borrow, take_reader, sr_peek, sr_advance, sr_consume; cbn [sr_inner sr_orig];
    try reflexivity; match goal with |- context [split_at ?n ?l] => destruct (split_at n l) as [[x y]|] eqn:E end; cbn; intros H; try discriminate; reflexivity.
Qed.
Theorem C42_consume : forall n s,
  (n <= len (sr_remaining s) /\ exists x s', sr_consume n s = (Ok tt, s') /\ sr_remaining s = x ++ sr_remaining s' /\ len x = n)
  \/ (len (sr_remaining s) < n /\ sr_consume n s = (Err EIo, s)).
Proof.
  intros n [b g]. unfold sr_consume, sr_remaining. cbn [sr_inner sr_orig]. destruct (split_at n b) as [[x y]|] eqn:E.
  - apply split_ok in E. destruct E as [-> <-]. left. rewrite len_app. split; [lia|]. eexists _, _. split; [reflexivity|]. auto.
  - apply split_at_none in E. right. auto.
Qed.
(** [sub] of a reader over [b]: exactly the ranges that start at or after the cursor and end in [b]. *)
Theorem C42_sub : forall ub b s offset n, reach ub b s -> len b < 2 ^ ub ->
  (exists r, sr_sub ub offset n s = Ok r) <-> (sr_consumed s <= offset /\ offset + n <= len b).
Proof.
  intros ub b s offset n H Hb. apply reach_inv in H. destruct H as (x & Hx & Ho).
  assert (Hc : sr_consumed s = len x) by (unfold sr_consumed; rewrite Ho, Hx, len_app; lia).
  assert (Hl : len b = len x + len (sr_inner s)) by (rewrite Hx at 1; apply len_app). unfold sr_sub. cbv zeta. rewrite Hc.
  destruct (N.ltb_spec offset (len x)) as [H1|H1]; [split; [intros (r & Hr); discriminate|lia]|].
  destruct (N.leb_spec (2 ^ ub) (offset - len x + n)) as [H2|H2]; [split; [intros (r & Hr); discriminate|lia]|].
  destruct (N.ltb_spec (len (sr_inner s)) (offset - len x + n)) as [H3|H3]; [split; [intros (r & Hr); discriminate|lia]|].
  split; [lia|]. intros _. destruct (split_at (offset - len x) (sr_inner s)) as [[u v]|] eqn:E1; [|apply split_at_none in E1; lia].
  apply split_ok in E1. destruct E1 as [E1 E1']. destruct (split_at n v) as [[w z]|] eqn:E2; [eauto|].
  apply split_at_none in E2. rewrite E1, len_app in H3. lia.
Qed.
Theorem C42_sub_bytes : forall ub b s offset n r, reach ub b s -> sr_sub ub offset n s = Ok r ->
  exists pre post, b = pre ++ sr_remaining r ++ post /\ len pre = offset /\ len (sr_remaining r) = n /\ sr_consumed r = 0.
Proof.
  intros ub b s offset n r H. apply reach_inv in H. destruct H as (x & Hx & Ho).
  assert (Hc : sr_consumed s = len x) by (unfold sr_consumed; rewrite Ho, Hx, len_app; lia). unfold sr_sub. cbv zeta. rewrite Hc.
  destruct (N.ltb_spec offset (len x)) as [H1|H1]; [discriminate|].
  destruct (N.leb_spec (2 ^ ub) (offset - len x + n)) as [H2|H2]; [discriminate|].
  destruct (N.ltb_spec (len (sr_inner s)) (offset - len x + n)) as [H3|H3]; [discriminate|].
  destruct (split_at (offset - len x) (sr_inner s)) as [[u v]|] eqn:E1; [|discriminate].
  destruct (split_at n v) as [[w z]|] eqn:E2; [|discriminate]. intros H. inversion H; subst r.
  apply split_ok in E1, E2. destruct E1 as [E1 E1'], E2 as [-> E2]. exists (x ++ u), z. rewrite Hx, E1, <- app_assoc.
  unfold sr_remaining, sr_new, sr_consumed. cbn [sr_inner sr_orig]. rewrite len_app. repeat split; lia.
Qed.
(** Which error [sub] gives: bad arguments (an offset before the cursor, a range no [usize] holds) or a range that ends
    beyond the slice. *)
Theorem C42_sub_error : forall ub b s offset n e, reach ub b s -> len b < 2 ^ ub -> sr_sub ub offset n s = Err e ->
  e = EIoInput /\ (offset < sr_consumed s \/ sr_consumed s <= offset /\ 2 ^ ub <= offset - sr_consumed s + n)
  \/ e = ESubReaderOverrun /\ sr_consumed s <= offset /\ len b < offset + n /\ offset - sr_consumed s + n < 2 ^ ub.
Proof.
  intros ub b s offset n e H Hb. apply reach_inv in H. destruct H as (x & Hx & Ho).
  assert (Hc : sr_consumed s = len x) by (unfold sr_consumed; rewrite Ho, Hx, len_app; lia).
  assert (Hl : len b = len x + len (sr_inner s)) by (rewrite Hx at 1; apply len_app). unfold sr_sub. cbv zeta. rewrite Hc.
  destruct (N.ltb_spec offset (len x)) as [H1|H1]; [intros Q; inversion Q; auto|].
  destruct (N.leb_spec (2 ^ ub) (offset - len x + n)) as [H2|H2]; [intros Q; inversion Q; auto|].
  destruct (N.ltb_spec (len (sr_inner s)) (offset - len x + n)) as [H3|H3]; [intros Q; inversion Q; right; repeat split; lia|].
  destruct (split_at (offset - len x) (sr_inner s)) as [[u v]|]; [destruct (split_at n v) as [[w z]|]|]; discriminate.
Qed.
Example C42_sub_error_ex : reach 64 [1; 2; 3] (mkSR [2; 3] 3) /\ sr_sub 64 0 1 (mkSR [2; 3] 3) = Err EIoInput /\ sr_sub 64 2 2 (mkSR [2; 3] 3) = Err ESubReaderOverrun.
Proof. split; [apply (reach_step 64 [1; 2; 3] (sr_new [1; 2; 3]) (OpAdvance 1)), reach_new|split; vm_compute; reflexivity]. Qed.
(** No operation panics. *)
Theorem C42_no_panic : forall ub o s p, fst (rstep ub o s) <> OutUnit (Panic p) /\ fst (rstep ub o s) <> OutBytes (Panic p) /\ fst (rstep ub o s) <> OutReader (Panic p).
Proof.
  intros ub o [b g] p. destruct o; cbn [rstep]; unfold sr_advance, sr_consume, sr_read, sr_borrow, take_reader, sr_peek, sr_advance, sr_consume; cbn [sr_inner sr_orig];
    try (match goal with |- context [split_at ?n ?l] => destruct (split_at n l) as [[x y]|] eqn:E end; cbn; repeat split; discriminate).
  cbn [fst]. repeat split; try discriminate. unfold sr_sub. cbv zeta. cbn [sr_inner].
  destruct (offset <? _); [discriminate|]. destruct (_ <=? _); [discriminate|].
  destruct (N.ltb_spec (len b) (offset - sr_consumed (mkSR b g) + n)) as [|H3]; [discriminate|].
  destruct (split_at (offset - sr_consumed (mkSR b g)) b) as [[u v]|] eqn:E1; [|apply split_at_none in E1; lia].
  apply split_ok in E1. destruct E1 as [-> E1]. destruct (split_at n v) as [[w z]|] eqn:E2; [discriminate|].
  apply split_at_none in E2. rewrite len_app in H3. lia.
Qed.
(** A [&[u8]] reader gives the same bytes and errors and leaves the same bytes. *)
Theorem C42_slice_readers_agree : forall n b g,
  sl_peek n b = sr_peek n (mkSR b g)
  /\ fst (sl_advance n b) = fst (sr_advance n (mkSR b g)) /\ snd (sl_advance n b) = sr_inner (snd (sr_advance n (mkSR b g)))
  /\ fst (take_slice n b) = fst (take_reader n (mkSR b g)) /\ snd (take_slice n b) = sr_inner (snd (take_reader n (mkSR b g))).
Proof.
  intros n b g. unfold sl_peek, sr_peek, sl_advance, sr_advance, sr_consume, take_slice, take_reader. cbn [sr_inner sr_orig].
  destruct (split_at n b) as [[x y]|]; repeat split.
Qed.

(** ** C43 *)

(** Taking [n] bytes: exactly the next [n], or an error and no movement. *)
Theorem C43_take : forall n s,
  match sr_borrow n s with
  | (Ok x, s') => sr_remaining s = x ++ sr_remaining s' /\ len x = n
  | (Err _, s') => s' = s /\ len (sr_remaining s) < n
  | (Panic _, _) => False
  end /\ take_reader n s = sr_borrow n s.
Proof.
  intros n [b g]. unfold sr_borrow, take_reader, sr_peek, sr_advance, sr_consume, sr_remaining. cbn [sr_inner sr_orig].
  destruct (split_at n b) as [[x y]|] eqn:E.
  - apply split_ok in E. destruct E as [-> <-]. auto.
  - apply split_at_none in E. auto.
Qed.

Lemma with_bytes_run : forall E bs n x rest o, run (de_len E) bs = Ok (n, x ++ rest) -> len x = n ->
  with_bytes E (mkSR bs o) = Ok (x, mkSR rest o).
Proof.
  intros E bs n x rest o H Hx. unfold with_bytes. unfold sm_bind at 1. rewrite sr_run_run. cbn [sr_inner sr_orig].
  rewrite H. cbn [with_orig]. unfold sm_bind, sr_peek, sm_op, sr_advance, sr_consume. cbn [sr_inner sr_orig].
  rewrite split_at_app_n by auto. cbn [rmap rbind sr_inner sr_orig]. rewrite split_at_app_n by auto. reflexivity.
Qed.
(** A length, then content: what the decoders of these types read. *)
Definition blobs (E : env) (p : prog val) : Prop := forall bs v rest, wfb bs -> run p bs = Ok (v, rest) ->
  run (de_len E) bs = Ok (len (contents v), contents v ++ rest).
Lemma blobs_len : forall E (q : N -> prog val), (forall n bs v rest, wfb bs -> run (q n) bs = Ok (v, rest) -> bs = contents v ++ rest /\ len (contents v) = n) ->
  blobs E (n <- de_len E ;; q n).
Proof.
  intros E q H bs v rest Hb Hr. rewrite run_bind in Hr. destruct (run (de_len E) bs) as [[n r]| |] eqn:E1; try discriminate.
  cbn [rbind] in Hr. apply H in Hr; [|exact (run_wfb _ _ _ _ _ Hb E1)]. destruct Hr as [-> ->]. reflexivity.
Qed.
Lemma blobs_bind : forall E (p : prog N) (q : N -> prog val) f, blobs E (n <- p ;; m <- q n ;; Ret (f m)) <-> blobs E (m <- (n <- p ;; q n) ;; Ret (f m)).
Proof.
  intros E p q f. split; intros H bs v rest Hb Hr; apply H; auto; rewrite <- Hr; clear; rewrite !run_bind; destruct (run p bs) as [[n r]| |]; cbn [rbind]; rewrite ?run_bind; reflexivity.
Qed.
Lemma run_alloc_inv : forall E n A (p : prog A) bs r, run (alloc E n ;;; p) bs = Ok r -> run p bs = Ok r.
Proof.
  intros E n A p bs r H. rewrite run_bind in H. destruct (run (alloc E n) bs) as [[u y]| |] eqn:E1; try discriminate.
  apply alloc_ok in E1. subst y. exact H.
Qed.
Lemma blobs_str : forall E, blobs E (de_str E).
Proof.
  intros E. apply blobs_len. intros n bs v rest Hb H. destruct (N.eqb_spec n 0) as [->|Hn].
  - inversion H; subst. split; reflexivity.
  - apply run_alloc_inv in H. rewrite run_bind in H. destruct (run (read_n n) bs) as [[x y]| |] eqn:E1; try discriminate. cbn [rbind] in H.
    apply run_read_n_ok in E1. destruct E1 as [-> <-]. destruct (utf8_ok x); [|discriminate]. inversion H; subst. split; reflexivity.
Qed.
Lemma blobs_blob : forall E, blobs E (b <- de_blob E ;; Ret (VBytes b)).
Proof.
  intros E bs v rest Hb H. rewrite run_bind in H.
  destruct (run (de_blob E) bs) as [[x r0]| |] eqn:E1; try discriminate.
  cbn [rbind run] in H. inversion H; subst. unfold de_blob in E1. rewrite run_bind in E1. destruct (run (de_len E) bs) as [[n r]| |] eqn:E2; try discriminate.
  cbn [rbind] in E1. cbn [contents]. destruct (N.eqb_spec n 0) as [->|Hn].
  - inversion E1; subst. reflexivity.
  - apply run_alloc_inv in E1. apply run_read_n_ok in E1. destruct E1 as [-> <-]. reflexivity.
Qed.
Definition as_byte (x : val) : N := match x with VInt z => Z.to_N (z mod 256) | _ => 0 end.
Lemma as_byte_eq : forall l, contents (VSeq l) = map as_byte l.  Proof. reflexivity. Qed.
Definition one_byte (p : prog val) : Prop := forall bs v rest, wfb bs -> run p bs = Ok (v, rest) -> bs = as_byte v :: rest.
Lemma one_byte_rep : forall p n bs l rest, one_byte p -> wfb bs -> run (rep n p) bs = Ok (l, rest) -> bs = map as_byte l ++ rest.
Proof.
  intros p n bs l rest Hp. revert bs l rest. induction n as [|n IH]; intros bs l rest Hb H.
  - inversion H; subst. reflexivity.
  - rewrite run_rep_S in H. destruct (run p bs) as [[v y]| |] eqn:E1; try discriminate. cbn [rbind] in H.
    destruct (run (rep n p) y) as [[l' z]| |] eqn:E2; try discriminate. inversion H; subst.
    rewrite (Hp _ _ _ Hb E1). cbn [map app]. f_equal. apply (IH _ _ _ (run_wfb _ _ _ _ _ Hb E1) E2).
Qed.
Lemma as_byte_u8 : forall b, b < 256 -> as_byte (VInt (Z.of_N b)) = b.
Proof. intros b H. cbn [as_byte]. rewrite Z.mod_small by lia. apply N2Z.id. Qed.
Lemma as_byte_i8 : forall b, b < 256 -> as_byte (VInt (signZ 8 b)) = b.
Proof.
  intros b H. exact (wrapZ_signZ 8 b eq_refl H).
Qed.
Lemma one_byte_u8 : forall E r, one_byte (de_ty E r (TInt U8)).
Proof.
  intros E r bs v rest Hb H. destruct bs as [|b bs]; [discriminate|]. cbn [de_ty de_int] in H. unfold de_u8 in H.
  rewrite !run_bind, run_read_byte_cons in H. cbn [rbind run] in H. inversion H; subst. rewrite as_byte_u8; [reflexivity|].
  apply wfb_cons in Hb. apply Hb.
Qed.
Lemma one_byte_i8 : forall E r, one_byte (de_ty E r (TInt I8)).
Proof.
  intros E r bs v rest Hb H. destruct bs as [|b bs]; [discriminate|]. cbn [de_ty de_int] in H. unfold de_i8 in H.
  rewrite !run_bind, run_read_byte_cons in H. cbn [rbind run] in H. inversion H; subst. rewrite as_byte_i8; [reflexivity|].
  apply wfb_cons in Hb. apply Hb.
Qed.
Lemma chunks_1 : forall x, chunks (length x) 1 x = map (fun b => [b]) x.
Proof. induction x as [|b x IH]; [reflexivity|]. cbn [length chunks]. change (split_at 1 (b :: x)) with (split_at (@len N [b]) ([b] ++ x)). rewrite split_at_app. cbn [map]. f_equal. exact IH. Qed.
Lemma blobs_bulk : forall E s, blobs E (l <- de_bulk E (BFix s 1) ;; Ret (VSeq l)).
Proof.
  intros E s bs v rest Hb H. rewrite run_bind in H. destruct (run (de_bulk E (BFix s 1)) bs) as [[l r0]| |] eqn:E1; try discriminate.
  cbn [rbind run] in H. inversion H; subst. unfold de_bulk in E1. rewrite run_bind in E1. destruct (run (de_len E) bs) as [[n r]| |] eqn:E2; try discriminate.
  pose proof (run_wfb _ _ _ _ _ Hb E2) as Hw. cbn [rbind] in E1. destruct (N.eqb_spec n 0) as [->|Hn].
  - inversion E1; subst. reflexivity.
  - change (N.of_nat 1) with 1 in E1. rewrite N.mul_1_r in E1. destruct (n <? 2 ^ e_ub E); [|discriminate]. apply run_alloc_inv in E1. rewrite run_bind in E1.
    destruct (run (read_n n) r) as [[x y]| |] eqn:E3; try discriminate. cbn [rbind run] in E1. apply run_read_n_ok in E3. destruct E3 as [-> <-].
    unfold len in E1. rewrite Nat2N.id, chunks_1, map_map in E1. inversion E1; subst. rewrite as_byte_eq, map_map.
    assert (Hm : map (fun b => as_byte (VInt (fixed_val s 1 [b]))) x = x).
    { rewrite <- (map_id x) at 2. apply map_ext_in. intros b Hi. apply wfb_app in Hw. destruct Hw as [Hw _].
      assert (Hlt : b < 256) by (apply (proj1 (Forall_forall _ _) Hw); exact Hi). unfold fixed_val. cbn [le_val]. rewrite N.mul_0_r, N.add_0_r.
      destruct s; [apply as_byte_i8|apply as_byte_u8]; exact Hlt. }
    rewrite Hm. reflexivity.
Qed.
Lemma blobs_seq : forall E p sz, one_byte p -> blobs E (l <- de_seq E sz p ;; Ret (VSeq l)).
Proof.
  intros E p sz Hp bs v rest Hb H. rewrite run_bind in H. destruct (run (de_seq E sz p) bs) as [[l r0]| |] eqn:E1; try discriminate.
  cbn [rbind run] in H. inversion H; subst. unfold de_seq in E1. rewrite run_bind in E1. destruct (run (de_len E) bs) as [[n r]| |] eqn:E2; try discriminate.
  pose proof (run_wfb _ _ _ _ _ Hb E2) as Hw. cbn [rbind] in E1. destruct (N.eqb_spec n 0) as [->|Hn].
  - inversion E1; subst. reflexivity.
  - apply run_alloc_inv in E1. pose proof (run_rep_length _ _ _ _ _ _ E1) as Hl. apply one_byte_rep in E1; [|exact Hp|exact Hw].
    rewrite as_byte_eq, E1. replace n with (len (map as_byte l)); [reflexivity|]. unfold len. rewrite map_length, Hl. apply N2Nat.id.
Qed.
Lemma blobs_ty : forall E r t, length_prefixed t = true -> blobs E (de_ty E r t).
Proof.
  intros E r. induction t; intros H; try discriminate H; cbn [de_ty].
  - apply blobs_str.
  - apply blobs_str.
  - apply blobs_blob.
  - destruct t; try discriminate H. destruct i; try discriminate H; cbn [bulk_of]; destruct (e_spec E);
      [apply blobs_bulk|apply blobs_seq, one_byte_u8|apply blobs_bulk|apply blobs_seq, one_byte_i8].
  - apply IHt. exact H.
Qed.

(** Where deserialising succeeds, borrowing gives the content of the same value and stops at the
    same byte. *)
Theorem C43_bytes_of_what_decodes : forall E d t bs v rest o, length_prefixed t = true -> wfb bs ->
  run (deserialize E d t) bs = Ok (v, rest) ->
  with_bytes E (mkSR bs o) = Ok (contents v, mkSR rest o).
Proof.
  intros E d t bs v rest o Ht Hb H. apply (blobs_ty E (de_ref E d) t Ht) in H; [|exact Hb].
  apply (with_bytes_run _ _ _ _ _ _ H). reflexivity.
Qed.
Lemma bytes_seq : forall E r t l ops, (forall x, In x l -> ser_ty E r t x = sall [as_byte x]) -> sconcat (map (ser_ty E r t) l) = Ok ops -> out ops = map as_byte l.
Proof.
  intros E r t l. induction l as [|x l IH]; intros ops H Hs; [inversion Hs; reflexivity|].
  cbn [map] in Hs. rewrite sconcat_cons, (H x) in Hs by (left; reflexivity). apply sbind_ok in Hs. destruct Hs as (o1 & o2 & H1 & H2 & ->).
  apply IH in H2; [|intros y Hy; apply H; right; exact Hy]. inversion H1; subst o1. cbn [map app]. unfold out in *. cbn. rewrite H2. reflexivity.
Qed.
Lemma bulk_bytes : forall l zs, rmapM as_int l = Ok zs -> flat_map (ser_fixed 1) zs = map as_byte l.
Proof.
  intros l zs H. apply rmapM_ok in H. induction H as [|x z l zs Hx _ IH]; [reflexivity|]. cbn [flat_map map]. rewrite IH.
  destruct x; try discriminate. inversion Hx; subst. unfold ser_fixed. change (8 * N.of_nat 1) with 8. cbn [le_bytes app].
  rewrite N.mod_small by exact (wrapZ_bound 8 z). reflexivity.
Qed.
Lemma ser_prefixed : forall E r rw t v ops, length_prefixed t = true -> wt_ty E rw t v -> ser_ty E r t v = Ok ops ->
  out ops = ser_len E (len (contents v)) ++ contents v /\ len (contents v) < 2 ^ e_ub E.
Proof.
  intros E r rw. assert (Hblob : forall b ops, ser_blob E b = Ok ops -> out ops = ser_len E (len b) ++ b).
  { intros b ops H. unfold ser_blob in H. apply Ok_inj in H. subst ops. unfold out. cbn [flat_map wop_bytes map concat]. rewrite app_nil_r. reflexivity. }
  assert (Hl : forall l, len (map as_byte l) = len l) by (intros l; unfold len; rewrite map_length; reflexivity).
  induction t; intros v ops Ht Hw H; try discriminate Ht.
  - destruct v; try contradiction Hw. cbn [ser_ty contents wt_ty] in *. split; [apply Hblob; exact H|apply Hw].
  - destruct v; try contradiction Hw. cbn [ser_ty contents wt_ty] in *. destruct (utf8_ok b); [|discriminate]. split; [apply Hblob; exact H|apply Hw].
  - destruct v; try contradiction Hw. cbn [ser_ty contents wt_ty] in *. split; [apply Hblob; exact H|apply Hw].
  - destruct v; try contradiction Hw. cbn [wt_ty] in Hw. destruct Hw as (Hf & _ & Hw). rewrite as_byte_eq, Hl. split; [|exact Hf].
    destruct t; try discriminate Ht. assert (Hi : i = U8 \/ i = I8) by (destruct i; try discriminate Ht; auto). clear Ht.
    assert (Hb : exists s, bulk_of (TInt i) = Some (BFix s 1)) by (destruct Hi as [-> | ->]; eexists; reflexivity). destruct Hb as (s & Hb).
    cbn [ser_ty] in H. rewrite Hb in H.
    destruct (e_spec E).
    + unfold ser_bulk in H. apply sbind_ok in H. destruct H as (o1 & o2 & H1 & H2 & ->). apply Ok_inj in H1. subst o1.
      destruct (N.eqb_spec (len l) 0) as [H0|H0].
      * destruct l; [|discriminate H0]. unfold snil in H2. apply Ok_inj in H2. subst o2. unfold out. cbn. rewrite app_nil_r. reflexivity.
      * apply rbind_ok in H2. destruct H2 as (zs & Hz & H2). unfold sall in H2. apply Ok_inj in H2. subst o2.
        unfold out. cbn [app flat_map wop_bytes map concat]. rewrite app_nil_r, (bulk_bytes _ _ Hz). reflexivity.
    + apply sbind_ok in H. destruct H as (o1 & o2 & H1 & H2 & ->). apply Ok_inj in H1. subst o1.
      apply (bytes_seq E r (TInt i)) in H2.
      * unfold out in *. cbn [app flat_map wop_bytes map concat]. rewrite H2. reflexivity.
      * intros x Hx. apply (proj1 (Forall_forall _ _) Hw) in Hx. destruct x; try contradiction Hx. cbn [wt_ty ser_ty as_byte] in *.
        destruct Hi as [-> | ->]; cbn [ser_int]; [|reflexivity]. unfold in_ity in Hx. cbn [ity_signed ity_bits] in Hx. unfold inU in Hx.
        change (2 ^ Z.of_N 8)%Z with 256%Z in Hx. unfold ser_u8. rewrite Z.mod_small by exact Hx. reflexivity.
  - apply (IHt v ops Ht Hw). exact H.
Qed.
(** On an encoding followed by anything. *)
Theorem C43_bytes_of_encoding : forall E d t v b rest o, wf_env E -> length_prefixed t = true -> wt E d t v ->
  to_vec E d t v = Ok b ->
  with_bytes E (mkSR (b ++ rest) o) = Ok (contents v, mkSR rest o).
Proof.
  intros E d t v b rest o W Ht Hw H. apply to_vec_ok in H. destruct H as (ops & H & ->).
  destruct (ser_prefixed E _ _ t v ops Ht Hw H) as [-> Hl]. rewrite <- app_assoc. apply (with_bytes_run _ _ (len (contents v))); [|reflexivity].
  unfold de_len, ser_len. destruct (we_ub E W) as [U|U]; rewrite U in *; apply rt_usize; (reflexivity || discriminate || exact Hl).
Qed.
Lemma len_no_panic : forall E bs p, run (de_len E) bs <> Panic p.
Proof.
  intros E bs p H. unfold de_len, de_usize in H. rewrite run_bind in H. unfold de_u64 in H.
  destruct (e_fw E).
  - rewrite run_bind in H. unfold read_n in H. cbn [run] in H. destruct (split_at 8 bs) as [[x y]|]; discriminate.
  - unfold decode_u64 in H. destruct bs as [|b bs]; [discriminate|]. rewrite run_bind, run_read_byte_cons in H.
    destruct (b =? 251); [|destruct (b =? 252); [|destruct (b =? 253); [|destruct (b =? 254); [|destruct (b =? 255)]; discriminate]]];
      rewrite run_bind in H; unfold read_n in H; cbn [run] in H;
      match type of H with context [split_at ?n ?l] => destruct (split_at n l) as [[x y]|]; discriminate end.
Qed.
(** It fails or returns exactly the announced number of bytes; it never panics. *)
Theorem C43_exact_or_error : forall E bs o,
  match with_bytes E (mkSR bs o) with
  | Ok (x, s') => exists hd, bs = hd ++ x ++ sr_remaining s' /\ run (de_len E) hd = Ok (len x, [])
  | Err _ => True
  | Panic _ => False
  end.
Proof.
  intros E bs o. unfold with_bytes. unfold sm_bind at 1. rewrite sr_run_run. cbn [sr_inner sr_orig].
  destruct (run (de_len E) bs) as [[n r]| |p] eqn:H; cbn [with_orig]; [|exact I|].
  - unfold sm_bind, sr_peek, sm_op, sr_advance, sr_consume. cbn [sr_inner sr_orig].
    destruct (split_at n r) as [[x y]|] eqn:Es; cbn [rmap rbind]; [|exact I]. cbn [sr_inner sr_orig]. rewrite Es. cbn [sm_ret sr_remaining sr_inner].
    apply split_ok in Es. destruct Es as [-> <-]. destruct (run_suffix _ _ _ _ _ H) as (hd & Hhd & Hx). exists hd. split; [exact Hhd|].
    rewrite <- (app_nil_r hd). apply Hx.
  - exact (len_no_panic _ _ _ H).
Qed.

(** Nothing about the content is checked: an ill-formed string is handed out as it is. *)
Example C43_example :
  with_bytes (ex_env (fun _ => None)) (sr_new [5; 104; 101; 108; 108; 111; 33]) = Ok ([104; 101; 108; 108; 111], mkSR [33] 7)
  /\ with_bytes (ex_env (fun _ => None)) (sr_new [5; 104]) = Err EIo
  /\ contents (VSeq [VInt (-1); VInt 2]) = [255; 2].
Proof. repeat split. Qed.
Example C42_example : forall s, s = snd (rstep 64 (OpTake 2) (sr_new [1; 2; 3; 4; 5; 6])) ->
  sr_consumed s = 2 /\ sr_sub 64 3 2 s = Ok (sr_new [4; 5]) /\ sr_sub 64 1 2 s = Err EIoInput /\ sr_sub 64 3 4 s = Err ESubReaderOverrun
  /\ sr_sub 64 (2 ^ 64 - 1) 4 s = Err EIoInput /\ sr_consume 5 s = (Err EIo, s) /\ reach 64 [1; 2; 3; 4; 5; 6] s.
Proof. intros s ->. repeat split. apply (reach_step 64 _ _ (OpTake 2)). apply reach_new. Qed.

Print Assumptions C42_consumed_and_remaining.
Print Assumptions C42_failed_operations_change_nothing.
Print Assumptions C42_consume.
Print Assumptions C42_sub.
Print Assumptions C42_sub_bytes.
Print Assumptions C42_sub_error.
Print Assumptions C42_no_panic.
Print Assumptions C42_slice_readers_agree.
Print Assumptions C43_take.
Print Assumptions C43_bytes_of_what_decodes.
Print Assumptions C43_bytes_of_encoding.
Print Assumptions C43_exact_or_error.
