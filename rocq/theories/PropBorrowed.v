(** C76: readers of the user's own that lend out their bytes. *)

From Verif Require Import Base BaseL Prog ProgL Prim Tag Ty Ser De Typed Mig RtL RtTy RtSch RtId Spec Cross Ex SliceReader Skip SkipL SkipIdx Walk Borrowed PropIdx PropWire PropSkip IdxWalkL PropEnc.
From Coq Require Import List NArith ZArith Bool Lia.
Import ListNotations.
Open Scope N_scope.

(** ** Specification *)

(** A reader that does what the documentation of the trait asks of one that "wants to be both UB-safe and
    semantically correct": in state [s] it stands before the bytes [view s]; [remaining] is these, [peek_bytes(n)] the
    first [n] of them, [advance(n)] and [read_exact] go on by exactly [n], and all of them fail with UnexpectedEof if
    there are fewer. *)
Definition exact_reader {St} (R : breader St) (view : St -> bytes) : Prop :=
  forall s, br_remaining R s = Ok (view s) /\
  forall n, (exists x y s1 s2, view s = x ++ y /\ len x = n /\ br_peek R n s = Ok x
               /\ br_advance R n s = (Ok tt, s1) /\ view s1 = y /\ br_exact R n s = Some (x, s2) /\ view s2 = y)
            \/ (len (view s) < n /\ br_peek R n s = Err EIo /\ fst (br_advance R n s) = Err EIo /\ br_exact R n s = None).
(** The same outcome, with the readers before the same bytes afterwards. *)
Definition same_outcome {St St' A} (view : St -> bytes) (view' : St' -> bytes) (r : res (A * St)) (r' : res (A * St')) : Prop :=
  match r, r' with
  | Ok (a, s), Ok (a', s') => a = a' /\ view s = view' s'
  | Err e, Err e' => e = e'
  | Panic p, Panic p' => p = p'
  | _, _ => False
  end.

(** ** Any two exact readers before the same bytes give the same result, whatever the generic code does *)

Theorem C76_any_reader : forall St St' (R : breader St) (R' : breader St') view view', exact_reader R view -> exact_reader R' view' ->
  forall A (p : bprog A) s s', view s = view' s' -> same_outcome view view' (brun R p s) (brun R' p s').
Proof.
  intros St St' R R' view view' HR HR' A p. induction p as [a|e|x|n e k IH|n k IH|n k IH|k IH]; intros s s' Hv; cbn [brun]; try reflexivity.
  - split; [reflexivity|exact Hv].
  - destruct (HR s) as [_ H]. destruct (HR' s') as [_ H']. specialize (H n). specialize (H' n).
    destruct H as [(x & y & s1 & s2 & H0 & Hl & Hp & Ha & H1 & He & H2)|(Hl & Hp & Ha & He)], H' as [(x' & y' & s1' & s2' & H0' & Hl' & Hp' & Ha' & H1' & He' & H2')|(Hl' & Hp' & Ha' & He')]; rewrite He, He'.
    + assert (x = x' /\ y = y') as [-> ->]. { apply app_len_inj; [congruence|]. congruence. } apply IH. congruence.
    + rewrite <- Hv, H0, len_app in Hl'. lia.
    + rewrite Hv, H0', len_app in Hl. lia.
    + reflexivity.
  - destruct (HR s) as [_ H]. destruct (HR' s') as [_ H']. specialize (H n). specialize (H' n).
    destruct H as [(x & y & s1 & s2 & H0 & Hl & Hp & Ha & H1 & He & H2)|(Hl & Hp & Ha & He)], H' as [(x' & y' & s1' & s2' & H0' & Hl' & Hp' & Ha' & H1' & He' & H2')|(Hl' & Hp' & Ha' & He')]; rewrite Hp, Hp'; cbn [rbind].
    + assert (x = x' /\ y = y') as [-> ->]. { apply app_len_inj; [congruence|]. congruence. } apply IH. exact Hv.
    + rewrite <- Hv, H0, len_app in Hl'. lia.
    + rewrite Hv, H0', len_app in Hl. lia.
    + reflexivity.
  - destruct (HR s) as [_ H]. destruct (HR' s') as [_ H']. specialize (H n). specialize (H' n).
    destruct H as [(x & y & s1 & s2 & H0 & Hl & Hp & Ha & H1 & He & H2)|(Hl & Hp & Ha & He)], H' as [(x' & y' & s1' & s2' & H0' & Hl' & Hp' & Ha' & H1' & He' & H2')|(Hl' & Hp' & Ha' & He')].
    + rewrite Ha, Ha'. assert (x = x' /\ y = y') as [-> ->]. { apply app_len_inj; [congruence|]. congruence. } apply IH. congruence.
    + rewrite <- Hv, H0, len_app in Hl'. lia.
    + rewrite Hv, H0', len_app in Hl. lia.
    + destruct (br_advance R n s) as [r1 t1], (br_advance R' n s') as [r2 t2]. cbn [fst] in Ha, Ha'. subst. reflexivity.
  - destruct (HR s) as [H _]. destruct (HR' s') as [H' _]. rewrite H, H'. cbn [rbind]. rewrite Hv. apply IH. exact Hv.
Qed.

(** The readers of the crate are exact ones; borrowing a reader mutably changes nothing. *)
Theorem C76_slice : exact_reader br_slice (fun b => b).
Proof.
  intros b. split; [reflexivity|]. intros n. cbn [br_slice br_peek br_advance br_exact]. unfold sl_peek, sl_advance. destruct (split_at n b) as [[x y]|] eqn:Es.
  - left. apply split_at_some in Es. destruct Es as [-> <-]. exists x, y, y, y. repeat split.
  - right. apply split_at_none in Es. repeat split. exact Es.
Qed.
Theorem C76_slice_reader : exact_reader br_slice_reader sr_remaining.
Proof.
  intros [b o]. split; [reflexivity|]. intros n. cbn [br_slice_reader br_peek br_advance br_exact sr_remaining sr_inner]. rewrite sr_read_exact_split.
  unfold sr_peek, sr_advance, sr_consume. cbn [sr_inner sr_orig]. destruct (split_at n b) as [[x y]|] eqn:Es.
  - left. apply split_at_some in Es. destruct Es as [-> <-]. exists x, y, (mkSR y o), (mkSR y o). repeat split.
  - right. apply split_at_none in Es. repeat split. exact Es.
Qed.
Theorem C76_mut : forall St (R : breader St) view, exact_reader R view -> exact_reader (br_mut R) view.
Proof. intros St R view H. exact H. Qed.

(** ** The generic functions are the ones of the other properties *)

Lemma brun_bind : forall St (R : breader St) A B (p : bprog A) (f : A -> bprog B) s,
  brun R (bbind p f) s = match brun R p s with Ok (a, s') => brun R (f a) s' | Err e => Err e | Panic x => Panic x end.
Proof.
  intros St R A B p f. induction p as [a|e|x|n e k IH|n k IH|n k IH|k IH]; intros s; cbn [bbind brun]; try reflexivity.
  - destruct (br_exact R n s) as [[x s']|]; [apply IH|reflexivity].
  - destruct (br_peek R n s) as [x|e|x]; cbn [rbind]; [apply IH|reflexivity|reflexivity].
  - destruct (br_advance R n s) as [[u|e|x] s']; [apply IH|reflexivity|reflexivity].
  - destruct (br_remaining R s) as [x|e|x]; cbn [rbind]; [apply IH|reflexivity|reflexivity].
Qed.
Lemma brun_bread : forall A (p : prog A) s, brun br_slice_reader (bread p) s = sr_run p s.
Proof.
  intros A p. induction p as [a|e|x|n e k IH]; intros s; cbn [bread brun sr_run]; try reflexivity.
  cbn [br_slice_reader br_exact]. destruct (sr_read_exact n s) as [[x s']|]; [apply IH|reflexivity].
Qed.
Definition is_code {A} (p : bprog A) (m : sm A) : Prop := forall s, brun br_slice_reader p s = m s.
Lemma code_bind : forall A B (p : bprog A) (f : A -> bprog B) m g, is_code p m -> (forall a, is_code (f a) (g a)) -> is_code (bbind p f) (sm_bind m g).
Proof. intros A B p f m g Hp Hf s. rewrite brun_bind, Hp. unfold sm_bind. destruct (m s) as [[a s']|e|x]; [apply Hf|reflexivity|reflexivity]. Qed.
Lemma code_read : forall A (p : prog A), is_code (bread p) (sr_run p).
Proof. intros A p s. apply brun_bread. Qed.
Lemma code_advance : forall A n (k : bprog A) g, is_code k g -> is_code (BAdvance n k) (sm_bind (sm_op (sr_advance n)) (fun _ => g)).
Proof. intros A n k g H s. cbn [brun br_slice_reader br_advance]. unfold sm_bind, sm_op. destruct (sr_advance n s) as [[u|e|x] s']; [apply H|reflexivity|reflexivity]. Qed.
Lemma code_advance1 : forall n, is_code (BAdvance n (BRet tt)) (sm_op (sr_advance n)).
Proof. intros n s. cbn [brun br_slice_reader br_advance]. unfold sm_op. destruct (sr_advance n s) as [[[]|e|x] s']; reflexivity. Qed.
Lemma code_rep : forall n p m, is_code p m -> is_code (brep n p) (sm_rep n m).
Proof. induction n as [|n IH]; intros p m H; cbn [brep sm_rep]; [intros s; reflexivity|]. apply code_bind; [exact H|]. intros _. apply IH. exact H. Qed.
Lemma code_peek : forall A n (k : bytes -> bprog A) g, (forall x, len x = n -> is_code (k x) (g x)) ->
  is_code (BPeek n k) (sm_bind (fun s => rmap (fun x => (x, s)) (sr_peek n s)) g).
Proof.
  intros A n k g H s. cbn [brun br_slice_reader br_peek]. unfold sm_bind, sr_peek. destruct (split_at n (sr_inner s)) as [[x y]|] eqn:Es; cbn [rbind rmap]; [|reflexivity].
  apply split_at_some in Es. apply H. apply Es.
Qed.
Lemma code_ret : forall A (a : A), is_code (BRet a) (sm_ret a).
Proof. intros A a s. reflexivity. Qed.
Lemma code_err : forall A e, is_code (@BFail A e) (sm_err e).
Proof. intros A e s. reflexivity. Qed.

Theorem C76_skip_indexed : forall E d s,
  (forall a b, brun br_slice_reader (b_skip_map E d a b) s = skip_indexed_map E d a b s)
  /\ (forall a, brun br_slice_reader (b_skip_seq E d a) s = skip_indexed_seq E d a s)
  /\ (forall t, brun br_slice_reader (b_skip_idx E d t) s = skip_idx E d t s).
Proof.
  intros E d. assert (HM : forall a b, is_code (b_skip_map E d a b) (skip_indexed_map E d a b)).
  { intros a b. unfold b_skip_map, skip_indexed_map. apply code_bind; [apply code_read|]. intros f. apply code_bind; [apply code_read|]. intros n.
    destruct (N.land f 1 =? 0); [apply code_rep; apply code_bind; [apply code_read|]; intros _; apply code_read|].
    destruct (n * 8 <? 2 ^ e_ub E); [|apply code_err]. apply code_advance. apply code_bind; [apply code_read|]. intros x. cbv zeta.
    destruct (_ <? 2 ^ e_ub E); [apply code_advance1|apply code_err]. }
  assert (HS : forall a, is_code (b_skip_seq E d a) (skip_indexed_seq E d a)).
  { intros a. unfold b_skip_seq, skip_indexed_seq. apply code_bind; [apply code_read|]. intros f. apply code_bind; [apply code_read|]. intros n.
    destruct (N.land f 1 =? 0); [apply code_rep; apply code_read|]. destruct (N.eqb_spec n 0) as [->|Hn]; [apply code_ret|].
    destruct (n * 4 <? 2 ^ e_ub E); [|apply code_err]. apply code_peek. intros x Hx. rewrite Hx, N.leb_refl. cbv zeta.
    replace (firstn 4 (skipn (N.to_nat ((n - 1) * 4)) x)) with (skipn (N.to_nat ((n - 1) * 4)) x).
    - apply code_advance. apply code_advance. apply code_read.
    - symmetry. apply firstn_all2. rewrite skipn_length. unfold len in Hx. lia. }
  intros s. split; [intros; apply HM|]. split; [intros; apply HS|]. intros t. destruct t; first [apply HS | apply HM | reflexivity].
Qed.
Theorem C76_borrow : forall E s,
  (forall n, brun br_slice_reader (b_borrow n) s = sm_op (sr_borrow n) s)
  /\ brun br_slice_reader b_varlen_slice s = sm_bind (sr_run read_varlen_len) (fun n => sm_op (sr_borrow n)) s
  /\ brun br_slice_reader (b_with_bytes E) s = with_bytes E s.
Proof.
  intros E. assert (HB : forall n, is_code (b_borrow n) (sm_op (sr_borrow n))).
  { intros n s. unfold b_borrow, sm_op, sr_borrow. cbn [brun br_slice_reader br_peek br_advance]. unfold sr_peek, sr_advance, sr_consume, raw_parts.
    destruct (split_at n (sr_inner s)) as [[x y]|] eqn:Es; cbn [rbind]; [|reflexivity]. apply split_at_some in Es. destruct Es as [_ <-].
    rewrite N.leb_refl. cbn [brun]. unfold len. rewrite Nat2N.id, firstn_all. reflexivity. }
  intros s. split; [intros; apply HB|]. split.
  - unfold b_varlen_slice. apply code_bind; [apply code_read|]. exact HB.
  - unfold b_with_bytes, with_bytes. apply code_bind; [apply code_read|]. intros n. apply code_peek. intros x _. apply code_advance. apply code_ret.
Qed.
(** What [walk_<field>] and [into_<field>_bytes] do around the skip of a field is what the walkers of C37 do. *)
Theorem C76_view_code : forall (p : bprog unit) m, (forall s, brun br_slice_reader p s = m s) ->
  forall s, brun br_slice_reader (b_view p) s = sm_consumed m s.
Proof.
  intros p m H s. unfold b_view, sm_consumed. cbn [brun br_slice_reader br_remaining rbind]. rewrite brun_bind, H. destruct (m s) as [[[] s']|e|x]; try reflexivity.
  cbn [brun br_slice_reader br_remaining rbind]. unfold sr_remaining. destruct (len (sr_inner s) <? len (sr_inner s')); [reflexivity|].
  unfold raw_parts. destruct (N.leb_spec (len (sr_inner s) - len (sr_inner s')) (len (sr_inner s))) as [_|Hn]; [reflexivity|lia].
Qed.

(** ** Views *)

Lemma exact_moves : forall St (R : breader St) view, exact_reader R view -> forall A (p : bprog A) s a s', brun R p s = Ok (a, s') -> exists x, view s = x ++ view s'.
Proof.
  intros St R view HR A p. induction p as [a0|e|x|n e k IH|n k IH|n k IH|k IH]; intros s a s' H; cbn [brun] in H; try discriminate.
  - inversion H; subst. exists []. reflexivity.
  - destruct (HR s) as [_ K]. destruct (K n) as [(x & y & s1 & s2 & H0 & _ & _ & _ & _ & He & H2)|(_ & _ & _ & He)]; rewrite He in H; [|discriminate].
    apply IH in H. destruct H as (z & Hz). exists (x ++ z). rewrite H0, <- app_assoc, <- Hz, H2. reflexivity.
  - destruct (br_peek R n s) as [x|e|x]; cbn [rbind] in H; try discriminate. eapply IH. exact H.
  - destruct (HR s) as [_ K]. destruct (K n) as [(x & y & s1 & s2 & H0 & _ & _ & Ha & H1 & _)|(_ & _ & Ha & _)].
    + rewrite Ha in H. apply IH in H. destruct H as (z & Hz). exists (x ++ z). rewrite H0, <- app_assoc, <- Hz, H1. reflexivity.
    + destruct (br_advance R n s) as [r1 t1]. cbn [fst] in Ha. subst. discriminate.
  - destruct (br_remaining R s) as [x|e|x]; cbn [rbind] in H; try discriminate. eapply IH. exact H.
Qed.
(** On an exact reader the view of a field is what skipping the field passes over, no more and no less. *)
Theorem C76_view : forall St (R : breader St) view, exact_reader R view -> forall p s,
  match brun R p s with
  | Ok (_, s') => exists x, view s = x ++ view s' /\ brun R (b_view p) s = Ok (x, s')
  | Err e => brun R (b_view p) s = Err e
  | Panic q => brun R (b_view p) s = Panic q
  end.
Proof.
  intros St R view HR p s. unfold b_view. destruct (HR s) as [Hr _]. destruct (brun R p s) as [[[] s']|e|q] eqn:Er.
  - destruct (exact_moves _ R view HR _ p s tt s' Er) as (x & Hx). exists x. split; [exact Hx|].
    cbn [brun]. rewrite Hr. cbn [rbind]. rewrite brun_bind, Er. cbn [brun]. destruct (HR s') as [Hr' _]. rewrite Hr'. cbn [rbind].
    rewrite Hx, len_app. destruct (N.ltb_spec (len x + len (view s')) (len (view s'))) as [Hn|_]; [lia|].
    unfold raw_parts. rewrite len_app. destruct (N.leb_spec (len x + len (view s') - len (view s')) (len x + len (view s'))) as [_|Hn]; [|lia].
    cbn [brun]. replace (N.to_nat (len x + len (view s') - len (view s'))) with (length x) by (unfold len; lia).
    rewrite firstn_app, Nat.sub_diag, firstn_all. cbn [firstn]. rewrite app_nil_r. reflexivity.
  - cbn [brun]. rewrite Hr. cbn [rbind]. rewrite brun_bind, Er. reflexivity.
  - cbn [brun]. rewrite Hr. cbn [rbind]. rewrite brun_bind, Er. reflexivity.
Qed.
(** So the view of an indexed field that was encoded is its encoding, on any exact reader. *)
Definition indexed_as (m : fmode) (t : ty) : Prop :=
  match m, t with MIdxMap, TMap _ _ _ | MIdxSeq, TVec _ | MIdxSeq, TImVec _ | MIdxSet, TSet _ _ => True | _, _ => False end.
Theorem C76_encoded_field : forall St (R : breader St) view, exact_reader R view -> forall E d m t l bs rest s,
  wf_env E -> sizes_honest E -> e_mem E = None -> spec_built E ->
  indexed_as m t -> wt E d t (VSeq l) -> len bs < 2 ^ 32 -> len (bs ++ rest) < 2 ^ e_ub E ->
  encode_field E d m t (VSeq l) = Ok bs -> view s = bs ++ rest ->
  exists s', brun R (b_view (b_skip_idx E d t)) s = Ok (bs, s') /\ view s' = rest.
Proof.
  intros St R view HR E d m t l bs rest s W Hh Hm Hs Hi Hw Hl Hlr He Hv.
  assert (Hk : skip_idx E d t (mkSR (bs ++ rest) 0) = Ok (tt, mkSR rest 0)).
  { destruct m; destruct t; try destruct Hi; cbn [skip_idx].
    - eapply C29_skip_indexed_map; eassumption.
    - eapply C29_skip_indexed_seq; try eassumption. left; reflexivity.
    - eapply C29_skip_indexed_seq; try eassumption. right; reflexivity.
    - eapply C29_skip_indexed_set; eassumption. }
  pose proof (C76_any_reader _ _ R br_slice_reader view sr_remaining HR C76_slice_reader _ (b_skip_idx E d t) s (mkSR (bs ++ rest) 0) Hv) as Hag.
  destruct (C76_skip_indexed E d (mkSR (bs ++ rest) 0)) as (_ & _ & Hc). rewrite Hc, Hk in Hag.
  pose proof (C76_view _ R view HR (b_skip_idx E d t) s) as HV. destruct (brun R (b_skip_idx E d t) s) as [[u s']|e|q]; cbn [same_outcome] in Hag; try contradiction.
  destruct Hag as [_ Hv']. cbn [sr_remaining sr_inner] in Hv'. destruct HV as (x & Hx & HV). exists s'. split; [|exact Hv'].
  rewrite Hv, Hv' in Hx. apply app_inv_tail in Hx. subst x. exact HV.
Qed.

(** ** Readers that do not keep the contract *)

(** Whatever [advance] and [read_exact] do, a view lies within the bytes that [remaining] gave before, and if more
    bytes remain after skipping than before, this is reported. *)
Theorem C76_view_in_bounds : forall St (R : breader St) p s before, br_remaining R s = Ok before ->
  match brun R p s with
  | Ok (_, s') =>
      match br_remaining R s' with
      | Ok after => if len before <? len after then brun R (b_view p) s = Err EBorrowedContract
                    else exists x y, before = x ++ y /\ len before = len x + len after /\ brun R (b_view p) s = Ok (x, s')
      | Err e => brun R (b_view p) s = Err e
      | Panic q => brun R (b_view p) s = Panic q
      end
  | Err e => brun R (b_view p) s = Err e
  | Panic q => brun R (b_view p) s = Panic q
  end.
Proof.
  intros St R p s before Hb. unfold b_view. cbn [brun]. rewrite Hb. cbn [rbind]. rewrite brun_bind. destruct (brun R p s) as [[u s']|e|q]; try reflexivity.
  cbn [brun]. destruct (br_remaining R s') as [after|e|q]; cbn [rbind]; try reflexivity. destruct (N.ltb_spec (len before) (len after)) as [Hn|Hn]; [reflexivity|].
  exists (firstn (N.to_nat (len before - len after)) before), (skipn (N.to_nat (len before - len after)) before). split; [symmetry; apply firstn_skipn|].
  split; [unfold len; rewrite firstn_length; unfold len in Hn; lia|].
  unfold raw_parts. destruct (N.leb_spec (len before - len after) (len before)) as [_|Hn']; [reflexivity|lia].
Qed.
(** Lending out [n] bytes is within bounds if [peek_bytes(n)] gave that many. *)
Theorem C76_borrow_in_bounds : forall St (R : breader St) n s x, br_peek R n s = Ok x -> len x = n ->
  brun R (b_borrow n) s = match br_advance R n s with (Ok _, s') => Ok (x, s') | (Err e, _) => Err e | (Panic q, _) => Panic q end.
Proof.
  intros St R n s x Hp Hl. unfold b_borrow. cbn [brun]. rewrite Hp. cbn [rbind]. destruct (br_advance R n s) as [[u|e|q] s']; try reflexivity.
  unfold raw_parts. rewrite Hl, N.leb_refl. cbn [brun]. subst n. unfold len. rewrite Nat2N.id, firstn_all. reflexivity.
Qed.
(** A reader whose [advance] goes one byte too far, if it can: bullets 1 to 4 of the contract hold. *)
Definition eager : breader bytes :=
  mkBReader split_at sl_peek
    (fun n b => match sl_advance n b with (Ok u, y) => (Ok u, match y with [] => y | _ :: y' => y' end) | r => r end)
    (fun b => Ok b).
Theorem C76_eager_refuted :
  (forall n s s', br_advance eager n s = (Ok tt, s') -> (len s' <= len s)%N)
  /\ exists bs x, encode_field new 0 MIdxMap (TMap KOrd (TInt U8) TUnit) flags = Ok bs
     /\ brun br_slice (b_view (b_skip_idx new 0 (TMap KOrd (TInt U8) TUnit))) (bs ++ [1; 2; 3]) = Ok (bs, [1; 2; 3])
     /\ brun eager (b_view (b_skip_idx new 0 (TMap KOrd (TInt U8) TUnit))) (bs ++ [1; 2; 3]) = Err EIo
     /\ brun eager (b_view b_varlen_skip) [2; 0; 0; 0; 7; 8; 1; 2; 3] = Ok (x, [2; 3]) /\ x = [2; 0; 0; 0; 7; 8; 1].
Proof.
  split.
  - intros n s s' H. cbn [eager br_advance] in H. unfold sl_advance in H. destruct (split_at n s) as [[x y]|] eqn:Es; [|discriminate].
    apply split_at_some in Es. destruct Es as [-> _]. rewrite len_app. inversion H; subst. destruct y as [|z y]; [lia|]. rewrite len_cons. lia.
  - do 2 eexists. split; [vm_compute; reflexivity|]. repeat split; vm_compute; reflexivity.
Qed.
(** A reader that leaves [remaining] to the trait: in release builds each view is empty, in debug builds it panics;
    skipping works all the same. *)
Theorem C76_default_remaining_refuted : forall St (R : breader St) p s s', brun (br_default false R) p s = Ok (tt, s') ->
  brun (br_default false R) (b_view p) s = Ok ([], s') /\ brun (br_default true R) (b_view p) s = Panic PAssert.
Proof.
  intros St R p s s' H. split; [|reflexivity]. unfold b_view. cbn [brun br_default br_remaining rbind]. rewrite brun_bind. fold (br_default false R). rewrite H. reflexivity.
Qed.

(** ** A reader over two chunks of memory *)

(** It reports all that is left as [remaining], so it is exact; a ring buffer that is not contiguous could not. *)
Definition chunks : breader (bytes * bytes) :=
  let v s := fst s ++ snd s in
  mkBReader (fun n s => match split_at n (v s) with Some (x, y) => Some (x, ([], y)) | None => None end)
            (fun n s => sl_peek n (v s))
            (fun n s => match sl_advance n (v s) with (r, y) => (r, ([], y)) end)
            (fun s => Ok (v s)).
Example C76_case : exact_reader chunks (fun s => fst s ++ snd s)
  /\ exists bs, encode_field new 0 MIdxMap (TMap KOrd (TInt U8) TUnit) flags = Ok bs /\ len bs = 82 /\ wt new 0 (TMap KOrd (TInt U8) TUnit) flags /\ spec_built new
     /\ brun chunks (b_view (b_skip_idx new 0 (TMap KOrd (TInt U8) TUnit))) (firstn 10 bs, skipn 10 bs ++ [1; 2; 3]) = Ok (bs, ([], [1; 2; 3])).
Proof.
  split.
  - intros [a b]. split; [reflexivity|]. intros n. cbn [chunks br_peek br_advance br_exact fst snd]. unfold sl_peek, sl_advance.
    destruct (split_at n (a ++ b)) as [[x y]|] eqn:Es.
    + left. apply split_at_some in Es. destruct Es as [-> <-]. exists x, y, ([], y), ([], y). repeat split.
    + right. apply split_at_none in Es. repeat split. exact Es.
  - eexists. split; [vm_compute; reflexivity|]. split; [vm_compute; reflexivity|]. split; [apply wtb_ok; vm_compute; reflexivity|].
    split; [apply spec_built_new|]. vm_compute. reflexivity.
Qed.

Print Assumptions C76_any_reader.
Print Assumptions C76_slice.
Print Assumptions C76_slice_reader.
Print Assumptions C76_mut.
Print Assumptions C76_skip_indexed.
Print Assumptions C76_borrow.
Print Assumptions C76_view_code.
Print Assumptions C76_view.
Print Assumptions C76_encoded_field.
Print Assumptions C76_view_in_bounds.
Print Assumptions C76_borrow_in_bounds.
Print Assumptions C76_eager_refuted.
Print Assumptions C76_default_remaining_refuted.
