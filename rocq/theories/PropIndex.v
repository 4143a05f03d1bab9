(** C91: indexing and copying values without decoding them. *)

From Verif Require Import Base BaseL Prog ProgL Prim Utf8 Tag Ty Ser De SliceReader Skip SkipL Typed Mig Evol EvolL Agree Spec Cross Parts RtL Stream Partial Journal Ex PropWire PropVal PropMig PropSkip PropLater PropSkipAfter PropJournal PropLimit WalkRef Index.
From Coq Require Import List NArith ZArith Bool Lia Relations.
Import ListNotations.
Open Scope N_scope.

(** ** Specification *)

(** A value [v] of type [n] that the program [W], an earlier release of [E] or [E] itself, has written as [b]. *)
Record record (d : nat) (n : N) (E : env) (size : N) (r : env * val) (b : bytes) : Prop := {
  r_wf : wf_env (fst r);
  r_honest : sizes_honest (fst r);
  r_built : spec_built (fst r);
  r_later : later (fst r) E;
  r_libs : same_libraries (fst r) E;
  r_mirrors : program_mirrors (fst r);
  r_fits : size < 2 ^ e_ub (fst r);
  r_wt : wt (fst r) d (TRef n) (snd r);
  r_enc : to_vec (fst r) d (TRef n) (snd r) = Ok b
}.
(** Values one behind the other, from [pos] on. *)
Fixpoint laid_out (pos : N) (bs : list bytes) : list (N * N) :=
  match bs with [] => [] | b :: bs' => (pos, len b) :: laid_out (pos + len b) bs' end.

(** ** Proofs *)
Lemma skipn_len : forall (a b : bytes), skipn (N.to_nat (len a)) (a ++ b) = b.
Proof. intros a b. unfold len. rewrite Nat2N.id, skipn_app, skipn_all, Nat.sub_diag. reflexivity. Qed.
Lemma firstn_len : forall (a b : bytes), firstn (N.to_nat (len a)) (a ++ b) = a.
Proof. intros a b. unfold len. rewrite Nat2N.id, firstn_app, firstn_all, Nat.sub_diag. cbn [firstn]. apply app_nil_r. Qed.
Lemma places_ok : forall d n E size recs bs, Forall2 (record d n E size) recs bs -> len (concat bs) <= size ->
  forall fuel pos, (length (concat bs) <= fuel)%nat -> or_oom E (places d n E fuel pos (concat bs)) (Ok (laid_out pos bs)).
Proof.
  intros d n E size recs bs H. induction H as [|r b recs bs Hr H IH]; intros Hs fuel pos Hf; cbn [concat laid_out] in *.
  - left. destruct fuel; reflexivity.
  - destruct Hr as [H1 H2 H3 H4 H5 H6 H7 H8 H9]. pose proof (not_empty d n (fst r) (snd r) b H9) as Hne.
    assert (K : or_oom E (skip_slice E d (TRef n) (b ++ concat bs)) (Ok (len b))).
    { apply (C84_old_slice_limited (fst r) E d d (TRef n) (snd r) b (concat bs)); try assumption; [reflexivity|apply le_n|lia]. }
    rewrite len_app in Hs. rewrite app_length in Hf. destruct b as [|b0 b']; [contradiction|]. destruct fuel as [|k]; [cbn in Hf; lia|].
    assert (P : places d n E (S k) pos ((b0 :: b') ++ concat bs)
      = rbind (skip_slice E d (TRef n) ((b0 :: b') ++ concat bs)) (fun m => rbind (places d n E k (pos + m) (skipn (N.to_nat m) ((b0 :: b') ++ concat bs))) (fun l => Ok ((pos, m) :: l)))) by reflexivity.
    rewrite P. destruct K as [->|[K ->]]; [|right; split; [exact K|reflexivity]]. cbn [rbind]. rewrite skipn_len.
    destruct (IH ltac:(lia) k (pos + len (b0 :: b'))) as [->|[K ->]]; [cbn [length] in Hf; lia|left; reflexivity|right; split; [exact K|reflexivity]].
Qed.
Lemma laid_out_len : forall bs pos, length (laid_out pos bs) = length bs.
Proof. induction bs as [|b bs IH]; intros pos; [reflexivity|]. cbn [laid_out length]. rewrite IH. reflexivity. Qed.
Lemma laid_out_at : forall bs pre, Forall2 (fun p b => exists rest, tail_at (pre ++ concat bs) p = b ++ rest /\ snd p = len b) (laid_out (len pre) bs) bs.
Proof.
  induction bs as [|b bs IH]; intros pre; cbn [laid_out concat]; constructor.
  - exists (concat bs). unfold tail_at. cbn [fst snd]. rewrite skipn_len. auto.
  - specialize (IH (pre ++ b)). rewrite len_app, <- app_assoc in IH. exact IH.
Qed.

Lemma bytes_map : forall file ps bs, Forall2 (fun p b => exists rest, tail_at file p = b ++ rest /\ snd p = len b) ps bs -> map (bytes_at file) ps = bs.
Proof.
  intros file ps bs K. induction K as [|p b ps bs (rest & K1 & K2) K IH]; [reflexivity|]. cbn [map].
  f_equal; [|exact IH]. unfold bytes_at. rewrite K1, K2. apply firstn_len.
Qed.
Lemma laid_out_file : forall bs, Forall2 (fun p b => exists rest, tail_at (concat bs) p = b ++ rest /\ snd p = len b) (laid_out 0 bs) bs.
Proof. intros bs. exact (laid_out_at bs []). Qed.
Lemma Forall2_weaken : forall A B (P Q : A -> B -> Prop) xs ys, (forall x y, P x y -> Q x y) -> Forall2 P xs ys -> Forall2 Q xs ys.
Proof. intros A B P Q xs ys H K. induction K; constructor; auto. Qed.
Lemma Forall2_pair : forall A B (xs : list A) (ys : list B), length xs = length ys -> Forall2 (fun x y => In (x, y) (combine xs ys)) xs ys.
Proof.
  intros A B xs. induction xs as [|x xs IH]; intros [|y ys] H; try discriminate H; constructor; [left; reflexivity|].
  injection H as H. apply (Forall2_weaken _ _ (fun a b => In (a, b) (combine xs ys))); [|exact (IH ys H)]. intros a b K. right. exact K.
Qed.
Lemma Forall2_in_l : forall A B (P : A -> B -> Prop) xs ys, Forall2 P xs ys -> forall x, In x xs -> exists y, In y ys /\ P x y.
Proof.
  intros A B P xs ys H. induction H as [|x0 y0 xs ys H0 H IH]; intros x I; [contradiction|].
  destruct I as [<-|I]; [exists y0; split; [left; reflexivity|exact H0]|]. destruct (IH x I) as (y & K1 & K2). exists y. split; [right; exact K1|exact K2].
Qed.
Lemma Forall2_in3 : forall A B C (P : A -> B -> Prop) (Q : C -> B -> Prop) xs ys zs, Forall2 P xs ys -> Forall2 Q zs ys ->
  forall x z, In (x, z) (combine xs zs) -> exists y, In y ys /\ P x y /\ Q z y.
Proof.
  intros A B C P Q xs ys zs H. revert zs. induction H as [|x0 y0 xs ys H0 H IH]; intros zs K x z I; inversion K; subst; cbn [combine In] in I; [contradiction|].
  destruct I as [I|I].
  - injection I as <- <-. exists y0. cbn [In]. auto.
  - destruct (IH _ ltac:(eassumption) x z I) as (y & K1 & K2). exists y. cbn [In]. auto.
Qed.

(** ** C91 *)

(** Skipping through a file of values finds every value: the places of the index are those of the values, whichever
    releases wrote them, and whether or not [E] can still read them. *)
Theorem C91_index : forall d n E recs bs, Forall2 (record d n E (len (concat bs))) recs bs ->
  or_oom E (index d n E (concat bs)) (Ok (laid_out 0 bs))
  /\ map (bytes_at (concat bs)) (laid_out 0 bs) = bs.
Proof.
  intros d n E recs bs H. split; [apply (places_ok d n E _ recs bs H); lia|]. apply bytes_map, laid_out_file.
Qed.

(** Reading at a place of the index gives the value written there, migrated to [E]; the values before it need not be readable. *)
Theorem C91_read : forall d n E recs bs l, Forall2 (record d n E (len (concat bs))) recs bs -> index d n E (concat bs) = Ok l ->
  wf_env E -> user_panics E (fun x => x <> PStack) -> Forall (fun r => opt_safe (fst r) E) recs ->
  length l = length recs
  /\ forall p r, In (p, r) (combine l recs) -> or_oom E (read_at d n E (concat bs) p) (migrate (fst r) E d (TRef n) (snd r)).
Proof.
  intros d n E recs bs l H I We Hu Ho. destruct (C91_index d n E recs bs H) as [[K|[_ K]] _]; rewrite I in K; [|discriminate K].
  apply Ok_inj in K. subst l. split; [rewrite laid_out_len; symmetry; exact (Forall2_length H)|].
  intros p r J. destruct (Forall2_in3 _ _ _ _ _ _ _ _ (laid_out_file bs) H p r J) as (b & _ & (rest & K1 & _) & [H1 H2 H3 H4 H5 H6 H7 H8 H9]).
  assert (Hr : opt_safe (fst r) E) by (rewrite Forall_forall in Ho; exact (Ho r (in_combine_r _ _ _ _ J))).
  pose proof (C17_later_programs_read (fst r) E d d (TRef n) (snd r) b rest H1 We H4 Hr Hu H2 H8 (le_n d) H9) as R.
  unfold read_at, from_slice. rewrite K1. destruct R as [R|[R1 R]]; [left|right; split; [exact R1|]]; rewrite R;
    [destruct (migrate (fst r) E d (TRef n) (snd r)); reflexivity|reflexivity].
Qed.

(** Copying: a file made of the bytes at any places of the index, in any order and with any repetitions, is a file of
    the values at those places. *)
Theorem C91_copy : forall d n E recs bs l, Forall2 (record d n E (len (concat bs))) recs bs -> index d n E (concat bs) = Ok l ->
  forall ps, incl ps l -> (forall r, In r recs -> len (copied (concat bs) ps) < 2 ^ e_ub (fst r)) ->
  exists recs' bs', copied (concat bs) ps = concat bs'
  /\ Forall2 (fun p r => In (p, r) (combine l recs)) ps recs'
  /\ Forall2 (record d n E (len (concat bs'))) recs' bs'
  /\ or_oom E (index d n E (copied (concat bs) ps)) (Ok (laid_out 0 bs')).
Proof.
  intros d n E recs bs l H I ps Hi Hs. destruct (C91_index d n E recs bs H) as [[K|[_ K]] _]; rewrite I in K; [|discriminate K].
  apply Ok_inj in K. subst l. set (file := concat bs) in *.
  assert (G : forall qs, incl qs (laid_out 0 bs) -> exists recs', Forall2 (fun p r => In (p, r) (combine (laid_out 0 bs) recs)) qs recs'
    /\ Forall2 (fun r b => exists b0, b = b0 /\ record d n E (len file) r b0) recs' (map (bytes_at file) qs)).
  { induction qs as [|q qs IH]; intros Hq; [exists []; split; constructor|].
    destruct IH as (recs' & G1 & G2); [intros x Hx; apply Hq; right; exact Hx|].
    destruct (Forall2_in_l _ _ _ _ _ (Forall2_pair _ _ _ _ (eq_trans (laid_out_len bs 0) (eq_sym (Forall2_length H)))) q (Hq q (or_introl eq_refl))) as (r & _ & J).
    destruct (Forall2_in3 _ _ _ _ _ _ _ _ (laid_out_file bs) H q r J) as (b & _ & (rest & K1 & K2) & R).
    exists (r :: recs'). cbn [map]. split; constructor; try assumption. exists b. split; [|exact R].
    unfold bytes_at. fold file in K1. rewrite K1, K2. apply firstn_len. }
  destruct (G ps Hi) as (recs' & G1 & G2). clear G. exists recs', (map (bytes_at file) ps).
  assert (R : Forall2 (record d n E (len (concat (map (bytes_at file) ps)))) recs' (map (bytes_at file) ps)).
  { assert (M : Forall (fun r => In r recs) recs').
    { clear - G1. induction G1 as [|p r ps rs J G1 IH]; constructor; [exact (in_combine_r _ _ _ _ J)|exact IH]. }
    unfold copied in Hs. revert M G2 Hs. generalize (len (concat (map (bytes_at file) ps))). generalize (map (bytes_at file) ps).
    clear. intros bs' m M G2 Hs. induction G2 as [|r b rs bs' (b0 & -> & [H1 H2 H3 H4 H5 H6 H7 H8 H9]) G2 IH]; constructor.
    - inversion M; subst. constructor; auto.
    - inversion M; subst. auto. }
  split; [reflexivity|]. split; [exact G1|]. split; [exact R|]. apply (C91_index d n E recs' _ R).
Qed.

(** A value of the current release between two old values that it cannot read: the index finds all three, the middle one
    is read at its place, and a copy of the second and first is a file of these two. *)
Definition n_val : val := VSeq [a_str [98]; VInt 300].
Example C91_case : let recs := [(only l_old, l_val); (only l_new, n_val); (only l_old, l_val)] in
  exists nb, to_vec (only l_new) 1 (TRef 1) n_val = Ok nb
  /\ Forall2 (record 1 1 (only l_new) (len (concat [l_bytes; nb; l_bytes]))) recs [l_bytes; nb; l_bytes]
  /\ Forall (fun r => opt_safe (fst r) (only l_new)) recs /\ wf_env (only l_new) /\ user_panics (only l_new) (fun x => x <> PStack)
  /\ index 1 1 (only l_new) (concat [l_bytes; nb; l_bytes]) = Ok [(0, 5); (5, len nb); (5 + len nb, 5)]
  /\ read_at 1 1 (only l_new) (concat [l_bytes; nb; l_bytes]) (0, 5) = Err (EConversion (MOther 0))
  /\ read_at 1 1 (only l_new) (concat [l_bytes; nb; l_bytes]) (5, len nb) = Ok n_val
  /\ copied (concat [l_bytes; nb; l_bytes]) [(5, len nb); (0, 5)] = nb ++ l_bytes.
Proof.
  destruct C84_case as (A1 & A2 & A3 & A4 & A5 & A6 & A7 & A8 & _ & _).
  intros recs. exists (match to_vec (only l_new) 1 (TRef 1) n_val with Ok b => b | _ => [] end).
  split; [vm_compute; reflexivity|]. split.
  { assert (R : forall m, m < 2 ^ 64 -> record 1 1 (only l_new) m (only l_old, l_val) l_bytes) by (intros m Hm; constructor; assumption).
    apply Forall2_cons; [apply R; vm_compute; reflexivity|]. apply Forall2_cons; [|apply Forall2_cons; [apply R; vm_compute; reflexivity|apply Forall2_nil]].
    constructor; cbn [fst snd].
    - apply wf_only. vm_compute. reflexivity.
    - left. reflexivity.
    - intros n s f _ _ _. reflexivity.
    - apply rt_refl.
    - repeat split.
    - intros n s f Hs Hf. cbn in Hs. destruct (n =? 1); [|discriminate]. inversion Hs; subst. destruct Hf as [<-|[<-|[<-|[]]]]; reflexivity.
    - vm_compute. reflexivity.
    - apply wtb_ok. vm_compute. reflexivity.
    - vm_compute. reflexivity. }
  split.
  { apply Forall_cons; [|apply Forall_cons; [|apply Forall_cons; [|apply Forall_nil]]]; intros n s s' h Hs Hs' Hh Ho; cbn in Hs, Hs'; destruct (n =? 1); try discriminate; inversion Hs; inversion Hs'; subst; try (cbn in Hh; inversion Hh; subst; discriminate Ho).
    intros f Hf K1 K2. destruct Hf as [<-|[<-|[<-|[]]]]; reflexivity. }
  split; [apply wf_only; vm_compute; reflexivity|]. split.
  { intros n s Hs. cbn in Hs. destruct (n =? 1); [|discriminate]. inversion Hs; subst. split; [|intros vs v l r x K; discriminate K].
    intros f r x Hf. destruct Hf as [<-|[<-|[<-|[]]]]; split; [intros K|intros l v K|intros K|intros l v K|intros K|intros l v K];
      cbn in K; try discriminate K; destruct l; discriminate K. }
  repeat split; vm_compute; reflexivity.
Qed.

Print Assumptions C91_index.
Print Assumptions C91_read.
Print Assumptions C91_copy.
