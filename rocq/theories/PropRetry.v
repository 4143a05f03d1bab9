(** C85: sequence and map walkers after a failed call. *)

From Verif Require Import Base BaseL Prog ProgL Prim PrimL Tag Ty Ser De Typed Parts SortL DiscL RtL RtSch Agree Total SerL PropTotal Spec Ex Users SliceReader Skip SkipIdx SkipL PropUntrusted Walk WalkSpec PropSlice WalkL PropWalk WalkRef Script WalkSafe PropWalkSafe Seqs Retry.
From Coq Require Import List NArith ZArith Bool Lia.
Import ListNotations.
Open Scope N_scope.

(** ** Counting *)
Definition on_item_op (o : sop) : bool := match o with SRemaining | SNext => false | _ => true end.
(** The calls on items that worked; a [walk] works when it gives a walker, whatever happens to that walker. *)
Fixpoint visited (tr : list (sop * said)) : N :=
  match tr with
  | [] => 0
  | (o, x) :: tr' => (if on_item_op o && counts x then 1 else 0) + visited tr'
  end.
Definition on_value_op (o : mop) : bool := match o with DecodeValue | SkipValue | ValueBytes | WalkValue _ => true | _ => false end.
(** The calls on values that worked. *)
Fixpoint mvisited (tr : list (mop * said)) : N :=
  match tr with
  | [] => 0
  | (o, x) :: tr' => (if on_value_op o && counts x then 1 else 0) + mvisited tr'
  end.

Definition seq_inv (s : ssession) : Prop := ss_item s = true -> ss_remaining s <> 0.
Lemma seq_call_count : forall E D d t s o x s', seq_call E D d t s o x s' -> seq_inv s ->
  seq_inv s' /\ ss_remaining s' + (if on_item_op o && counts x then 1 else 0) = ss_remaining s.
Proof.
  intros E D d t s o x s' H Hi. unfold seq_inv in *. destruct H; cbn [ss_item ss_remaining on_item_op andb counts one_less] in *; try (split; [congruence|lia]).
  - assert (Ho : on_item_op o = true) by (destruct o; cbn in *; congruence). rewrite Ho. cbn [andb]. specialize (Hi eq_refl). unfold one_less. split; [discriminate|]. destruct (counts y); lia.
Qed.
Lemma seq_calls_count : forall E D d t s tr s', seq_calls E D d t s tr s' -> seq_inv s -> seq_inv s' /\ ss_remaining s' + visited tr = ss_remaining s.
Proof.
  intros E D d t s tr s' H. induction H as [s|s o x s1 tr s2 Hc _ IH]; intros Hi.
  - split; [exact Hi|]. cbn [visited]. lia.
  - destruct (seq_call_count _ _ _ _ _ _ _ _ Hc Hi) as [Hi1 H1]. destruct (IH Hi1) as [Hi2 H2]. split; [exact Hi2|]. cbn [visited]. lia.
Qed.
Definition map_inv (m : msession) : Prop := ms_entry m <> None -> ms_remaining m <> 0.
Lemma map_call_count : forall E D d a b s o x s', map_call E D d a b s o x s' -> map_inv s ->
  map_inv s' /\ ms_remaining s' + (if on_value_op o && counts x then 1 else 0) = ms_remaining s.
Proof.
  intros E D d a b s o x s' H Hi. unfold map_inv in *. destruct H; cbn [ms_entry ms_remaining on_value_op andb counts] in *; try (split; [congruence|lia]).
  - assert (Ho : on_value_op o = false) by (destruct o; cbn in *; congruence). rewrite Ho. cbn [andb]. split; [intros _; apply Hi; discriminate|lia].
  - rewrite andb_false_r. split; [exact Hi|lia].
  - assert (Ho : on_value_op o = true) by (destruct o; cbn in *; congruence). rewrite Ho. cbn [andb]. assert (n <> 0) by (apply Hi; discriminate). unfold one_less. split; [congruence|]. destruct (counts y); lia.
  - rewrite andb_false_r. split; [congruence|lia].
Qed.
Lemma map_calls_count : forall E D d a b s tr s', map_calls E D d a b s tr s' -> map_inv s -> map_inv s' /\ ms_remaining s' + mvisited tr = ms_remaining s.
Proof.
  intros E D d a b s tr s' H. induction H as [s|s o x s1 tr s2 Hc _ IH]; intros Hi.
  - split; [exact Hi|]. cbn [mvisited]. lia.
  - destruct (map_call_count _ _ _ _ _ _ _ _ _ Hc Hi) as [Hi1 H1]. destruct (IH Hi1) as [Hi2 H2]. split; [exact Hi2|]. cbn [mvisited]. lia.
Qed.

(** Whatever the bytes are and whichever calls fail: an item that was not visited is still counted, and a handle is
    given out exactly as long as there is one. *)
Theorem C85_seq_counts : forall E D d t r n tr s, seq_calls E D d t (mkSS r n false) tr s ->
  ss_remaining s + visited tr = n
  /\ (forall x s', seq_call E D d t s SRemaining x s' -> x = Said (Ok (OVal (VInt (Z.of_N (n - visited tr))))))
  /\ (forall x s', seq_call E D d t s SNext x s' -> x = Said (Ok (if visited tr =? n then OEnd else ODone))).
Proof.
  intros E D d t r n tr s H. destruct (seq_calls_count _ _ _ _ _ _ _ H) as [_ Hn]; [intros Hx; discriminate Hx|]. cbn [ss_remaining] in Hn. split; [exact Hn|]. split.
  - intros x s' Hc. remember SRemaining as o eqn:Eo. destruct Hc as [r1 n1 i1| | |r1 n1 o x1 y r' Ho _| |]; try discriminate.
    + cbn [ss_remaining] in Hn. replace (n - visited tr) with n1 by lia. reflexivity.
    + subst o. discriminate Ho.
  - intros x s' Hc. remember SNext as o eqn:Eo. destruct Hc as [|r1 i1|r1 n1 i1 Hn1|r1 n1 o x1 y r' Ho _| |]; try discriminate; cbn [ss_remaining] in Hn.
    + replace (visited tr =? n) with true by (symmetry; apply N.eqb_eq; lia). reflexivity.
    + replace (visited tr =? n) with false by (symmetry; apply N.eqb_neq; lia). reflexivity.
    + subst o. discriminate Ho.
Qed.
Theorem C85_map_counts : forall E D d a b r n tr s, map_calls E D d a b (mkMS r n None) tr s ->
  ms_remaining s + mvisited tr = n
  /\ (forall x s', map_call E D d a b s Remaining x s' -> x = Said (Ok (OVal (VInt (Z.of_N (n - mvisited tr))))))
  /\ (forall x s', map_call E D d a b s NextEntry x s' -> x = Said (Ok (if mvisited tr =? n then OEnd else ODone))).
Proof.
  intros E D d a b r n tr s H. destruct (map_calls_count _ _ _ _ _ _ _ _ H) as [_ Hn]; [intros Hx; destruct (Hx eq_refl)|]. cbn [ms_remaining] in Hn. split; [exact Hn|]. split.
  - intros x s' Hc. remember Remaining as o eqn:Eo. destruct Hc as [r1 n1 i1| | |r1 n1 o x1 y r' Ho _|r1 n1 o x1 Ho|r1 n1 o x1 y r' Ho _|r1 n1 o x1 Ho]; try discriminate; try (subst o; discriminate Ho).
    cbn [ms_remaining] in Hn. replace (n - mvisited tr) with n1 by lia. reflexivity.
  - intros x s' Hc. remember NextEntry as o eqn:Eo. destruct Hc as [|r1 i1|r1 n1 i1 Hn1|r1 n1 o x1 y r' Ho _|r1 n1 o x1 Ho|r1 n1 o x1 y r' Ho _|r1 n1 o x1 Ho]; try discriminate; try (subst o; discriminate Ho); cbn [ms_remaining] in Hn.
    + replace (mvisited tr =? n) with true by (symmetry; apply N.eqb_eq; lia). reflexivity.
    + replace (mvisited tr =? n) with false by (symmetry; apply N.eqb_neq; lia). reflexivity.
Qed.

(** ** The reader *)
Lemma behind_refl : forall s, behind s s.
Proof. intros s. split; [reflexivity|exists []; reflexivity]. Qed.
Lemma behind_trans : forall a b c, behind a b -> behind b c -> behind a c.
Proof. intros a b c [H1 [x H2]] [H3 [y H4]]. split; [congruence|]. exists (x ++ y). rewrite <- app_assoc, <- H4. exact H2. Qed.
Lemma after_behind : forall A (p : prog A) s, behind s (sr_after p s).
Proof.
  intros A p. induction p as [a|e|x|n e k IH]; intros s; cbn [sr_after]; try apply behind_refl.
  rewrite sr_read_exact_split. destruct (split_at n (sr_inner s)) as [[x y]|] eqn:Hs.
  - eapply behind_trans; [|apply IH]. apply split_at_some in Hs. destruct Hs as [Hs _]. split; [reflexivity|]. exists x. exact Hs.
  - split; [reflexivity|]. exists (sr_inner s). cbn [sr_inner]. rewrite app_nil_r. reflexivity.
Qed.
Lemma run_behind : forall A (p : prog A) s a s', sr_run p s = Ok (a, s') -> behind s s'.
Proof.
  intros A p s a s' H. rewrite sr_run_run in H. destruct (run p (sr_inner s)) as [[v r]| |] eqn:Hr; try discriminate H. cbn [with_orig] in H. apply Ok_inj in H.
  assert (s' = mkSR r (sr_orig s)) by congruence. subst s'. split; [reflexivity|]. cbn [sr_inner]. destruct (run_suffix _ _ _ _ _ Hr) as [x [Hx _]]. exists x. exact Hx.
Qed.
Lemma bytes_behind : forall E s, behind s (bytes_after E s).
Proof.
  intros E s. unfold bytes_after. destruct (sr_run (de_len E) s) as [[n s']| |] eqn:H; try apply after_behind. eapply run_behind. exact H.
Qed.

Section Moves.
Variables (E : env) (P : pan -> Prop) (D U d : nat) (t : ty).
Hypothesis Hact : forall x, accepted E (WPos t) x -> no_owned_view E (WPos t) x -> ssafe P (inv E D U d) (fun _ b => inv E D U d b) (act_on E D d (CPos t) x).
Hypothesis Hent : exists R, ssafe P (inv E D U d) R (enter E D d t).
Lemma enter_behind : forall s p s', enter E D d t s = Ok (p, s') -> inv E D U d (sr_inner s) -> behind s s'.
Proof. intros s p s' H Hi. destruct Hent as [R HR]. specialize (HR s Hi). rewrite H in HR. destruct HR as (_ & Hx & Ho). split; assumption. Qed.
Lemma act_behind : forall x s o s', accepted E (WPos t) x -> no_owned_view E (WPos t) x -> act_on E D d (CPos t) x s = Ok (o, s') -> inv E D U d (sr_inner s) -> behind s s'.
Proof. intros x s o s' Ha Hv H Hi. specialize (Hact x Ha Hv s Hi). rewrite H in Hact. destruct Hact as (_ & Hx & Ho). split; assumption. Qed.
Lemma handle_behind : forall s x y s', on_handle E D d t s x y s' -> accepted E (WPos t) x -> no_owned_view E (WPos t) x -> inv E D U d (sr_inner s) -> behind s s'.
Proof.
  intros s x y s' H Ha Hv Hi. destruct H as [x o s' _ H|e H|e H|e H|w e s' _ Hb|w p s1 o s' He Hr|w p s1 e s' He _ Hb].
  - exact (act_behind _ _ _ _ Ha Hv H Hi).
  - apply after_behind.
  - apply after_behind.
  - apply bytes_behind.
  - exact Hb.
  - apply (act_behind _ _ o _ Ha Hv); [|exact Hi]. cbn [act_on]. unfold sm_bind. rewrite He. exact Hr.
  - eapply behind_trans; [exact (enter_behind _ _ _ He Hi)|exact Hb].
Qed.
Lemma behind_inv : forall s s', behind s s' -> inv E D U d (sr_inner s) -> inv E D U d (sr_inner s').
Proof. intros s s' [_ [x Hx]] Hi. rewrite Hx in Hi. apply (inv_sfx E (fun _ => True) (or_intror (or_intror I)) D U (fun _ _ => I) d x). exact Hi. Qed.
End Moves.

(** What compiles on an item of a sequence, or on the key and the value of an entry. *)
Definition sop_accepted (E : env) (t : ty) (o : sop) : Prop :=
  match act_of o with Some x => accepted E (WPos t) x /\ no_owned_view E (WPos t) x | None => True end.
Definition mop_accepted (E : env) (a b : ty) (o : mop) : Prop :=
  match side o with
  | OnKey x => accepted E (WPos a) x /\ no_owned_view E (WPos a) x
  | OnValue x => accepted E (WPos b) x /\ no_owned_view E (WPos b) x
  | OnWalker => True
  end.
Lemma seq_calls_behind : forall E P D U d t s tr s',
  (forall x, accepted E (WPos t) x -> no_owned_view E (WPos t) x -> ssafe P (inv E D U d) (fun _ b => inv E D U d b) (act_on E D d (CPos t) x)) ->
  (exists R, ssafe P (inv E D U d) R (enter E D d t)) ->
  seq_calls E D d t s tr s' -> Forall (fun q => sop_accepted E t (fst q)) tr -> inv E D U d (sr_inner (ss_reader s)) -> behind (ss_reader s) (ss_reader s').
Proof.
  intros E P D U d t s tr s' Hact Hent H. induction H as [s|s o x s1 tr s2 Hc _ IH]; intros Hf Hi; [apply behind_refl|].
  inversion Hf as [|? ? Ho Hf']; subst. cbn [fst] in Ho. assert (Hb : behind (ss_reader s) (ss_reader s1)).
  { destruct Hc as [r n i|r i|r n i Hn|r n o x y r' Ha Hh|r n p r' He|r n e r' He Hb]; cbn [ss_reader] in *; try apply behind_refl; [| |exact Hb].
    - unfold sop_accepted in Ho. rewrite Ha in Ho. eapply handle_behind; [exact Hact|exact Hent|exact Hh|apply Ho|apply Ho|exact Hi].
    - eapply enter_behind; [exact Hent|exact He|exact Hi]. }
  eapply behind_trans; [exact Hb|]. apply IH; [exact Hf'|]. eapply behind_inv; [exact Hb|exact Hi].
Qed.
Lemma map_calls_behind : forall E P D U d a b s tr s',
  (forall t x, t = a \/ t = b -> accepted E (WPos t) x -> no_owned_view E (WPos t) x -> ssafe P (inv E D U d) (fun _ b => inv E D U d b) (act_on E D d (CPos t) x)) ->
  (forall t, t = a \/ t = b -> exists R, ssafe P (inv E D U d) R (enter E D d t)) ->
  map_calls E D d a b s tr s' -> Forall (fun q => mop_accepted E a b (fst q)) tr -> inv E D U d (sr_inner (ms_reader s)) -> behind (ms_reader s) (ms_reader s').
Proof.
  intros E P D U d a b s tr s' Hact Hent H. induction H as [s|s o x s1 tr s2 Hc _ IH]; intros Hf Hi; [apply behind_refl|].
  inversion Hf as [|? ? Ho Hf']; subst. cbn [fst] in Ho. assert (Hb : behind (ms_reader s) (ms_reader s1)).
  { unfold mop_accepted in Ho. destruct Hc as [r n c|r c|r n c Hn|r n o x y r' Ha Hh|r n o x Ha|r n o x y r' Ha Hh|r n o x Ha]; cbn [ms_reader] in *; try apply behind_refl; rewrite Ha in Ho.
    - eapply (handle_behind E P D U d a); [intros; apply Hact; auto|apply Hent; auto|exact Hh|apply Ho|apply Ho|exact Hi].
    - eapply (handle_behind E P D U d b); [intros; apply Hact; auto|apply Hent; auto|exact Hh|apply Ho|apply Ho|exact Hi]. }
  eapply behind_trans; [exact Hb|]. apply IH; [exact Hf'|]. eapply behind_inv; [exact Hb|exact Hi].
Qed.

Lemma setting_ok : forall E Q D d U bs, setting E Q D d U bs ->
  (forall t d, ty_all (declared E) t = true -> ssafe (listed E Q) (inv E D U d) (opens_to E (listed E Q) (declared E) D U (walker_of E t)) (enter E D d t))
  /\ (forall t x d, ty_all (declared E) t = true -> accepted E (WPos t) x -> no_owned_view E (WPos t) x ->
      ssafe (listed E Q) (inv E D U d) (fun _ b => inv E D U d b) (act_on E D d (CPos t) x)).
Proof.
  intros E Q D d U bs (W & C & HU & H1 & H2 & H3 & _).
  assert (A1 : e_mem E = None \/ listed E Q PMem).
  { unfold listed. destruct (e_mem E) eqn:Em; [|left; reflexivity]. right. left. split; [reflexivity|]. left. congruence. }
  assert (A2 : no_idx_map E \/ (e_dbg E = false \/ listed E Q POverflow)).
  { unfold listed. right. destruct (e_dbg E); [right|left; reflexivity]. auto. }
  assert (A3 : user_panics E (listed E Q)) by (eapply user_panics_mono; [|exact HU]; unfold listed; intros x Hx; auto).
  assert (A4 : e_dbg E = true -> ~ sizes_true E -> listed E Q PAssert) by (intros X Y; unfold listed; do 5 right; left; auto).
  assert (A5 : forall n s r h fs, e_sch E n = Some s -> s_body s = SStruct fs -> sent s r = Some h -> h_opt h = true -> h_idx h = true -> listed E Q PSlice).
  { intros n s r h fs X1 X2 X3 X4 X5. unfold listed. do 4 right. left. split; [reflexivity|]. exists n, s, r, h, fs. auto. }
  assert (A6 : forall n s, e_sch E n = Some s -> has_convert s = true -> listed E Q PStack /\ listed E Q PMem).
  { intros n s X1 X2. unfold listed. split; [do 6 right|left]; (split; [reflexivity|]); [|right]; exists n, s; auto. }
  split.
  - intros t d0 Ht. apply (ss_enter E (listed E Q) (declared E) W A1 (fun _ H => H) C (or_intror (or_intror (or_introl eq_refl))) A2 A3 D U H1 H2 H3 A4 A5 A6 t d0 Ht).
  - intros t x d0 Ht Ha Hv. apply (ss_act E (listed E Q) (declared E) W A1 (fun _ H => H) C (or_intror (or_intror (or_introl eq_refl))) A2 A3 D U H1 H2 H3 A4 A5 A6 x d0 (CPos t) (WPos t)); [split; [reflexivity|exact Ht]|exact Ha|exact Hv].
Qed.

(** On any input, however many calls have failed: the reader has only moved on, within the input, and the next call
    gives a value, an error, or one of the panics C58 lists; it does not touch an item that is not there. *)
Theorem C85_seq_safe : forall E Q D d U bs t d' t' n s0 tr s, setting E Q D d U bs -> ty_all (declared E) t = true ->
  enter E D d t (sr_new bs) = Ok ((d', CSeq t' n), s0) -> seq_calls E D d' t' (mkSS s0 n false) tr s -> Forall (fun q => sop_accepted E t' (fst q)) tr ->
  behind (sr_new bs) (ss_reader s)
  /\ (forall o, sop_accepted E t' o -> on_item_op o = true -> ss_item s = true ->
      (exists x s', seq_call E D d' t' s o x s') \/ (exists p, listed E Q p /\ (enter E D d' t' (ss_reader s) = Panic p \/ exists x, act_of o = Some x /\ act_on E D d' (CPos t') x (ss_reader s) = Panic p))).
Proof.
  intros E Q D d U bs t d' t' n s0 tr s HS Ht He Hc Hf. destruct (setting_ok _ _ _ _ _ _ HS) as [S1 S2]. pose proof (setting_inv _ _ _ _ _ _ HS) as Hi.
  pose proof (S1 t d Ht (sr_new bs) Hi) as H1. rewrite He in H1. destruct H1 as ((Hi1 & Hk) & Hx & Ho). cbn [fst snd] in Hi1, Hk.
  assert (Ht' : ty_all (declared E) t' = true) by (unfold ctx_ok in Hk; destruct (walker_of E t); try contradiction Hk; apply Hk).
  assert (Hb0 : behind (sr_new bs) s0) by (split; assumption).
  assert (Hb : behind s0 (ss_reader s)).
  { apply (seq_calls_behind E (listed E Q) D U d' t' _ tr s (fun x => S2 t' x d' Ht')) in Hc; [exact Hc|eexists; exact (S1 t' d' Ht')|exact Hf|exact Hi1]. }
  split; [eapply behind_trans; eassumption|]. intros o Hop Hon Hit.
  assert (Hi2 : inv E D U d' (sr_inner (ss_reader s))) by (eapply behind_inv; eassumption).
  destruct s as [r m i]. cbn [ss_item ss_reader] in *. subst i. pose proof (S1 t' d' Ht' r Hi2) as He2.
  unfold sop_accepted in Hop. destruct (act_of o) as [x|] eqn:Eo.
  - destruct Hop as [Ha Hv]. pose proof (S2 t' x d' Ht' Ha Hv r Hi2) as Hx2.
    destruct (act_on E D d' (CPos t') x r) as [[y r']|e|p] eqn:Er; [left|left|right; exists p; eauto].
    + destruct x; try (do 2 eexists; eapply sc_item; [exact Eo|]; eapply oh_ok; [exact I|exact Er]).
      cbn [act_on] in Er. unfold sm_bind in Er. destruct (enter E D d' t' r) as [[p r1]| |] eqn:Een; try discriminate Er.
      do 2 eexists. eapply sc_item; [exact Eo|]. eapply oh_walked; [exact Een|exact Er].
    + destruct o; try discriminate Eo; cbn [act_of] in Eo; apply (f_equal (fun z => match z with Some w => w | None => Decode end)) in Eo; cbv beta iota in Eo; subst x.
      * do 2 eexists. eapply sc_item; [reflexivity|]. eapply oh_decode. exact Er.
      * do 2 eexists. eapply sc_item; [reflexivity|]. eapply oh_skip. exact Er.
      * do 2 eexists. eapply sc_item; [reflexivity|]. eapply oh_bytes. exact Er.
      * cbn [act_on] in Er. unfold sm_bind in Er. destruct (enter E D d' t' r) as [[p r1]|e'|] eqn:Een; try discriminate Er.
        -- do 2 eexists. eapply sc_item; [reflexivity|]. eapply oh_stopped; [exact Een|exact Er|apply behind_refl].
        -- do 2 eexists. eapply sc_item; [reflexivity|]. eapply oh_refused; [exact Een|apply behind_refl].
  - destruct o; try discriminate Hon; try discriminate Eo. destruct (enter E D d' t' r) as [[p r']|e|p] eqn:Een.
    + left. do 2 eexists. eapply sc_drop. exact Een.
    + left. do 2 eexists. eapply sc_refused; [exact Een|apply behind_refl].
    + right. exists p. auto.
Qed.
Lemma handle_total : forall E P D U d t r x, (forall y, accepted E (WPos t) y -> no_owned_view E (WPos t) y -> ssafe P (inv E D U d) (fun _ b => inv E D U d b) (act_on E D d (CPos t) y)) ->
  accepted E (WPos t) x -> no_owned_view E (WPos t) x -> inv E D U d (sr_inner r) ->
  (exists y r', on_handle E D d t r x y r') \/ (exists p, P p /\ act_on E D d (CPos t) x r = Panic p).
Proof.
  intros E P D U d t r x S2 Ha Hv Hi. specialize (S2 x Ha Hv r Hi). destruct (act_on E D d (CPos t) x r) as [[y r']|e|p] eqn:Er; [left|left|right; eauto].
  - destruct x; try (do 2 eexists; eapply oh_ok; [exact I|exact Er]).
    cbn [act_on] in Er. unfold sm_bind in Er. destruct (enter E D d t r) as [[p r1]| |] eqn:Een; try discriminate Er.
    do 2 eexists. eapply oh_walked; [exact Een|exact Er].
  - destruct x; try discriminate Er.
    + do 2 eexists. eapply oh_decode. exact Er.
    + do 2 eexists. eapply oh_skip. exact Er.
    + do 2 eexists. eapply oh_bytes. exact Er.
    + cbn [act_on] in Er. unfold sm_bind in Er. destruct (enter E D d t r) as [[p r1]|e'|] eqn:Een; try discriminate Er.
      * do 2 eexists. eapply oh_stopped; [exact Een|exact Er|apply behind_refl].
      * do 2 eexists. eapply oh_refused; [exact Een|apply behind_refl].
Qed.
Theorem C85_map_safe : forall E Q D d U bs t d' a b n s0 tr s, setting E Q D d U bs -> ty_all (declared E) t = true ->
  enter E D d t (sr_new bs) = Ok ((d', CMap a b n), s0) -> map_calls E D d' a b (mkMS s0 n None) tr s -> Forall (fun q => mop_accepted E a b (fst q)) tr ->
  behind (sr_new bs) (ms_reader s)
  /\ (forall o, mop_accepted E a b o -> side o <> OnWalker -> ms_entry s <> None ->
      (exists x s', map_call E D d' a b s o x s')
      \/ (exists p x, listed E Q p /\ (side o = OnKey x /\ act_on E D d' (CPos a) x (ms_reader s) = Panic p \/ side o = OnValue x /\ act_on E D d' (CPos b) x (ms_reader s) = Panic p))).
Proof.
  intros E Q D d U bs t d' a b n s0 tr s HS Ht He Hc Hf. destruct (setting_ok _ _ _ _ _ _ HS) as [S1 S2]. pose proof (setting_inv _ _ _ _ _ _ HS) as Hi.
  pose proof (S1 t d Ht (sr_new bs) Hi) as H1. rewrite He in H1. destruct H1 as ((Hi1 & Hk) & Hx & Ho). cbn [fst snd] in Hi1, Hk.
  assert (Hab : ty_all (declared E) a = true /\ ty_all (declared E) b = true) by (unfold ctx_ok in Hk; destruct (walker_of E t); try contradiction Hk; split; apply Hk).
  destruct Hab as [Ta Tb]. assert (Tab : forall u, u = a \/ u = b -> ty_all (declared E) u = true) by (intros u [->| ->]; assumption).
  assert (Hb0 : behind (sr_new bs) s0) by (split; assumption).
  assert (Hb : behind s0 (ms_reader s)).
  { apply (map_calls_behind E (listed E Q) D U d' a b _ tr s (fun u x Hu => S2 u x d' (Tab u Hu))) in Hc; [exact Hc|intros u Hu; eexists; exact (S1 u d' (Tab u Hu))|exact Hf|exact Hi1]. }
  split; [eapply behind_trans; eassumption|]. intros o Hop Hon Hit.
  assert (Hi2 : inv E D U d' (sr_inner (ms_reader s))) by (eapply behind_inv; eassumption).
  destruct s as [r m i]. cbn [ms_entry ms_reader] in *. unfold mop_accepted in Hop. destruct (side o) as [|x|x] eqn:Eo; [destruct (Hon eq_refl)| |]; destruct i as [[|]|]; try (destruct (Hit eq_refl)); destruct Hop as [Ha Hv].
  - left. do 2 eexists. eapply mc_key_again. exact Eo.
  - destruct (handle_total E (listed E Q) D U d' a r x (fun y => S2 a y d' Ta) Ha Hv Hi2) as [(y & r' & Hh)|(p & Hp & Hh)]; [left; do 2 eexists; eapply mc_key; eassumption|right; exists p, x; auto].
  - destruct (handle_total E (listed E Q) D U d' b r x (fun y => S2 b y d' Tb) Ha Hv Hi2) as [(y & r' & Hh)|(p & Hp & Hh)]; [left; do 2 eexists; eapply mc_value; eassumption|right; exists p, x; auto].
  - left. do 2 eexists. eapply mc_value_early. exact Eo.
Qed.

(** ** Input that was cut off *)
(** Decoding that works on all of the input and not on a part of it: it stops at a read, which takes the rest of the
    part; from then on it fails. *)
Lemma cut_after : forall A (p : prog A) q s a rest o, run p (q ++ s) = Ok (a, rest) -> (forall z, run p q <> Ok z) ->
  sr_after p (mkSR q o) = mkSR [] o /\ (exists e, run p q = Err e) /\ exists e, run p [] = Err e.
Proof.
  intros A p. induction p as [a0|e|x|n e k IH]; intros q s a rest o H Hn; cbn [run] in H; try discriminate H.
  - destruct (Hn (a0, q)). reflexivity.
  - cbn [sr_after run]. rewrite sr_read_exact_split. cbn [sr_inner sr_orig]. cbn [run] in Hn. destruct (split_at n q) as [[x y]|] eqn:Hs.
    + apply split_at_some in Hs. destruct Hs as [-> Hx]. rewrite <- app_assoc in H. rewrite (split_at_app_n _ n x (y ++ s) (eq_sym Hx)) in H.
      destruct (IH x y s a rest o H Hn) as (H1 & H2 & H3). split; [exact H1|]. split; [exact H2|].
      destruct (N.eq_dec n 0) as [Hz|Hz].
      * rewrite Hz. rewrite split_at_0. assert (x = []) as -> by (destruct x; [reflexivity|unfold len in Hx; cbn [length] in Hx; lia]). exact H3.
      * assert (Hx0 : split_at n (@nil N) = None) by (apply split_at_none; unfold len; cbn [length]; lia). rewrite Hx0. eauto.
    + split; [reflexivity|]. split; [eauto|]. apply split_at_none in Hs. assert (Hx0 : split_at n (@nil N) = None) by (apply split_at_none; unfold len; cbn [length]; lia). rewrite Hx0. eauto.
Qed.
Lemma run_nil : forall A (p : prog A) q s a rest, run p (q ++ s) = Ok (a, rest) -> (exists z, run p q = Ok z) \/ (forall z, run p q <> Ok z).
Proof. intros. destruct (run p q) as [z| |]; [left; eauto|right; congruence|right; congruence]. Qed.

(** [k] rounds of [while let Some(item) = walker.next_item() { item.decode() }], the errors not looked at. *)
Fixpoint rounds (k : nat) : list sop := match k with O => [] | S k' => SNext :: SDecode :: rounds k' end.
Definition round_of (x : res val) : list (sop * said) := [(SNext, Said (Ok ODone)); (SDecode, Said (rmap OVal x))].
Lemma decode_call : forall E D d t r n i x y s1 s2, seq_call E D d t (mkSS r n i) SNext x s1 -> seq_call E D d t s1 SDecode y s2 -> n <> 0 ->
  x = Said (Ok ODone) /\ match run (deserialize E d t) (sr_inner r) with
    | Ok (v, rest) => y = Said (Ok (OVal v)) /\ s2 = mkSS (mkSR rest (sr_orig r)) (n - 1) false
    | Err e => y = Said (Err e) /\ s2 = mkSS (sr_after (deserialize E d t) r) n false
    | Panic _ => False
    end.
Proof.
  intros E D d t r n i x y s1 s2 H1 H2 Hn. inversion H1; subst; [congruence| |discriminate]. split; [reflexivity|].
  inversion H2 as [| | |? ? ? x1 ? r' Ho Hh| |]; subst. cbn [act_of] in Ho. assert (Decode = x1) by congruence. subst x1.
  inversion Hh as [x2 o s' Hx Ha|e Ha| | | | |]; subst; cbn [act_on] in Ha; unfold sm_map, sm_bind in Ha; rewrite sr_run_run in Ha;
    destruct (run (deserialize E d t) (sr_inner r)) as [[v rest]|e'|p]; cbn [with_orig] in Ha; try discriminate Ha.
  - unfold sm_ret in Ha. apply Ok_inj in Ha. assert (o = OVal v) by congruence. assert (r' = mkSR rest (sr_orig r)) by congruence. subst. auto.
  - assert (e' = e) by congruence. subst. auto.
Qed.
Lemma stuck : forall E D d t o n e0 k tr s', run (deserialize E d t) [] = Err e0 -> n <> 0 ->
  seq_calls E D d t (mkSS (mkSR [] o) n false) tr s' -> map fst tr = rounds k ->
  tr = flat_map round_of (map Err (repeat e0 k)) /\ s' = mkSS (mkSR [] o) n false.
Proof.
  intros E D d t o n e0 k. induction k as [|k IH]; intros tr s' He Hn H Hf; cbn [rounds] in Hf.
  - destruct tr; [|discriminate Hf]. inversion H; subst. auto.
  - destruct tr as [|[o1 x1] [|[o2 x2] tr]]; try discriminate Hf. cbn [map fst] in Hf.
    assert (o1 = SNext) by congruence. assert (o2 = SDecode) by congruence. assert (Hf' : map fst tr = rounds k) by congruence. subst o1 o2.
    inversion H as [|? ? ? s1 ? ? H1 H']; subst. inversion H' as [|? ? ? s2 ? ? H2 H3]; subst.
    destruct (decode_call _ _ _ _ _ _ _ _ _ _ _ H1 H2 Hn) as [-> Hd]. cbn [sr_inner] in Hd. rewrite He in Hd. destruct Hd as [-> ->].
    assert (Ha : sr_after (deserialize E d t) (mkSR [] o) = mkSR [] o).
    { pose proof (after_behind _ (deserialize E d t) (mkSR [] o)) as [Ho [x Hx]]. cbn [sr_inner sr_orig] in *. destruct (sr_after (deserialize E d t) (mkSR [] o)) as [y z]. cbn [sr_inner sr_orig] in *.
      symmetry in Hx. apply app_eq_nil in Hx. destruct Hx as [_ ->]. rewrite Ho. reflexivity. }
    rewrite Ha in H3. destruct (IH tr s' He Hn H3 Hf') as [-> ->]. split; reflexivity.
Qed.
(** The bytes [q] are the beginning of items that decode; the caller goes on and on. *)
Lemma rounds_cut : forall E D d t l q s o n k tr s', run (rep (length l) (deserialize E d t)) (q ++ s) = Ok (l, []) -> n = len l ->
  seq_calls E D d t (mkSS (mkSR q o) n false) tr s' -> map fst tr = rounds k ->
  exists j es, tr = flat_map round_of (map Ok (firstn j l) ++ map Err es) /\ (j + length es)%nat = k
    /\ (es <> [] -> s <> [] /\ s' = mkSS (mkSR [] o) (n - N.of_nat j) false).
Proof.
  intros E D d t l. induction l as [|v l IH]; intros q s o n k tr s' H Hl Hc Hf.
  - destruct k as [|k]; [destruct tr; [|discriminate Hf]; exists O, []; repeat split; congruence|]. exfalso.
    cbn [rounds] in Hf. destruct tr as [|[o1 x1] [|[o2 x2] tr]]; try discriminate Hf. cbn [map fst] in Hf.
    assert (o1 = SNext) by congruence. assert (o2 = SDecode) by congruence. subst o1 o2 n. change (len (@nil val)) with 0 in Hc.
    inversion Hc as [|? ? ? s1 ? ? H1 H']; subst. inversion H' as [|? ? ? s2 ? ? H2 H3]; subst.
    inversion H1; subst; try discriminate; [|congruence]. inversion H2.
  - destruct k as [|k]; [destruct tr; [|discriminate Hf]; exists O, []; repeat split; congruence|].
    cbn [rounds] in Hf. destruct tr as [|[o1 x1] [|[o2 x2] tr]]; try discriminate Hf. cbn [map fst] in Hf.
    assert (o1 = SNext) by congruence. assert (o2 = SDecode) by congruence. assert (Hf' : map fst tr = rounds k) by congruence. subst o1 o2.
    inversion Hc as [|? ? ? s1 ? ? H1 H']; subst. inversion H' as [|? ? ? s2 ? ? H2 H3]; subst.
    assert (Hn : len (v :: l) <> 0) by (unfold len; cbn [length]; lia).
    destruct (decode_call _ _ _ _ _ _ _ _ _ _ _ H1 H2 Hn) as [-> Hd]. cbn [sr_inner sr_orig] in Hd.
    cbn [length rep] in H. rewrite run_bind in H. destruct (run (deserialize E d t) (q ++ s)) as [[v1 r1]| |] eqn:Hr; try discriminate H.
    rewrite run_bind in H. destruct (run (rep (length l) (deserialize E d t)) r1) as [[l1 r2]| |] eqn:Hr2; try discriminate H. cbn [run] in H.
    apply Ok_inj in H. assert (v1 = v) by congruence. assert (l1 = l) by congruence. assert (r2 = []) by congruence. subst v1 l1 r2.
    destruct (run (deserialize E d t) q) as [[v' rest]|e|p] eqn:Hq.
    + destruct Hd as [-> ->]. destruct (run_suffix _ _ _ _ _ Hq) as (pre & -> & Hpre). rewrite <- app_assoc, Hpre in Hr. apply Ok_inj in Hr.
      assert (v' = v) by congruence. assert (r1 = rest ++ s) by congruence. subst v' r1.
      destruct (IH rest s o (len (v :: l) - 1) k tr s' Hr2 ltac:(unfold len; cbn [length]; lia) H3 Hf') as (j & es & -> & Hj & He).
      exists (S j), es. split; [reflexivity|]. split; [lia|]. intros Hne. destruct (He Hne) as [Hs ->]. split; [exact Hs|]. f_equal. lia.
    + destruct Hd as [-> ->]. destruct (cut_after _ _ q s v r1 o Hr) as (Ha & _ & e0 & He0); [intros z; congruence|]. rewrite Ha in H3.
      destruct (stuck _ _ _ _ _ _ _ _ _ _ He0 Hn H3 Hf') as [-> ->]. exists O, (e :: repeat e0 k). split; [reflexivity|]. split; [cbn [length]; rewrite repeat_length; reflexivity|].
      intros _. split; [|f_equal; lia]. intros ->. rewrite app_nil_r in Hr. congruence.
    + contradiction.
Qed.

(** The input is a sequence that was cut off somewhere behind its length.  A caller who decodes item after item, and
    does not stop at errors, sees the first items as they were and then errors only, as often as it asks; the items it
    has not seen are still counted. *)
Theorem C85_cut : forall E D d t l q s d' n r k tr s', run (deserialize E d (TVec t)) (q ++ s) = Ok (VSeq l, []) ->
  enter E D d (TVec t) (sr_new q) = Ok ((d', CSeq t n), r) ->
  seq_calls E D d' t (mkSS r n false) tr s' -> map fst tr = rounds k ->
  n = len l /\ exists j es, tr = flat_map round_of (map Ok (firstn j l) ++ map Err es) /\ (j + length es)%nat = k
    /\ (es <> [] -> s <> [] /\ s' = mkSS (mkSR [] (len q)) (len l - N.of_nat j) false).
Proof.
  intros E D d t l q s d' n r k tr s' H He Hc Hf. cbn [enter] in He. rewrite vec_uses_bulk_iff in He.
  destruct (e_spec E && match bulk_of t with Some _ => true | None => false end) eqn:Eb; [discriminate He|].
  assert (Hx : run (de_seq E (e_esize E t) (deserialize E d t)) (q ++ s) = Ok (l, [])).
  { unfold deserialize in *. cbn [de_ty] in H. destruct (e_spec E); cbn [andb] in Eb; [destruct (bulk_of t); [discriminate Eb|]|];
      rewrite run_bind in H; destruct (run (de_seq E (e_esize E t) (de_ty E (de_ref E d) t)) (q ++ s)) as [[l0 r0]| |]; try discriminate H; inversion H; subst; reflexivity. }
  apply run_seq_ok in Hx. destruct Hx as (r1 & Hn & Hl). unfold sm_bind in He. rewrite sr_run_run in He. cbn [sr_new sr_inner sr_orig] in He.
  destruct (run (de_len E) q) as [[n0 r0]| |] eqn:Hq; try discriminate He. cbn [with_orig sm_ret] in He. apply Ok_inj in He.
  assert (d' = d) by congruence. assert (n0 = n) by congruence. assert (r = mkSR r0 (len q)) by congruence. subst d' n0 r.
  rewrite (run_app _ _ _ _ _ s Hq) in Hn. apply Ok_inj in Hn. assert (n = len l) by congruence. assert (r1 = r0 ++ s) by congruence. subst n r1.
  split; [reflexivity|]. destruct (rounds_cut _ _ _ _ _ _ _ _ _ _ _ _ Hl eq_refl Hc Hf) as (j & es & H1 & H2 & H3). exists j, es. auto.
Qed.

(** ** What goes wrong when errors are passed over *)
Lemma seq_calls_app : forall E D d t s tr s1 tr' s2, seq_calls E D d t s tr s1 -> seq_calls E D d t s1 tr' s2 -> seq_calls E D d t s (tr ++ tr') s2.
Proof. intros E D d t s tr s1 tr' s2 H. induction H; intros H2; [exact H2|]. cbn [app]. econstructor; [eassumption|]. apply IHseq_calls. exact H2. Qed.
Lemma stuck_rounds : forall E D d t o n e0 k, act_on E D d (CPos t) Decode (mkSR [] o) = Err e0 -> n <> 0 ->
  seq_calls E D d t (mkSS (mkSR [] o) n false) (flat_map round_of (map Err (repeat e0 k))) (mkSS (mkSR [] o) n false).
Proof.
  intros E D d t o n e0 k He Hn. induction k as [|k IH]; [constructor|]. cbn [repeat map flat_map round_of app rmap].
  econstructor; [apply sc_next; exact Hn|]. econstructor; [eapply sc_item; [reflexivity|eapply oh_decode; exact He]|].
  assert (Ha : sr_after (deserialize E d t) (mkSR [] o) = mkSR [] o).
  { pose proof (after_behind _ (deserialize E d t) (mkSR [] o)) as [Ho [x Hx]]. cbn [sr_inner sr_orig] in *. destruct (sr_after (deserialize E d t) (mkSR [] o)) as [y z]. cbn [sr_inner sr_orig] in *.
    symmetry in Hx. apply app_eq_nil in Hx. destruct Hx as [_ ->]. rewrite Ho. reflexivity. }
  rewrite Ha. exact IH.
Qed.
(** A loop over the items that passes over those that fail does not end: two strings were written, one byte is missing. *)
Theorem C85_endless_refuted : exists t q s l, run (deserialize new 1 (TVec t)) (q ++ s) = Ok (VSeq l, []) /\ len l = 2 /\ len s = 1
  /\ forall k, exists r tr s', enter new 9 1 (TVec t) (sr_new q) = Ok ((1%nat, CSeq t 2), r) /\ seq_calls new 9 1 t (mkSS r 2 false) tr s' /\ map fst tr = rounds (S k)
       /\ exists v, tr = round_of (Ok v) ++ flat_map round_of (map Err (repeat EIo k)).
Proof.
  exists TStr, [2; 1; 97; 1], [98], [a_str [97]; a_str [98]]. split; [vm_compute; reflexivity|]. split; [reflexivity|]. split; [reflexivity|]. intros k.
  exists (mkSR [1; 97; 1] 4). exists (round_of (Ok (a_str [97])) ++ flat_map round_of (map Err (repeat EIo k))).
  assert (H1 : seq_calls new 9 1 TStr (mkSS (mkSR [1; 97; 1] 4) 2 false) (round_of (Ok (a_str [97]))) (mkSS (mkSR [1] 4) 1 false)).
  { econstructor; [apply sc_next; discriminate|]. econstructor; [|constructor]. apply (sc_item new 9 1 TStr (mkSR [1; 97; 1] 4) 2 SDecode Decode (Said (Ok (OVal (a_str [97])))) (mkSR [1] 4)); [reflexivity|].
    apply oh_ok; [exact I|vm_compute; reflexivity]. }
  assert (H2 : exists s', seq_calls new 9 1 TStr (mkSS (mkSR [1] 4) 1 false) (flat_map round_of (map Err (repeat EIo k))) s').
  { destruct k as [|k]; [eexists; constructor|]. eexists. cbn [repeat map flat_map round_of app rmap]. econstructor; [apply sc_next; discriminate|].
    econstructor; [eapply sc_item; [reflexivity|eapply oh_decode; vm_compute; reflexivity]|].
    replace (sr_after (deserialize new 1 TStr) (mkSR [1] 4)) with (mkSR [] 4) by (vm_compute; reflexivity). apply stuck_rounds; [vm_compute; reflexivity|discriminate]. }
  destruct H2 as [s' H2]. exists s'. split; [vm_compute; reflexivity|]. split; [eapply seq_calls_app; eassumption|]. split; [|eexists; reflexivity].
  clear. cbn [rounds]. unfold round_of at 1. cbn [app map fst]. do 2 f_equal. induction k as [|k IH]; [reflexivity|]. cbn [repeat map flat_map round_of app fst rounds]. do 2 f_equal. exact IH.
Qed.
(** One item that is not valid does not keep the loop from going on; but it does not count, and in place of it the loop
    takes what follows the sequence: two strings, the first not UTF-8, and a third that is not in the sequence. *)
Theorem C85_overrun_refuted : exists q tr s', enter new 9 1 (TVec TStr) (sr_new (q ++ [3; 120; 121; 122])) = Ok ((1%nat, CSeq TStr 2), mkSR (skipn 1 q ++ [3; 120; 121; 122]) (len q + 4))
  /\ run (skip new 1 (TVec TStr)) (q ++ [3; 120; 121; 122]) = Ok (tt, [3; 120; 121; 122])
  /\ seq_calls new 9 1 TStr (mkSS (mkSR (skipn 1 q ++ [3; 120; 121; 122]) (len q + 4)) 2 false) tr s'
  /\ tr = round_of (Err EUtf8) ++ round_of (Ok (a_str [98])) ++ round_of (Ok (a_str [120; 121; 122])) ++ [(SNext, Said (Ok OEnd))]
  /\ s' = mkSS (mkSR [] (len q + 4)) 0 false.
Proof.
  exists [2; 1; 255; 1; 98]. eexists. eexists. split; [vm_compute; reflexivity|]. split; [vm_compute; reflexivity|]. split; [|split; reflexivity].
  cbn [round_of app rmap skipn].
  econstructor; [apply sc_next; discriminate|]. econstructor; [eapply (sc_item new 9 1 TStr _ 2 SDecode Decode); [reflexivity|eapply oh_decode; vm_compute; reflexivity]|].
  replace (sr_after _ _) with (mkSR [1; 98; 3; 120; 121; 122] 9) by (vm_compute; reflexivity). cbn [one_less counts].
  econstructor; [apply sc_next; discriminate|]. econstructor; [eapply (sc_item new 9 1 TStr _ 2 SDecode Decode); [reflexivity|apply oh_ok; [exact I|vm_compute; reflexivity]]|].
  econstructor; [apply sc_next; vm_compute; discriminate|]. econstructor; [eapply (sc_item new 9 1 TStr _ _ SDecode Decode); [reflexivity|apply oh_ok; [exact I|vm_compute; reflexivity]]|].
  econstructor; [|constructor]. apply (sc_end new 9 1 TStr (mkSR [] 9) false).
Qed.
(** The same with a map: the value of the first of two entries is not valid, and what follows the map is taken for a
    third entry. *)
Theorem C85_map_overrun_refuted : exists q tr s', enter new 9 1 (TMap KOrd (TInt U8) TStr) (sr_new (q ++ [7; 1; 120])) = Ok ((1%nat, CMap (TInt U8) TStr 2), mkSR (skipn 1 q ++ [7; 1; 120]) (len q + 3))
  /\ run (skip new 1 (TMap KOrd (TInt U8) TStr)) (q ++ [7; 1; 120]) = Ok (tt, [7; 1; 120])
  /\ map_calls new 9 1 (TInt U8) TStr (mkMS (mkSR (skipn 1 q ++ [7; 1; 120]) (len q + 3)) 2 None) tr s'
  /\ tr = [(NextEntry, Said (Ok ODone)); (DecodeKey, Said (Ok (OVal (VInt 1)))); (DecodeValue, Said (Err EUtf8));
           (NextEntry, Said (Ok ODone)); (DecodeKey, Said (Ok (OVal (VInt 2)))); (DecodeValue, Said (Ok (OVal (a_str [98]))));
           (NextEntry, Said (Ok ODone)); (DecodeKey, Said (Ok (OVal (VInt 7)))); (DecodeValue, Said (Ok (OVal (a_str [120])))); (NextEntry, Said (Ok OEnd))]
  /\ s' = mkMS (mkSR [] (len q + 3)) 0 None.
Proof.
  exists [2; 1; 1; 255; 2; 1; 98]. eexists. eexists. split; [vm_compute; reflexivity|]. split; [vm_compute; reflexivity|]. split; [|split; reflexivity]. cbn [skipn app].
  econstructor; [apply mc_next; discriminate|]. econstructor; [eapply (mc_key new 9 1 (TInt U8) TStr _ 2 DecodeKey Decode); [reflexivity|apply oh_ok; [exact I|vm_compute; reflexivity]]|].
  cbn [counts]. econstructor; [eapply (mc_value new 9 1 (TInt U8) TStr _ 2 DecodeValue Decode); [reflexivity|eapply oh_decode; vm_compute; reflexivity]|].
  replace (sr_after _ _) with (mkSR [2; 1; 98; 7; 1; 120] 10) by (vm_compute; reflexivity). cbn [one_less counts].
  econstructor; [apply mc_next; discriminate|]. econstructor; [eapply (mc_key new 9 1 (TInt U8) TStr _ 2 DecodeKey Decode); [reflexivity|apply oh_ok; [exact I|vm_compute; reflexivity]]|].
  cbn [counts]. econstructor; [eapply (mc_value new 9 1 (TInt U8) TStr _ 2 DecodeValue Decode); [reflexivity|apply oh_ok; [exact I|vm_compute; reflexivity]]|].
  econstructor; [apply mc_next; vm_compute; discriminate|]. econstructor; [eapply (mc_key new 9 1 (TInt U8) TStr _ _ DecodeKey Decode); [reflexivity|apply oh_ok; [exact I|vm_compute; reflexivity]]|].
  cbn [counts]. econstructor; [eapply (mc_value new 9 1 (TInt U8) TStr _ _ DecodeValue Decode); [reflexivity|apply oh_ok; [exact I|vm_compute; reflexivity]]|].
  econstructor; [|constructor]. apply (mc_end new 9 1 (TInt U8) TStr (mkSR [] 10) None).
Qed.

(** The steps of C68 and C39, which stop at the first error, are the same calls. *)
Theorem C85_same_steps : forall E D d t o s y s', ss_step E D d t o s = (Ok y, Some s') ->
  exists x, (x = Said (Ok y) \/ x = Walked (Ok y)) /\ seq_call E D d t s o x s'.
Proof.
  intros E D d t o [r n i] y s' H. cbn [ss_step ss_remaining ss_reader] in H.
  assert (HI : forall x, act_of o = Some x -> on_item (fun z => z) (act_on E D d (CPos t) x) (mkSS r n i) = (Ok y, Some s') -> exists x0, (x0 = Said (Ok y) \/ x0 = Walked (Ok y)) /\ seq_call E D d t (mkSS r n i) o x0 s').
  { intros x Hx Hi. unfold on_item in Hi. cbn [ss_item ss_reader ss_remaining] in Hi. destruct i; [|discriminate Hi]. destruct (act_on E D d (CPos t) x r) as [[z r']| |] eqn:Ha; try discriminate Hi.
    destruct (n =? 0); [discriminate Hi|]. assert (z = y) by congruence. assert (s' = mkSS r' (n - 1) false) by congruence. subst z s'.
    destruct x; try (exists (Said (Ok y)); split; [left; reflexivity|]; apply (sc_item E D d t r n o _ (Said (Ok y)) r' Hx); apply oh_ok; [exact I|exact Ha]).
    exists (Walked (Ok y)). split; [right; reflexivity|]. apply (sc_item E D d t r n o _ (Walked (Ok y)) r' Hx). cbn [act_on] in Ha. unfold sm_bind in Ha.
    destruct (enter E D d t r) as [[p r1]| |] eqn:He; try discriminate Ha. eapply oh_walked; eassumption. }
  destruct o; try (eapply HI; [reflexivity|exact H]); cbn [ss_step ss_remaining ss_reader] in H; cbv beta iota zeta in H.
  - assert (y = OVal (VInt (Z.of_N n))) by congruence. assert (s' = mkSS r n false) by congruence. subst. eexists. split; [left; reflexivity|]. constructor.
  - destruct (N.eqb_spec n 0) as [->|Hn].
    + assert (y = OEnd) by congruence. assert (s' = mkSS r 0 false) by congruence. subst. eexists. split; [left; reflexivity|]. constructor.
    + assert (y = ODone) by congruence. assert (s' = mkSS r n true) by congruence. subst. eexists. split; [left; reflexivity|]. constructor. exact Hn.
  - unfold on_item in H. cbn [ss_item ss_reader ss_remaining] in H. destruct i; [|discriminate H]. destruct (enter E D d t r) as [[p r']| |] eqn:He; try discriminate H.
    destruct (n =? 0); [discriminate H|]. assert (y = ODone) by congruence. assert (s' = mkSS r' (n - 1) false) by congruence. subst.
    exists (Walked (Ok ODone)). split; [right; reflexivity|]. eapply sc_drop. exact He.
Qed.

(** An input that is not valid anywhere after its length, and a caller who tries everything. *)
Example C85_safe_case : exists tr s, setting wex (fun _ => False) 7 7 0 [2; 9; 1; 255; 1; 98] /\ enter wex 7 7 (TVec TStr) (sr_new [2; 9; 1; 255; 1; 98]) = Ok ((7%nat, CSeq TStr 2), mkSR [9; 1; 255; 1; 98] 6)
  /\ seq_calls wex 7 7 TStr (mkSS (mkSR [9; 1; 255; 1; 98] 6) 2 false) tr s /\ Forall (fun q => sop_accepted wex TStr (fst q)) tr
  /\ tr = [(SNext, Said (Ok ODone)); (SBytes, Said (Err EIo)); (SNext, Said (Ok ODone)); (SDecode, Said (Err EUtf8)); (SRemaining, Said (Ok (OVal (VInt 2)))); (SNext, Said (Ok ODone)); (SSkip, Said (Ok ODone))]
  /\ s = mkSS (mkSR [] 6) 1 false.
Proof.
  eexists. eexists. split; [apply setting_wex; [cbn [length]; lia|repeat constructor|reflexivity]|]. split; [vm_compute; reflexivity|]. split; [|split; [|split; [reflexivity|reflexivity]]].
  - econstructor; [apply sc_next; discriminate|]. econstructor; [eapply (sc_item wex 7 7 TStr _ 2 SBytes Bytes); [reflexivity|eapply oh_bytes; vm_compute; reflexivity]|].
    replace (bytes_after _ _) with (mkSR [1; 255; 1; 98] 6) by (vm_compute; reflexivity). cbn [one_less counts].
    econstructor; [apply sc_next; discriminate|]. econstructor; [eapply (sc_item wex 7 7 TStr _ 2 SDecode Decode); [reflexivity|eapply oh_decode; vm_compute; reflexivity]|].
    replace (sr_after _ _) with (mkSR [1; 98] 6) by (vm_compute; reflexivity). cbn [one_less counts].
    econstructor; [apply (sc_remaining wex 7 7 TStr (mkSR [1; 98] 6) 2 false)|]. econstructor; [apply sc_next; discriminate|].
    econstructor; [eapply (sc_item wex 7 7 TStr _ 2 SSkip Skip (Said (Ok ODone)) (mkSR [] 6)); [reflexivity|apply oh_ok; [exact I|vm_compute; reflexivity]]|]. constructor.
  - repeat constructor.
Qed.
Print Assumptions C85_seq_counts.
Print Assumptions C85_map_counts.
Print Assumptions C85_seq_safe.
Print Assumptions C85_map_safe.
Print Assumptions C85_cut.
Print Assumptions C85_endless_refuted.
Print Assumptions C85_overrun_refuted.
Print Assumptions C85_map_overrun_refuted.
Print Assumptions C85_same_steps.
