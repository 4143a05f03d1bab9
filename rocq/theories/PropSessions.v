(** C92, C93: sequence and map walkers and their items and entries, call by call. *)

From Verif Require Import Base BaseL Prog ProgL Prim PrimL Utf8 Tag Ty Ser De Typed Parts Agree Spec SliceReader Skip SkipIdx SkipL SkipTot SkipFormL Ex Walk Seqs Calls Hand WalkRef PropLimit WalkMem PropWalkLimit Deeper PropStack.
From Coq Require Import List NArith ZArith Bool Lia.
Import ListNotations.
Open Scope N_scope.

(** ** Proofs *)
Section Runs.
Variable P : pan -> Prop.
Definition fin {A} (xs xs' : list (res A)) : Prop := exists x before behind, P x /\ xs' = before ++ behind /\ behind <> [] /\ xs = before ++ [Panic x].
Definition st_or {A B} (r r' : res A * option B) : Prop := r = r' \/ exists x, P x /\ r = (Panic x, None).

Lemma ms_run_or : forall E E' D D' d d' a b, (forall o m, st_or (ms_step E D d a b o m) (ms_step E' D' d' a b o m)) -> forall ops m,
  ms_run E D d a b ops m = ms_run E' D' d' a b ops m
  \/ (snd (ms_run E D d a b ops m) = None /\ fin (fst (ms_run E D d a b ops m)) (fst (ms_run E' D' d' a b ops m))).
Proof.
  intros E E' D D' d d' a b H. induction ops as [|o ops IH]; intros m; [left; reflexivity|]. cbn [ms_run].
  destruct (H o m) as [->|(y & Hy & K)].
  - destruct (ms_step E' D' d' a b o m) as [x [m'|]]; [|left; reflexivity]. destruct (IH m') as [->|(K1 & y & u & w & Hy & K2 & K3 & K4)]; [left; reflexivity|right].
    destruct (ms_run E D d a b ops m') as [xs st], (ms_run E' D' d' a b ops m') as [xs' st']. cbn [fst snd] in *. split; [exact K1|]. exists y, (x :: u), w. rewrite K2, K4. auto.
  - rewrite K. right. cbn [fst snd]. split; [reflexivity|]. destruct (ms_step E' D' d' a b o m) as [x [m'|]].
    + destruct (ms_run E' D' d' a b ops m') as [xs' st']. exists y, [], (x :: xs'). split; [exact Hy|]. repeat split. discriminate.
    + exists y, [], [x]. split; [exact Hy|]. repeat split. discriminate.
Qed.
Lemma ss_run_or : forall E E' D D' d d' t, (forall o s, st_or (ss_step E D d t o s) (ss_step E' D' d' t o s)) -> forall ops s,
  ss_run E D d t ops s = ss_run E' D' d' t ops s
  \/ (snd (ss_run E D d t ops s) = None /\ fin (fst (ss_run E D d t ops s)) (fst (ss_run E' D' d' t ops s))).
Proof.
  intros E E' D D' d d' t H. induction ops as [|o ops IH]; intros s; [left; reflexivity|]. cbn [ss_run].
  destruct (H o s) as [->|(y & Hy & K)].
  - destruct (ss_step E' D' d' t o s) as [x [s'|]]; [|left; reflexivity]. destruct (IH s') as [->|(K1 & y & u & w & Hy & K2 & K3 & K4)]; [left; reflexivity|right].
    cbn [fst snd]. split; [exact K1|]. exists y, (x :: u), w. rewrite K2, K4. auto.
  - rewrite K. right. cbn [fst snd]. split; [reflexivity|]. destruct (ss_step E' D' d' t o s) as [x [s'|]].
    + eexists y, [], _. split; [exact Hy|]. split; [reflexivity|]. split; [discriminate|reflexivity].
    + exists y, [], [x]. split; [exact Hy|]. repeat split. discriminate.
Qed.
Lemma after_or : forall A (m m' : sm A) s f, (m s = m' s \/ exists x, P x /\ m s = Panic x) -> st_or (after m s f) (after m' s f).
Proof. intros A m m' s f [H|(x & Hx & H)]; unfold after; rewrite H; [left; reflexivity|right]. exists x. auto. Qed.
Lemma item_or : forall A (f : A -> obs) (m m' : sm A) s, (m (ss_reader s) = m' (ss_reader s) \/ exists x, P x /\ m (ss_reader s) = Panic x) -> st_or (on_item f m s) (on_item f m' s).
Proof. intros A f m m' s H. unfold on_item. destruct (ss_item s); [|left; reflexivity]. destruct H as [->|(x & Hx & ->)]; [left; reflexivity|right]. exists x. auto. Qed.
(** Steps, when single calls on positions are related. *)
Lemma ms_step_or : forall E E' D D' d d' a b, (forall t x s, act_on E D d (CPos t) x s = act_on E' D' d' (CPos t) x s \/ exists y, P y /\ act_on E D d (CPos t) x s = Panic y) ->
  forall o m, st_or (ms_step E D d a b o m) (ms_step E' D' d' a b o m).
Proof.
  intros E E' D D' d d' a b H o m. unfold ms_step. destruct (side o) as [|x|x]; [left; reflexivity| |]; (destruct (ms_entry m) as [[]|]; try (left; reflexivity)).
  - apply after_or, H.
  - destruct (_ =? 0); [left; reflexivity|]. apply after_or, H.
Qed.
Lemma ss_step_or : forall E E' D D' d d' t, (forall t x s, act_on E D d (CPos t) x s = act_on E' D' d' (CPos t) x s \/ exists y, P y /\ act_on E D d (CPos t) x s = Panic y) ->
  (forall s, st_or (on_item (fun _ => ODone) (enter E D d t) s) (on_item (fun _ => ODone) (enter E' D' d' t) s)) ->
  forall o s, st_or (ss_step E D d t o s) (ss_step E' D' d' t o s).
Proof. intros E E' D D' d d' t H He o s. destruct o; cbn [ss_step]; [left; reflexivity|left; reflexivity|apply item_or, H..|apply He]. Qed.
End Runs.
Lemma one_panic : forall p A (r r' : res A), r = r' \/ r = Panic p -> r = r' \/ exists x, p = x /\ r = Panic x.
Proof. intros p A r r' [H|H]; [left; exact H|right]. exists p. auto. Qed.
Lemma fin_one : forall p A (xs xs' : list (res A)), fin (eq p) xs xs' -> exists before behind, xs' = before ++ behind /\ behind <> [] /\ xs = before ++ [Panic p].
Proof. intros p A xs xs' (x & u & w & <- & H). exists u, w. exact H. Qed.
(** ** C92 *)
Theorem C92_map_session : forall E D d a b ops s,
  or_oom E (map_session E D d a b ops s) (map_session (set_mem None E) D d a b ops s)
  \/ exists xs xs' st, e_mem E <> None /\ map_session E D d a b ops s = Ok (xs, None) /\ map_session (set_mem None E) D d a b ops s = Ok (xs', st) /\ cut_short xs xs'.
Proof.
  intros E D d a b ops s. destruct (e_mem E) as [m|] eqn:Em; [|left; left; exact (drop_mem E _ (fun E => map_session E D d a b ops s) Em)].
  unfold map_session. change (de_len (set_mem None E)) with (de_len E). destruct (sr_run (de_len E) s) as [[n s']|e|x]; cbn [rmap fst snd]; [|left; left; reflexivity..].
  destruct (ms_run_or (eq PMem) E (set_mem None E) D D d d a b (ms_step_or (eq PMem) E (set_mem None E) D D d d a b (fun t x s => one_panic PMem _ _ _ (wm_act E D x d (CPos t) s))) ops (mkMS s' n None)) as [->|[K1 K2]]; [left; left; reflexivity|right; apply fin_one in K2].
  destruct (ms_run E D d a b ops (mkMS s' n None)) as [xs st], (ms_run (set_mem None E) D d a b ops (mkMS s' n None)) as [xs' st']. cbn [fst snd] in *. subst st. exists xs, xs', st'. split; [discriminate|]. auto.
Qed.
Theorem C92_seq_session : forall E D d t ops s,
  or_oom E (seq_session E D d t ops s) (seq_session (set_mem None E) D d t ops s)
  \/ exists xs xs' st, e_mem E <> None /\ seq_session E D d t ops s = Ok (xs, None) /\ seq_session (set_mem None E) D d t ops s = Ok (xs', st) /\ cut_short xs xs'.
Proof.
  intros E D d t ops s. destruct (e_mem E) as [m|] eqn:Em; [|left; left; exact (drop_mem E _ (fun E => seq_session E D d t ops s) Em)].
  unfold seq_session. destruct (wm_enter E D t d s) as [->|K]; [|rewrite K; left; right; split; [rewrite Em; discriminate|reflexivity]].
  destruct (enter (set_mem None E) D d t s) as [[[d' c] s']|e|x]; [|left; left; reflexivity..].
  destruct c as [| | |t' n| | |]; match goal with |- or_oom _ ?x ?x \/ _ => left; left; reflexivity | |- _ => idtac end.
  destruct (ss_run_or (eq PMem) E (set_mem None E) D D d' d' t' (ss_step_or (eq PMem) E (set_mem None E) D D d' d' t' (fun t x s => one_panic PMem _ _ _ (wm_act E D x d' (CPos t) s)) (fun s => item_or (eq PMem) _ _ _ _ s (one_panic PMem _ _ _ (wm_enter E D t' d' (ss_reader s))))) ops (mkSS s' n false)) as [->|[K1 K2]]; [left; left; reflexivity|right; apply fin_one in K2].
  destruct (ss_run E D d' t' ops (mkSS s' n false)) as [xs st], (ss_run (set_mem None E) D d' t' ops (mkSS s' n false)) as [xs' st']. cbn [fst snd] in *. subst st. exists xs, xs', st'. split; [discriminate|]. auto.
Qed.

(** ** C93 *)
Theorem C93_map_session : forall E D D' d d' a b ops s, (D <= D')%nat -> (d <= d')%nat ->
  or_deep (map_session E D d a b ops s) (map_session E D' d' a b ops s)
  \/ exists xs xs' st, map_session E D d a b ops s = Ok (xs, None) /\ map_session E D' d' a b ops s = Ok (xs', st) /\ ends_deep xs xs'.
Proof.
  intros E D D' d d' a b ops s HD Hd. unfold map_session. destruct (sr_run (de_len E) s) as [[n s']|e|x]; cbn [rmap fst snd]; [|left; left; reflexivity..].
  destruct (ms_run_or (eq PStack) E E D D' d d' a b (ms_step_or (eq PStack) E E D D' d d' a b (fun t x s => one_panic PStack _ _ _ (wd_act E D D' HD x d d' (CPos t) Hd s))) ops (mkMS s' n None)) as [->|[K1 K2]]; [left; left; reflexivity|right; apply fin_one in K2].
  destruct (ms_run E D d a b ops (mkMS s' n None)) as [xs st], (ms_run E D' d' a b ops (mkMS s' n None)) as [xs' st']. cbn [fst snd] in *. subst st. exists xs, xs', st'. auto.
Qed.
Theorem C93_seq_session : forall E D D' d d' t ops s, (D <= D')%nat -> (d <= d')%nat ->
  or_deep (seq_session E D d t ops s) (seq_session E D' d' t ops s)
  \/ exists xs xs' st, seq_session E D d t ops s = Ok (xs, None) /\ seq_session E D' d' t ops s = Ok (xs', st) /\ ends_deep xs xs'.
Proof.
  intros E D D' d d' t ops s HD Hd. unfold seq_session.
  destruct (enter_or E D D' d d' t s HD Hd) as [->|[(k & k' & c & s' & Hk & -> & ->)|[(e & -> & ->)|(x & -> & ->)]]]; [left; right; reflexivity| |left; left; reflexivity..].
  destruct c as [| | |t' n| | |]; match goal with |- or_deep ?x ?x \/ _ => left; left; reflexivity | |- _ => idtac end.
  assert (He : forall s, st_or (eq PStack) (on_item (fun _ => ODone) (enter E D k t') s) (on_item (fun _ => ODone) (enter E D' k' t') s)).
  { intros st. unfold on_item. destruct (ss_item st); [|left; reflexivity].
    destruct (enter_or E D D' k k' t' (ss_reader st) HD Hk) as [->|[(q & q' & c & s1 & _ & -> & ->)|[(e & -> & ->)|(x & -> & ->)]]]; [right; exists PStack; auto|left; reflexivity..]. }
  destruct (ss_run_or (eq PStack) E E D D' k k' t' (ss_step_or (eq PStack) E E D D' k k' t' (fun t x s => one_panic PStack _ _ _ (wd_act E D D' HD x k k' (CPos t) Hk s)) He) ops (mkSS s' n false)) as [->|[K1 K2]]; [left; left; reflexivity|right; apply fin_one in K2].
  destruct (ss_run E D k t' ops (mkSS s' n false)) as [xs st], (ss_run E D' k' t' ops (mkSS s' n false)) as [xs' st']. cbn [fst snd] in *. subst st. exists xs, xs', st'. auto.
Qed.

(** ** Examples: the second text is too long for [tight]; the second item is a node with a node inside it. *)
Example C92_session_case :
  seq_session tight 1 1 (TVec TStr) [SNext; SDecode; SNext; SDecode; SRemaining] (sr_new two_texts) = Ok ([Ok ODone; Ok (OVal (VBytes [97])); Ok ODone; Panic PMem], None)
  /\ fst (match seq_session (set_mem None tight) 1 1 (TVec TStr) [SNext; SDecode; SNext; SDecode; SRemaining] (sr_new two_texts) with Ok x => x | _ => ([], None) end)
     = [Ok ODone; Ok (OVal (VBytes [97])); Ok ODone; Ok (OVal (VBytes [98; 99])); Ok (OVal (VInt 0))]
  /\ map_session tight 1 1 (TInt U8) TStr [NextEntry; DecodeKey; ValueBytes; NextEntry; DecodeKey; DecodeValue; Remaining] (sr_new [2; 1; 1; 97; 2; 2; 98; 99])
     = Ok ([Ok ODone; Ok (OVal (VInt 1)); Ok (OBytes [97]); Ok ODone; Ok (OVal (VInt 2)); Panic PMem], None)
  /\ (exists st, map_session (set_mem None tight) 1 1 (TInt U8) TStr [NextEntry; DecodeKey; ValueBytes; NextEntry; DecodeKey; DecodeValue; Remaining] (sr_new [2; 1; 1; 97; 2; 2; 98; 99])
     = Ok ([Ok ODone; Ok (OVal (VInt 1)); Ok (OBytes [97]); Ok ODone; Ok (OVal (VInt 2)); Ok (OVal (VBytes [98; 99])); Ok (OVal (VInt 0))], st)).
Proof. repeat (split; [vm_compute; reflexivity|]). eexists. vm_compute. reflexivity. Qed.
Example C93_session_case : let E := only chain in let bs := [2; 1; 7; 0; 1; 8; 1; 1; 9; 0] in
  seq_session E 1 1 (TVec (TRef 1)) [SNext; SDecode; SNext; SSkip; SRemaining] (sr_new bs) = Ok ([Ok ODone; Ok (OVal (VSeq [VInt 7; VVar 0 []])); Ok ODone; Panic PStack], None)
  /\ (exists st, seq_session E 1 2 (TVec (TRef 1)) [SNext; SDecode; SNext; SSkip; SRemaining] (sr_new bs)
       = Ok ([Ok ODone; Ok (OVal (VSeq [VInt 7; VVar 0 []])); Ok ODone; Ok ODone; Ok (OVal (VInt 0))], st))
  /\ (exists st, map_session E 1 1 (TInt U8) (TRef 1) [NextEntry; SkipKey; SkipValue; Remaining] (sr_new [1; 5; 1; 7; 0]) = Ok ([Ok ODone; Ok ODone; Ok ODone; Ok (OVal (VInt 0))], st)).
Proof. cbv zeta. split; [vm_compute; reflexivity|]. split; eexists; vm_compute; reflexivity. Qed.

Print Assumptions C92_map_session.
Print Assumptions C92_seq_session.
Print Assumptions C93_map_session.
Print Assumptions C93_seq_session.
