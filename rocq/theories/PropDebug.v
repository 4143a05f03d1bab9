(** C94: debug and release builds. *)

From Verif Require Import Base BaseL Prog ProgL Prim PrimL Utf8 Tag Ty Ser De Typed Parts Agree Spec SliceReader Skip SkipIdx SkipL SkipFormL Ex IdxWalk Walk Seqs Calls Hand WalkRef Checked PropLimit PropStack PropSessions.
From Coq Require Import List NArith ZArith Bool Lia.
Import ListNotations.
Open Scope N_scope.

(** ** Specification *)

(** One program, built with and without [debug_assertions] and overflow checks. *)
Definition debug (E : env) : env := set_lim (e_mem E) true E.
Definition release (E : env) : env := set_lim (e_mem E) false E.
(** The same outcome, or a failed check. *)
Definition or_check {A} (r r' : res A) : Prop := r = r' \/ r = Panic PAssert \/ r = Panic POverflow.
(** The results of a sequence of calls that ends early because a check failed. *)
Definition ends_checked {A} (xs xs' : list (res A)) : Prop :=
  exists before behind, xs' = before ++ behind /\ behind <> [] /\ (xs = before ++ [Panic PAssert] \/ xs = before ++ [Panic POverflow]).

(** ** Proofs *)
Lemma rd_check : forall A (r r' : res A), rd r r' -> or_check r r'.
Proof. intros A r r' [H|(x & [->| ->] & H)]; [left|right; left|right; right]; exact H. Qed.
Lemma fin_check : forall A (xs xs' : list (res A)), fin check xs xs' -> ends_checked xs xs'.
Proof. intros A xs xs' (x & u & w & Hx & H1 & H2 & H3). exists u, w. split; [exact H1|]. split; [exact H2|]. destruct Hx as [->| ->]; [left|right]; exact H3. Qed.
Lemma chk_calls : forall E D d fs cs r s, calls (debug E) D d fs cs r s = calls (release E) D d fs cs r s
  \/ (snd (calls (debug E) D d fs cs r s) = None /\ fin check (fst (calls (debug E) D d fs cs r s)) (fst (calls (release E) D d fs cs r s))).
Proof.
  intros E D d fs. induction cs as [|c cs IH]; intros r s; [left; reflexivity|]. cbn [calls].
  destruct (wc_call E D d fs c r s) as [K|(x & Hx & K)]; fold (debug E) (release E) in K.
  - rewrite K. destruct (call (release E) D d fs c r s) as [[[o r'] s']|e|p]; [| |left; reflexivity].
    + destruct (IH r' s') as [->|(K1 & y & b & h & Hy & K2 & K3 & K4)]; [left; reflexivity|right]. cbn [fst snd]. split; [exact K1|].
      exists y, (Ok o :: b), h. rewrite K2, K4. auto.
    + destruct r as [rev|payload fc|b0 c0]; [left; reflexivity| |left; reflexivity].
      destruct (IH (SIndexed payload fc) s) as [->|(K1 & y & b & h & Hy & K2 & K3 & K4)]; [left; reflexivity|right]. cbn [fst snd]. split; [exact K1|].
      exists y, (Err e :: b), h. rewrite K2, K4. auto.
  - rewrite K. right. cbn [fst snd]. split; [reflexivity|]. eexists x, [], _. split; [exact Hx|]. split; [reflexivity|]. split; [|reflexivity].
    cbn [fst]. destruct (call (release E) D d fs c r s) as [[[o r'] s']|e|p]; [discriminate|destruct r; discriminate|discriminate].
Qed.
Lemma rd_uadd : forall E a b, rd (uadd (debug E) a b) (uadd (release E) a b).
Proof. intros E a b. unfold uadd. cbn [debug release set_lim e_ub e_dbg]. destruct (_ <? _); [apply rd_refl|]. right. exists POverflow. split; [right; reflexivity|reflexivity]. Qed.

(** ** C94 *)
Theorem C94_encode : forall E d t v,
  or_check (to_writer (debug E) d t v) (to_writer (release E) d t v) /\ or_check (to_vec (debug E) d t v) (to_vec (release E) d t v).
Proof. intros E d t v. split; apply rd_check; [|apply rd_bytes]; apply (rd_writer E). Qed.
Theorem C94_decode : forall E d t bs, or_check (run (deserialize (debug E) d t) bs) (run (deserialize (release E) d t) bs).
Proof. intros E d t bs. apply rd_check, rd_run, (chk_dec E). Qed.
Theorem C94_skip : forall E d t bs,
  or_check (run (skip (debug E) d t) bs) (run (skip (release E) d t) bs)
  /\ or_check (skip_slice (debug E) d t bs) (skip_slice (release E) d t bs)
  /\ or_check (run (skip_check (debug E) d t) bs) (run (skip_check (release E) d t) bs)
  /\ or_check (skip_check_slice (debug E) d t bs) (skip_check_slice (release E) d t bs).
Proof.
  intros E d t bs. split; [apply rd_check, rd_run, (chk_skip E)|]. split.
  - apply rd_check, rd_map. exact (wc_follows _ _ _ _ _ (fol_skip (debug E) d t) (fol_skip (release E) d t) (chk_skip E d t) (sr_new bs)).
  - split; apply rd_check; [|apply rd_map]; apply rd_run, (chk_skip_check E).
Qed.
(** Opening the views of indexed sequences and maps, validated or not. *)
Theorem C94_views : forall E v b, or_check (seq_open (debug E) v b) (seq_open (release E) v b) /\ or_check (map_open (debug E) v b) (map_open (release E) v b).
Proof.
  intros E v b. split; apply rd_check.
  - unfold seq_open. destruct b as [|f r]; [apply rd_refl|].
    change (varint_at (debug E) r) with (varint_at (release E) r). apply rd_bind; [apply rd_refl|]. intros p. cbv zeta.
    destruct (_ =? 0); [apply rd_refl|]. change (e_ub (debug E)) with (e_ub (release E)). destruct (_ <? _); [|apply rd_refl]. apply rd_bind; [apply rd_uadd|]. intros past. apply rd_refl.
  - unfold map_open. destruct b as [|f r]; [apply rd_refl|].
    change (varint_at (debug E) r) with (varint_at (release E) r). apply rd_bind; [apply rd_refl|]. intros p. cbv zeta. apply rd_bind; [apply rd_refl|]. intros body.
    destruct (_ =? 0); [apply rd_refl|]. change (e_ub (debug E)) with (e_ub (release E)). destruct (_ <? _); [|apply rd_refl].
    apply rd_bind; [apply rd_uadd|]. intros c2. destruct (_ <? _); [apply rd_refl|]. apply rd_bind; [apply rd_refl|]. intros table.
    apply rd_bind; [apply rd_uadd|]. intros c3. destruct (_ <? _); [apply rd_refl|]. apply rd_bind; [apply rd_refl|]. intros kl. apply rd_bind; [apply rd_refl|]. intros vl.
    apply rd_bind; [apply rd_bind; [apply rd_uadd|]; intros c4; apply rd_uadd|]. intros c5. destruct (_ <? _); [apply rd_refl|].
    apply rd_bind; [apply rd_uadd|]. intros c4. apply rd_bind; [apply rd_refl|]. intros keys. apply rd_bind; [apply rd_uadd|]. intros c6. apply rd_refl.
Qed.
Theorem C94_walk : forall E D d t a s, or_check (walk_with (debug E) D d t a s) (walk_with (release E) D d t a s).
Proof. intros E D d t a s. apply rd_check, (wc_walk E). Qed.
Theorem C94_find : forall E D d a b s,
  (forall p w, or_check (map_find (debug E) D d a b p w s) (map_find (release E) D d a b p w s))
  /\ (forall p w, or_check (map_find_bytes (debug E) D d a b p w s) (map_find_bytes (release E) D d a b p w s)).
Proof. intros E D d a b s. split; intros p w; apply rd_check; [apply (wc_map_find E)|apply (wc_map_find_bytes E)]. Qed.
Theorem C94_into_bytes : forall E D d t cs s, or_check (walk_into_bytes (debug E) D d t cs s) (walk_into_bytes (release E) D d t cs s).
Proof. intros E D d t cs s. apply rd_check, (wc_walk_into_bytes E). Qed.
Theorem C94_by_hand : forall E D d s,
  (forall choose, or_check (struct_by_hand (debug E) D d choose s) (struct_by_hand (release E) D d choose s))
  /\ (forall choose, or_check (enum_by_hand (debug E) D d choose s) (enum_by_hand (release E) D d choose s)).
Proof. intros E D d s. split; intros choose; apply rd_check; [apply (wc_struct_by_hand E)|apply (wc_enum_by_hand E)]. Qed.
Theorem C94_calls : forall E D d t cs s,
  or_check (with_calls (debug E) D d t cs s) (with_calls (release E) D d t cs s)
  \/ exists xs xs' st, with_calls (debug E) D d t cs s = Ok (xs, None) /\ with_calls (release E) D d t cs s = Ok (xs', st) /\ ends_checked xs xs'.
Proof.
  intros E D d t cs s. unfold with_calls. destruct (wc_enter E D t d s) as [K|(x & Hx & K)]; fold (debug E) (release E) in K.
  - rewrite K. destruct (enter (release E) D d t s) as [[[d' c] s']|e|p]; [|left; left; reflexivity..].
    destruct c; match goal with |- or_check ?x ?x \/ _ => left; left; reflexivity | |- _ => idtac end. destruct (chk_calls E D d' fs cs r s') as [->|[K1 K2]]; [left; left; reflexivity|right; apply fin_check in K2].
    destruct (calls (debug E) D d' fs cs r s') as [xs st]. destruct (calls (release E) D d' fs cs r s') as [xs' st']. cbn [fst snd] in *. subst st.
    exists xs, xs', st'. auto.
  - rewrite K. left. apply rd_check. right. exists x. auto.
Qed.
Theorem C94_map_session : forall E D d a b ops s,
  or_check (map_session (debug E) D d a b ops s) (map_session (release E) D d a b ops s)
  \/ exists xs xs' st, map_session (debug E) D d a b ops s = Ok (xs, None) /\ map_session (release E) D d a b ops s = Ok (xs', st) /\ ends_checked xs xs'.
Proof.
  intros E D d a b ops s. unfold map_session. change (de_len (release E)) with (de_len (debug E)). destruct (sr_run (de_len (debug E)) s) as [[n s']|e|x]; cbn [rmap fst snd]; [|left; left; reflexivity..].
  destruct (ms_run_or check (debug E) (release E) D D d d a b (ms_step_or check (debug E) (release E) D D d d a b (fun t x s => wc_act E D x d (CPos t) s)) ops (mkMS s' n None)) as [->|[K1 K2]]; [left; left; reflexivity|right; apply fin_check in K2].
  destruct (ms_run (debug E) D d a b ops (mkMS s' n None)) as [xs st], (ms_run (release E) D d a b ops (mkMS s' n None)) as [xs' st']. cbn [fst snd] in *. subst st. exists xs, xs', st'. auto.
Qed.
Theorem C94_seq_session : forall E D d t ops s,
  or_check (seq_session (debug E) D d t ops s) (seq_session (release E) D d t ops s)
  \/ exists xs xs' st, seq_session (debug E) D d t ops s = Ok (xs, None) /\ seq_session (release E) D d t ops s = Ok (xs', st) /\ ends_checked xs xs'.
Proof.
  intros E D d t ops s. unfold seq_session. destruct (wc_enter E D t d s) as [K|(x & Hx & K)]; fold (debug E) (release E) in K; rewrite K; [|left; apply rd_check; right; exists x; auto].
  destruct (enter (release E) D d t s) as [[[d' c] s']|e|x]; [|left; left; reflexivity..].
  destruct c as [| | |t' n| | |]; match goal with |- or_check ?x ?x \/ _ => left; left; reflexivity | |- _ => idtac end.
  destruct (ss_run_or check (debug E) (release E) D D d' d' t' (ss_step_or check (debug E) (release E) D D d' d' t' (fun t x s => wc_act E D x d' (CPos t) s) (fun s => item_or check _ _ _ _ s (wc_enter E D t' d' (ss_reader s)))) ops (mkSS s' n false)) as [->|[K1 K2]]; [left; left; reflexivity|right; apply fin_check in K2].
  destruct (ss_run (debug E) D d' t' ops (mkSS s' n false)) as [xs st], (ss_run (release E) D d' t' ops (mkSS s' n false)) as [xs' st']. cbn [fst snd] in *. subst st. exists xs, xs', st'. auto.
Qed.

(** ** Examples: equal outcomes; a variant shorter than its declared size; an offset table that does not fit in memory. *)
Definition odd_size : schema := mkSchema [opt] (SEnum [mkVariant 1 1 None (fun _ => None) (Some (SFixed 2)) [fld (TInt U8) 1 None] (fun _ _ => Panic PType)]).
Definition huge_table : bytes := [1; 253; 255; 255; 255; 255; 255; 255; 255; 31; 0].
Example C94_case :
  to_vec (debug (only chain)) 3 (TRef 1) three = Ok three_bytes /\ to_vec (release (only chain)) 3 (TRef 1) three = Ok three_bytes
  /\ run (deserialize (debug (only chain)) 3 (TRef 1)) three_bytes = Ok (three, []) /\ run (deserialize (release (only chain)) 3 (TRef 1)) three_bytes = Ok (three, [])
  /\ to_vec (debug (only odd_size)) 1 (TRef 1) (VVar 1 [VInt 7]) = Panic PAssert /\ (exists b, to_vec (release (only odd_size)) 1 (TRef 1) (VVar 1 [VInt 7]) = Ok b)
  /\ map_open (debug (only chain)) true huge_table = Panic POverflow /\ map_open (release (only chain)) true huge_table <> Panic POverflow.
Proof.
  repeat (split; [vm_compute; reflexivity|]). split; [eexists; vm_compute; reflexivity|]. split; [vm_compute; reflexivity|vm_compute; discriminate].
Qed.

Print Assumptions C94_encode.
Print Assumptions C94_decode.
Print Assumptions C94_skip.
Print Assumptions C94_views.
Print Assumptions C94_walk.
Print Assumptions C94_find.
Print Assumptions C94_into_bytes.
Print Assumptions C94_by_hand.
Print Assumptions C94_calls.
Print Assumptions C94_map_session.
Print Assumptions C94_seq_session.
