(** C93: the size of the stack. *)

From Verif Require Import Base BaseL Prog ProgL Prim PrimL Utf8 Tag Ty Ser De Typed Parts Agree Spec SliceReader Skip SkipIdx SkipL SkipTot SkipFormL Ex Walk Calls Hand WalkRef Deeper.
From Coq Require Import List NArith ZArith Bool Lia.
Import ListNotations.
Open Scope N_scope.

(** ** Specification *)

(** The same outcome, or the stack is exhausted. *)
Definition or_deep {A} (r r' : res A) : Prop := r = r' \/ r = Panic PStack.
(** The same outcome, unless the stack is exhausted in one of them. *)
Definition alike {A} (r r' : res A) : Prop := r <> Panic PStack -> r' <> Panic PStack -> r = r'.
(** The results of a sequence of calls that ends early because the stack is exhausted. *)
Definition ends_deep {A} (xs xs' : list (res A)) : Prop := exists before behind, xs' = before ++ behind /\ behind <> [] /\ xs = before ++ [Panic PStack].

(** ** Proofs *)
Lemma any_two : forall A (f : nat -> res A), (forall d d', (d <= d')%nat -> or_deep (f d) (f d')) -> forall d d', alike (f d) (f d').
Proof.
  intros A f H d d' N N'. destruct (Nat.le_ge_cases d d') as [L|L]; destruct (H _ _ L) as [K|K]; congruence.
Qed.
Lemma any_four : forall A (f : nat -> nat -> res A), (forall D D' d d', (D <= D')%nat -> (d <= d')%nat -> or_deep (f D d) (f D' d')) -> forall D D' d d', alike (f D d) (f D' d').
Proof.
  intros A f H D D' d d' N N'. destruct (H D (Nat.max D D') d (Nat.max d d')) as [K|K]; [lia|lia| |contradiction].
  destruct (H D' (Nat.max D D') d' (Nat.max d d')) as [K'|K']; [lia|lia| |contradiction]. congruence.
Qed.
Lemma deep_check : forall E d d' t, (d <= d')%nat -> agree (eq PStack) (skip_check E d t) (skip_check E d' t).
Proof.
  intros E d d' t H. unfold skip_check.
  assert (G : forall t, agree (eq PStack) (de_ty E (de_ref E d) t ;;; Ret tt) (de_ty E (de_ref E d') t ;;; Ret tt)).
  { intros u. apply agree_bind; [exact (depth_agree E d d' u H)|]. intros v. apply agree_refl. }
  induction t; cbn [sc_ty]; try apply G; [apply agree_refl|apply agree_bind; [apply IHt1|intros; apply IHt2]|apply agree_rep_, IHt|].
  apply agree_refl.
Qed.
Lemma deep_calls : forall E D D' d d' fs cs r s, (D <= D')%nat -> (d <= d')%nat -> calls E D d fs cs r s = calls E D' d' fs cs r s
  \/ (snd (calls E D d fs cs r s) = None /\ ends_deep (fst (calls E D d fs cs r s)) (fst (calls E D' d' fs cs r s))).
Proof.
  intros E D D' d d' fs cs r s HD Hd. revert r s. induction cs as [|c cs IH]; intros r s; [left; reflexivity|]. cbn [calls].
  destruct (wd_call E D D' HD d d' fs c r Hd s) as [->|K].
  - destruct (call E D' d' fs c r s) as [[[o r'] s']|e|p]; [| |left; reflexivity].
    + destruct (IH r' s') as [->|(K1 & b & h & K2 & K3 & K4)]; [left; reflexivity|right]. cbn [fst snd]. split; [exact K1|].
      exists (Ok o :: b), h. rewrite K2, K4. auto.
    + destruct r as [rev|payload fc|b0 c0]; [left; reflexivity| |left; reflexivity].
      destruct (IH (SIndexed payload fc) s) as [->|(K1 & b & h & K2 & K3 & K4)]; [left; reflexivity|right]. cbn [fst snd]. split; [exact K1|].
      exists (Err e :: b), h. rewrite K2, K4. auto.
  - rewrite K. right. cbn [fst snd]. split; [reflexivity|]. eexists [], _. split; [reflexivity|]. split; [|reflexivity].
    cbn [fst]. destruct (call E D' d' fs c r s) as [[[o r'] s']|e|p]; [discriminate|destruct r; discriminate|discriminate].
Qed.

(** ** C93 *)

(** Encoding: with more stack the bytes handed to the writer are the same. *)
Theorem C93_encode : forall E d d' t v, (d <= d')%nat -> or_deep (to_writer E d t v) (to_writer E d' t v) /\ or_deep (to_vec E d t v) (to_vec E d' t v).
Proof. intros E d d' t v H. split; [|apply rd_bytes]; apply rd_writer, H. Qed.
(** Decoding and skipping. *)
Theorem C93_decode : forall E d d' t bs, (d <= d')%nat -> or_deep (run (deserialize E d t) bs) (run (deserialize E d' t) bs).
Proof. intros E d d' t bs H. apply rd_run, depth_agree, H. Qed.
Theorem C93_skip : forall E d d' t bs, (d <= d')%nat ->
  or_deep (run (skip E d t) bs) (run (skip E d' t) bs)
  /\ or_deep (skip_slice E d t bs) (skip_slice E d' t bs)
  /\ or_deep (run (skip_check E d t) bs) (run (skip_check E d' t) bs)
  /\ or_deep (skip_check_slice E d t bs) (skip_check_slice E d' t bs).
Proof.
  intros E d d' t bs H. split; [apply rd_run, skip_depth, H|]. split.
  - apply rd_map. exact (wd_follows _ _ _ _ _ (fol_skip E d t) (fol_skip E d' t) (skip_depth E d d' t H) (sr_new bs)).
  - split; [|apply rd_map]; apply rd_run, deep_check, H.
Qed.
(** Walking: what is seen, and where the reader is afterwards. *)
Theorem C93_walk : forall E D D' d d' t a s, (D <= D')%nat -> (d <= d')%nat -> or_deep (walk_with E D d t a s) (walk_with E D' d' t a s).
Proof. intros E D D' d d' t a s HD Hd. apply wd_walk; assumption. Qed.
Theorem C93_find : forall E D D' d d' a b s, (D <= D')%nat -> (d <= d')%nat ->
  (forall p w, or_deep (map_find E D d a b p w s) (map_find E D' d' a b p w s))
  /\ (forall p w, or_deep (map_find_bytes E D d a b p w s) (map_find_bytes E D' d' a b p w s)).
Proof. intros E D D' d d' a b s HD Hd. split; intros p w; [apply wd_map_find|apply wd_map_find_bytes]; assumption. Qed.
Theorem C93_into_bytes : forall E D D' d d' t cs s, (D <= D')%nat -> (d <= d')%nat -> or_deep (walk_into_bytes E D d t cs s) (walk_into_bytes E D' d' t cs s).
Proof. intros E D D' d d' t cs s HD Hd. apply wd_walk_into_bytes; assumption. Qed.
Theorem C93_by_hand : forall E D D' d d' s, (D <= D')%nat -> (d <= d')%nat ->
  (forall choose, or_deep (struct_by_hand E D d choose s) (struct_by_hand E D' d' choose s))
  /\ (forall choose, or_deep (enum_by_hand E D d choose s) (enum_by_hand E D' d' choose s)).
Proof. intros E D D' d d' s HD Hd. split; intros choose; [apply wd_struct_by_hand|apply wd_enum_by_hand]; assumption. Qed.
Theorem C93_calls : forall E D D' d d' t cs s, (D <= D')%nat -> (d <= d')%nat ->
  or_deep (with_calls E D d t cs s) (with_calls E D' d' t cs s)
  \/ exists xs xs' st, with_calls E D d t cs s = Ok (xs, None) /\ with_calls E D' d' t cs s = Ok (xs', st) /\ ends_deep xs xs'.
Proof.
  intros E D D' d d' t cs s HD Hd.
  unfold with_calls.
  destruct (enter_or E D D' d d' t s HD Hd) as [->|[(k & k' & c & s1 & L & -> & ->)|[(e & -> & ->)|(x & -> & ->)]]]; [left; right; reflexivity| |left; left; reflexivity..].
  destruct c; match goal with |- or_deep ?x ?x \/ _ => left; left; reflexivity | |- _ => idtac end.
  destruct (deep_calls E D D' k k' fs cs r s1 HD L) as [->|[K1 K2]]; [left; left; reflexivity|right].
  destruct (calls E D k fs cs r s1) as [xs st]. destruct (calls E D' k' fs cs r s1) as [xs' st']. cbn [fst snd] in *. subst st. exists xs, xs', st'. auto.
Qed.
(** Hence two machines with any two stacks agree, unless the stack of one of them is exhausted. *)
Theorem C93_agree : forall E d d' t,
  (forall v, alike (to_vec E d t v) (to_vec E d' t v))
  /\ (forall bs, alike (run (deserialize E d t) bs) (run (deserialize E d' t) bs))
  /\ (forall bs, alike (run (skip E d t) bs) (run (skip E d' t) bs))
  /\ (forall D D' a s, alike (walk_with E D d t a s) (walk_with E D' d' t a s)).
Proof.
  intros E d d' t. split; [|split; [|split]].
  - intros v. apply (any_two _ (fun d => to_vec E d t v)). intros k k' H. apply C93_encode, H.
  - intros bs. apply (any_two _ (fun d => run (deserialize E d t) bs)). intros k k' H. apply C93_decode, H.
  - intros bs. apply (any_two _ (fun d => run (skip E d t) bs)). intros k k' H. apply C93_skip, H.
  - intros D D' a s. apply (any_four _ (fun D d => walk_with E D d t a s)). intros. apply C93_walk; assumption.
Qed.

(** ** Example: a list of three nodes needs a stack of three; its first two values can be read with less. *)
Definition chain : schema := mkSchema [leg] (SStruct [fld (TInt U8) 1 None; fld (TOption (TWrap (TRef 1))) 1 None]).
Definition three : val := VSeq [VInt 7; VVar 1 [VSeq [VInt 8; VVar 1 [VSeq [VInt 9; VVar 0 []]]]]].
Definition three_bytes : bytes := [1; 7; 1; 1; 8; 1; 1; 9; 0].
Definition second : act := Field Skip (Field (Walk (Into 1 (Field Decode (Field Skip Rest)))) Rest).
Example C93_case : let E := only chain in wf_env E
  /\ to_vec E 2 (TRef 1) three = Panic PStack /\ to_vec E 3 (TRef 1) three = Ok three_bytes /\ to_vec E 9 (TRef 1) three = Ok three_bytes
  /\ run (deserialize E 2 (TRef 1)) three_bytes = Panic PStack /\ run (deserialize E 3 (TRef 1)) three_bytes = Ok (three, []) /\ run (deserialize E 9 (TRef 1)) three_bytes = Ok (three, [])
  /\ run (skip E 2 (TRef 1)) three_bytes = Panic PStack /\ run (skip E 3 (TRef 1)) three_bytes = Ok (tt, [])
  /\ walk_with E 0 2 (TRef 1) second (sr_new three_bytes) = Panic PStack
  /\ walk_with E 0 3 (TRef 1) second (sr_new three_bytes) = walk_with E 5 9 (TRef 1) second (sr_new three_bytes)
  /\ (exists o, walk_with E 0 3 (TRef 1) second (sr_new three_bytes) = Ok (o, mkSR [] 9)).
Proof.
  cbv zeta. split; [apply wf_only; vm_compute; reflexivity|]. repeat (split; [vm_compute; reflexivity|]). eexists. vm_compute. reflexivity.
Qed.

Print Assumptions C93_encode.
Print Assumptions C93_decode.
Print Assumptions C93_skip.
Print Assumptions C93_walk.
Print Assumptions C93_find.
Print Assumptions C93_into_bytes.
Print Assumptions C93_by_hand.
Print Assumptions C93_calls.
Print Assumptions C93_agree.
