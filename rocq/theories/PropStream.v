(** C59: decoding data that arrives in pieces. *)

From Verif Require Import Base BaseL Prog ProgL Prim Tag Ty Ser De Typed Parts Ex EofL SliceReader Skip SkipIdx Walk WalkRef Stream StreamL.
From Coq Require Import List NArith ZArith Bool Lia.
Import ListNotations.
Open Scope N_scope.

(** C59.  [b]: what has arrived so far, [x]: anything that may still come. *)
Theorem C59_rejection_is_final : forall E d t b e x, reports E t ->
  run (deserialize E d t) b = Err e -> e <> EIo -> run (deserialize E d t) (b ++ x) = Err e.
Proof. intros E d t b e x H. apply hears_final. apply hears_deserialize. exact H. Qed.
(** As long as the value is not complete the answer is the end-of-input error, whatever input is going to be accepted. *)
Theorem C59_incomplete_is_eof : forall E d t b x v rest, reports E t ->
  run (deserialize E d t) (b ++ x) = Ok (v, rest) -> len rest < len x -> run (deserialize E d t) b = Err EIo.
Proof. intros E d t b x v rest H. apply hears_prefix. apply hears_deserialize. exact H. Qed.
(** So the loop [feed] gives the answer of decoding the whole stream, however it is cut into pieces, ... *)
Theorem C59_feed : forall E d t pieces, reports E t ->
  match feed (deserialize E d t) [] pieces with
  | None => run (deserialize E d t) (concat pieces) = Err EIo
  | Some (Ok (v, rest), later) => run (deserialize E d t) (concat pieces) = Ok (v, rest ++ concat later)
  | Some (Err e, later) => run (deserialize E d t) (concat pieces) = Err e
  | Some (Panic x, later) => run (deserialize E d t) (concat pieces) = Panic x
  end.
Proof. intros E d t pieces H. exact (feed_ok _ _ (hears_deserialize E d t H) pieces []). Qed.
(** ... and gives it as soon as the value is complete: if it is within the first [k] pieces, no later one is looked at. *)
Theorem C59_feed_prompt : forall E d t pieces k v rest, reports E t ->
  run (deserialize E d t) (concat (firstn k pieces)) = Ok (v, rest) ->
  exists rest' later, feed (deserialize E d t) [] pieces = Some (Ok (v, rest'), later) /\ (length pieces <= length later + k)%nat.
Proof. intros E d t pieces k v rest H Hr. exact (feed_prompt _ _ (hears_deserialize E d t H) pieces [] k v rest Hr). Qed.
(** Without optimised revisions the end-of-input error is never final: some continuation changes it, so waiting makes sense. *)
Theorem C59_eof_can_pass : forall E d t b, reports E t -> no_envelopes E -> user_no_eof E ->
  run (deserialize E d t) b = Err EIo -> exists x, run (deserialize E d t) (b ++ x) <> Err EIo.
Proof. intros E d t b H1 H2 H3 _. apply honest_waits. apply ho_deserialize; assumption. Qed.

(** Skipping has all of this for every derived type, optimised or not, and for Result and Bound too. *)
Theorem C59_skip_rejection_is_final : forall E d t b e x, ty_all framed t = true -> env_all (fun f => ty_all framed (f_ty f)) E ->
  run (skip E d t) b = Err e -> e <> EIo -> run (skip E d t) (b ++ x) = Err e.
Proof. intros E d t b e x H1 H2. apply hears_final. apply honest_hears. apply ho_skip; assumption. Qed.
Theorem C59_skip_incomplete_is_eof : forall E d t b x u rest, ty_all framed t = true -> env_all (fun f => ty_all framed (f_ty f)) E ->
  run (skip E d t) (b ++ x) = Ok (u, rest) -> len rest < len x -> run (skip E d t) b = Err EIo.
Proof. intros E d t b x u rest H1 H2. apply hears_prefix. apply honest_hears. apply ho_skip; assumption. Qed.
Theorem C59_skip_eof_can_pass : forall E d t b, ty_all framed t = true -> env_all (fun f => ty_all framed (f_ty f)) E ->
  run (skip E d t) b = Err EIo -> exists x, run (skip E d t) (b ++ x) <> Err EIo.
Proof. intros E d t b H1 H2 _. apply honest_waits. apply ho_skip; assumption. Qed.
Theorem C59_skip_feed : forall E d t pieces, ty_all framed t = true -> env_all (fun f => ty_all framed (f_ty f)) E ->
  match feed (skip E d t) [] pieces with
  | None => run (skip E d t) (concat pieces) = Err EIo
  | Some (Ok (u, rest), later) => run (skip E d t) (concat pieces) = Ok (u, rest ++ concat later)
  | Some (Err e, later) => run (skip E d t) (concat pieces) = Err e
  | Some (Panic x, later) => run (skip E d t) (concat pieces) = Panic x
  end.
Proof. intros E d t pieces H1 H2. exact (feed_ok _ _ (honest_hears _ _ (ho_skip E d t H1 H2)) pieces []). Qed.

(** Result and Bound turn the end-of-input error of their content into a Deserialize error: the loop gives up on good data. *)
Theorem C59_result_refuted : exists E t v b c, wf_env E /\ wt E 0 t v /\ to_vec E 0 t v = Ok (b ++ c)
  /\ feed (deserialize E 0 t) [] [b; c] = Some (Err (EDeserialize MInner), [c]).
Proof.
  exists new, (TResult (TInt U32) TStr), (VVar 0 [VInt 300]), [0; 251; 44], [1].
  split; [apply wf_new|]. split; [apply wtb_ok; vm_compute; reflexivity|]. split; vm_compute; reflexivity.
Qed.
(** An optimised struct whose payload is shorter than its fields is reported as end of input, although nothing that could
    follow changes that: the loop waits for ever. *)
Definition short_envelope : schema := mkSchema [opt] (SStruct [fld (TInt U8) 1 None]).
Theorem C59_envelope_refuted : exists E b, wf_env E /\ reports E (TRef 1)
  /\ (forall x, run (deserialize E 1 (TRef 1)) (b ++ x) = Err EIo)
  /\ (forall pieces, feed (deserialize E 1 (TRef 1)) b pieces = None)
  /\ run (skip E 1 (TRef 1)) b = Ok (tt, []).
Proof.
  exists (only short_envelope), [1; 0; 0; 0; 0].
  assert (H : forall x, run (deserialize (only short_envelope) 1 (TRef 1)) ([1; 0; 0; 0; 0] ++ x) = Err EIo).
  { intros x. change (run (n <- read_varlen_len ;; alloc (only short_envelope) n ;;; buf <- read_n n ;;
        in_buf (struct_payload (only short_envelope) (de_ref (only short_envelope) 0) false 1 1 [fld (TInt U8) 1 None]) buf) ([0; 0; 0; 0] ++ x) = Err EIo).
    rewrite run_bind. unfold read_varlen_len. rewrite run_bind. rewrite run_read_n_app by reflexivity. destruct x; reflexivity. }
  split; [apply wf_only; reflexivity|]. split; [split; [reflexivity|]; intros n s Hs; cbn in Hs; destruct (n =? 1); [inversion Hs; reflexivity|discriminate]|].
  split; [exact H|]. split; [|vm_compute; reflexivity].
  intros pieces. assert (G : forall x, feed (deserialize (only short_envelope) 1 (TRef 1)) ([1; 0; 0; 0; 0] ++ x) pieces = None).
  { induction pieces as [|c cs IH]; intros x; cbn [feed]; rewrite H; [reflexivity|]. rewrite <- app_assoc. apply IH. }
  specialize (G []). rewrite app_nil_r in G. exact G.
Qed.

(** Hypotheses met: the example program, in three pieces. *)
Example C59_case : reports new (TRef 1)
  /\ feed (deserialize new 1 (TRef 1)) [] [[1; 3; 97]; [195]; [169; 41; 0; 0; 0; 2; 3; 0; 255; 255; 9]; [8]] =
     Some (Ok (VSeq [a_str [97; 195; 169]; VSeq [VInt 3; VInt 65535]; VSeq []; VInt 42; VVar 0 []], [9]), [[8]]).
Proof.
  split; [|vm_compute; reflexivity]. split; [reflexivity|].
  intros n s. cbn [ex_env e_sch new]. unfold sch3. destruct (n =? 1); [|destruct (n =? 2)]; intros H; inversion H; subst; reflexivity.
Qed.
Example C59_rejected : run (deserialize new 1 (TRef 1)) [9; 3] = Err (EDeserialize MInvalidRevision).
Proof. vm_compute. reflexivity. Qed.
Definition plain_struct : schema := mkSchema [leg; leg] (SStruct [fld TStr 1 None; fld (TVec (TInt U64)) 2 None]).
Example C59_plain : reports (only plain_struct) (TRef 1) /\ no_envelopes (only plain_struct) /\ user_no_eof (only plain_struct)
  /\ run (deserialize (only plain_struct) 1 (TRef 1)) [2; 1; 97] = Err EIo.
Proof.
  split; [split; [reflexivity|]; intros n s Hs; cbn in Hs; destruct (n =? 1); [inversion Hs; reflexivity|discriminate]|].
  split; [intros n s h Hs; cbn in Hs; destruct (n =? 1); [inversion Hs; subst; intros [<-|[<-|[]]]; reflexivity|discriminate]|].
  split; [|vm_compute; reflexivity].
  intros n s Hs. cbn in Hs. destruct (n =? 1); [|discriminate]. inversion Hs; subst. split.
  - intros f r [<-|[<-|[]]]; (split; [discriminate|intros; discriminate]).
  - intros vs v l r Hb. discriminate Hb.
Qed.
Example C59_framed : env_all (fun f => ty_all framed (f_ty f)) new.
Proof. intros n s. cbn [ex_env e_sch new]. unfold sch3. destruct (n =? 1); [|destruct (n =? 2)]; intros H; inversion H; subst; reflexivity. Qed.

Print Assumptions C59_rejection_is_final.
Print Assumptions C59_incomplete_is_eof.
Print Assumptions C59_feed.
Print Assumptions C59_feed_prompt.
Print Assumptions C59_eof_can_pass.
Print Assumptions C59_skip_rejection_is_final.
Print Assumptions C59_skip_incomplete_is_eof.
Print Assumptions C59_skip_eof_can_pass.
Print Assumptions C59_skip_feed.
Print Assumptions C59_result_refuted.
Print Assumptions C59_envelope_refuted.
