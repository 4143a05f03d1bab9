(** C93, C94: what has reached the writer when a small stack or a check of the debug build stops the encoder. *)

From Verif Require Import Base Prog Prim Utf8 Tag Ty Ser De Typed Agree Ex WalkRef Partial Cut PropStack PropDebug.
From Coq Require Import List NArith ZArith Bool Lia.
Import ListNotations.
Open Scope N_scope.

(** ** Specification *)

(** The write calls [a], stopped by a panic in [stops], and the calls [b] of a run that need not have stopped there. *)
Definition stopped (stops : pan -> Prop) (a b : list wop * res unit) : Prop :=
  exists x more, stops x /\ snd a = Panic x /\ fst b = fst a ++ more.

(** ** C93 *)
Theorem C93_writes : forall E d d' t v, (d <= d')%nat ->
  writes E d t v = writes E d' t v \/ stopped (fun x => x = PStack) (writes E d t v) (writes E d' t v).
Proof.
  intros E d d' t v H. destruct (cut_deep E d d' t v H) as [K|(x & l & <- & K)]; [left; exact K|right]. exists PStack, l. auto.
Qed.
(** ** C94 *)
Theorem C94_writes : forall E d t v,
  writes (debug E) d t v = writes (release E) d t v
  \/ stopped (fun x => x = PAssert \/ x = POverflow) (writes (debug E) d t v) (writes (release E) d t v).
Proof. intros E d t v. exact (cut_check E d t v). Qed.

(** ** Examples: two nodes of three are written; the tag of a variant whose payload has the wrong size is written. *)
Example C93_writes_case : let E := only chain in
  writes E 3 (TRef 1) three = writes E 9 (TRef 1) three /\ out (fst (writes E 3 (TRef 1) three)) = three_bytes
  /\ snd (writes E 2 (TRef 1) three) = Panic PStack /\ out (fst (writes E 2 (TRef 1) three)) = [1; 7; 1; 1; 8; 1].
Proof. vm_compute. repeat split. Qed.
Example C94_writes_case :
  snd (writes (debug (only odd_size)) 1 (TRef 1) (VVar 1 [VInt 7])) = Panic PAssert
  /\ snd (writes (release (only odd_size)) 1 (TRef 1) (VVar 1 [VInt 7])) = Ok tt
  /\ (exists b, out (fst (writes (release (only odd_size)) 1 (TRef 1) (VVar 1 [VInt 7]))) = out (fst (writes (debug (only odd_size)) 1 (TRef 1) (VVar 1 [VInt 7]))) ++ [b]).
Proof. vm_compute. repeat split. eexists. reflexivity. Qed.

Print Assumptions C93_writes.
Print Assumptions C94_writes.
