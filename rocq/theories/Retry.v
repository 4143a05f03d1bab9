(** Sequence and map walkers whose caller goes on after a failed call: src/walk.rs:446-585, 593-659, 786-935.
    Model part. *)

From Verif Require Import Base Prog Ty De SliceReader Skip SkipIdx Walk Seqs.
From Coq Require Import List NArith ZArith Bool.
Import ListNotations.
Open Scope N_scope.

(** Where a decoder generic over [R: Read] leaves a [SliceReader].  A [read_exact] that finds too few bytes has taken
    them all (slice_reader.rs:96-104 and the loop of the standard library); any other error is raised between reads. *)
Fixpoint sr_after {A} (p : prog A) (s : sreader) : sreader :=
  match p with
  | Read n _ k => match sr_read_exact n s with Some (x, s') => sr_after (k x) s' | None => mkSR [] (sr_orig s) end
  | _ => s
  end.
(** [s'] is [s] some bytes later. *)
Definition behind (s s' : sreader) : Prop := sr_orig s' = sr_orig s /\ exists x, sr_inner s = x ++ sr_inner s'.

(** What a caller learns from a call on a handle: the result of the call itself; or, for [walk], that it gave a
    walker, and the result of the script run on that walker. *)
Inductive said := Said (r : res obs) | Walked (r : res obs).
(** The item or entry counts as visited: walk.rs:532, 543, 558, 582 and 834, 846, 859, 932 are reached. *)
Definition counts (x : said) : bool := match x with Said (Ok _) | Walked _ => true | Said _ => false end.
Definition one_less (x : said) (n : N) : N := if counts x then n - 1 else n.

Section Retry.
Variables (E : env) (D : nat).
(** walk.rs:165-177: an error of [peek_bytes] or [advance] leaves the reader behind the length. *)
Definition bytes_after (s : sreader) : sreader :=
  match sr_run (de_len E) s with Ok (_, s') => s' | _ => sr_after (de_len E) s end.
(** A call on a handle at a value of type [t], and the reader afterwards.  Simplified: after a [walk], or a script on the
    walker it gave, that failed, the reader may be anywhere further on. *)
Inductive on_handle (d : nat) (t : ty) (s : sreader) : act -> said -> sreader -> Prop :=
| oh_ok : forall x o s', match x with Walk _ => False | _ => True end -> act_on E D d (CPos t) x s = Ok (o, s') ->
    on_handle d t s x (Said (Ok o)) s'
| oh_decode : forall e, act_on E D d (CPos t) Decode s = Err e -> on_handle d t s Decode (Said (Err e)) (sr_after (deserialize E d t) s)
| oh_skip : forall e, act_on E D d (CPos t) Skip s = Err e -> on_handle d t s Skip (Said (Err e)) (sr_after (skip E d t) s)
| oh_bytes : forall e, act_on E D d (CPos t) Bytes s = Err e -> on_handle d t s Bytes (Said (Err e)) (bytes_after s)
| oh_refused : forall w e s', enter E D d t s = Err e -> behind s s' -> on_handle d t s (Walk w) (Said (Err e)) s'
| oh_walked : forall w p s1 o s', enter E D d t s = Ok (p, s1) -> act_on E D (fst p) (snd p) w s1 = Ok (o, s') ->
    on_handle d t s (Walk w) (Walked (Ok o)) s'
| oh_stopped : forall w p s1 e s', enter E D d t s = Ok (p, s1) -> act_on E D (fst p) (snd p) w s1 = Err e -> behind s1 s' ->
    on_handle d t s (Walk w) (Walked (Err e)) s'.

(** A call on a sequence walker or on the item it gave (467-512, 525-585).  The item is given up by the call in any
    case; the counter goes down only if the call worked. *)
Definition act_of (o : sop) : option act :=
  match o with SDecode => Some Decode | SSkip => Some Skip | SBytes => Some Bytes | SWalk w => Some (Walk w) | _ => None end.
Inductive seq_call (d : nat) (t : ty) : ssession -> sop -> said -> ssession -> Prop :=
| sc_remaining : forall r n i, seq_call d t (mkSS r n i) SRemaining (Said (Ok (OVal (VInt (Z.of_N n))))) (mkSS r n false)
| sc_end : forall r i, seq_call d t (mkSS r 0 i) SNext (Said (Ok OEnd)) (mkSS r 0 false)
| sc_next : forall r n i, n <> 0 -> seq_call d t (mkSS r n i) SNext (Said (Ok ODone)) (mkSS r n true)
| sc_item : forall r n o x y r', act_of o = Some x -> on_handle d t r x y r' -> seq_call d t (mkSS r n true) o y (mkSS r' (one_less y n) false)
| sc_drop : forall r n p r', enter E D d t r = Ok (p, r') -> seq_call d t (mkSS r n true) SDrop (Walked (Ok ODone)) (mkSS r' (one_less (Walked (Ok ODone)) n) false)
| sc_refused : forall r n e r', enter E D d t r = Err e -> behind r r' -> seq_call d t (mkSS r n true) SDrop (Said (Err e)) (mkSS r' n false).
Inductive seq_calls (d : nat) (t : ty) : ssession -> list (sop * said) -> ssession -> Prop :=
| scs_nil : forall s, seq_calls d t s [] s
| scs_cons : forall s o x s1 tr s2, seq_call d t s o x s1 -> seq_calls d t s1 tr s2 -> seq_calls d t s ((o, x) :: tr) s2.

(** A call on a map walker or on the entry it gave (613-657, 786-935).  A call on the key leaves the entry with the
    caller; it moves on to the value only if it worked.  A call on the value gives the entry up in any case. *)
Inductive map_call (d : nat) (a b : ty) : msession -> mop -> said -> msession -> Prop :=
| mc_remaining : forall r n c, map_call d a b (mkMS r n c) Remaining (Said (Ok (OVal (VInt (Z.of_N n))))) (mkMS r n None)
| mc_end : forall r c, map_call d a b (mkMS r 0 c) NextEntry (Said (Ok OEnd)) (mkMS r 0 None)
| mc_next : forall r n c, n <> 0 -> map_call d a b (mkMS r n c) NextEntry (Said (Ok ODone)) (mkMS r n (Some false))
| mc_key : forall r n o x y r', side o = OnKey x -> on_handle d a r x y r' -> map_call d a b (mkMS r n (Some false)) o y (mkMS r' n (Some (counts y)))
| mc_key_again : forall r n o x, side o = OnKey x -> map_call d a b (mkMS r n (Some true)) o (Said (Err (EDeserialize (MOther 9)))) (mkMS r n (Some true))
| mc_value : forall r n o x y r', side o = OnValue x -> on_handle d b r x y r' -> map_call d a b (mkMS r n (Some true)) o y (mkMS r' (one_less y n) None)
| mc_value_early : forall r n o x, side o = OnValue x -> map_call d a b (mkMS r n (Some false)) o (Said (Err (EDeserialize (MOther 9)))) (mkMS r n None).
Inductive map_calls (d : nat) (a b : ty) : msession -> list (mop * said) -> msession -> Prop :=
| mcs_nil : forall s, map_calls d a b s [] s
| mcs_cons : forall s o x s1 tr s2, map_call d a b s o x s1 -> map_calls d a b s1 tr s2 -> map_calls d a b s ((o, x) :: tr) s2.
End Retry.
