(** Sequence walkers and their items as objects, call by call: src/walk.rs:446-585. *)

From Verif Require Import Base Prog Ty De SliceReader Skip SkipIdx Walk.
From Coq Require Import List NArith ZArith Bool.
Import ListNotations.
Open Scope N_scope.

(** [remaining()], [next_item()]; on the item held: [decode()], [skip()], [with_bytes()], [walk()] with the script [w]
    run on the walker it gives, [walk()] with that walker dropped at once.  [next_item] and [remaining] end the borrow
    of an item that is still held. *)
Inductive sop := SRemaining | SNext | SDecode | SSkip | SBytes | SWalk (w : act) | SDrop.
Record ssession := mkSS { ss_reader : sreader; ss_remaining : N; ss_item : bool }.

Section Seqs.
Variables (E : env) (D d : nat) (t : ty).
(** A call that consumes the item: the reader moves as [m] does, and the counter goes down (525-585).  A session is not
    followed past a call that failed.  A call on an item the caller does not hold does not compile: [Panic PType]. *)
Definition on_item {A} (f : A -> obs) (m : sm A) (s : ssession) : res obs * option ssession :=
  if ss_item s then
    match m (ss_reader s) with
    | Ok (x, r) => if ss_remaining s =? 0 then (Panic POverflow, None) else (Ok (f x), Some (mkSS r (ss_remaining s - 1) false))
    | Err e => (Err e, None)
    | Panic p => (Panic p, None)
    end
  else (Panic PType, None).
Definition ss_step (o : sop) (s : ssession) : res obs * option ssession :=
  let n := ss_remaining s in
  match o with
  | SRemaining => (Ok (OVal (VInt (Z.of_N n))), Some (mkSS (ss_reader s) n false))
  | SNext => if n =? 0 then (Ok OEnd, Some (mkSS (ss_reader s) n false)) else (Ok ODone, Some (mkSS (ss_reader s) n true))
  | SDecode => on_item (fun x => x) (act_on E D d (CPos t) Decode) s
  | SSkip => on_item (fun x => x) (act_on E D d (CPos t) Skip) s
  | SBytes => on_item (fun x => x) (act_on E D d (CPos t) Bytes) s
  | SWalk w => on_item (fun x => x) (act_on E D d (CPos t) (Walk w)) s
  | SDrop => on_item (fun _ => ODone) (enter E D d t) s
  end.
Fixpoint ss_run (ops : list sop) (s : ssession) : list (res obs) * option ssession :=
  match ops with
  | [] => ([], Some s)
  | o :: ops' =>
      match ss_step o s with
      | (x, Some s') => let q := ss_run ops' s' in (x :: fst q, snd q)
      | (x, None) => ([x], None)
      end
  end.
End Seqs.
(** [Vec::walk_revisioned], or that of another sequence type, and the calls. *)
Definition seq_session (E : env) (D d : nat) (t : ty) (ops : list sop) (s : sreader) : res (list (res obs) * option ssession) :=
  match enter E D d t s with
  | Ok ((d', CSeq t' n), s') => Ok (ss_run E D d' t' ops (mkSS s' n false))
  | Ok _ => Panic PType
  | Err e => Err e
  | Panic p => Panic p
  end.
