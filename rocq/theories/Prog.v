(** Programs reading from an [io::Read]: the model of code generic over [R: Read].

    Model part.  A decoder in /repo only touches its reader through [read_exact]
    (primitives.rs:7-11, string.rs:32,70,78, specialised.rs:107, slice_reader.rs:9-19) or through
    [take(n).read_to_end] (specialised.rs:157-161, bytes.rs:26-29), which reads the same [n] bytes
    and fails on early end of input; both are [Read].  [Read n e k]: read [n] bytes and go on with
    [k]; [e] is the error returned when the reader fails ([Error::Io], or what an enclosing
    [map_err] makes of it). *)

From Verif Require Import Base.
From Coq Require Import List NArith.
Import ListNotations.
Open Scope N_scope.

Inductive prog (A : Type) :=
| Ret (a : A)
| Fail (e : err)
| Crash (p : pan)
| Read (n : N) (e : err) (k : bytes -> prog A).
Arguments Ret {A} a.
Arguments Fail {A} e.
Arguments Crash {A} p.
Arguments Read {A} n e k.

Fixpoint bind {A B} (p : prog A) (f : A -> prog B) : prog B :=
  match p with
  | Ret a => f a
  | Fail e => Fail e
  | Crash x => Crash x
  | Read n e k => Read n e (fun bs => bind (k bs) f)
  end.

Notation "x <- p ;; q" := (bind p (fun x => q)) (at level 61, p at next level, right associativity).
Notation "p ;;; q" := (bind p (fun _ => q)) (at level 61, right associativity).

(** [Result::map_err] applied to a decoder's result. *)
Fixpoint map_err {A} (g : err -> err) (p : prog A) : prog A :=
  match p with
  | Ret a => Ret a
  | Fail e => Fail (g e)
  | Crash x => Crash x
  | Read n e k => Read n (g e) (fun bs => map_err g (k bs))
  end.

Definition of_res {A} (r : res A) : prog A :=
  match r with Ok a => Ret a | Err e => Fail e | Panic p => Crash p end.

(** [for _ in 0..n { v.push(p?) }] *)
Fixpoint rep {A} (n : nat) (p : prog A) : prog (list A) :=
  match n with
  | O => Ret []
  | S n' => a <- p ;; l <- rep n' p ;; Ret (a :: l)
  end.

(** [for _ in 0..n { p?; }] *)
Fixpoint rep_ {A} (n : nat) (p : prog A) : prog unit :=
  match n with
  | O => Ret tt
  | S n' => p ;;; rep_ n' p
  end.

(** Interpretation over an in-memory slice: [&[u8]] as a reader (and [SliceReader], whose [Read]
    impl is slice_reader.rs:96-104).  The second component of [Ok] is what is left unread. *)
Fixpoint run {A} (p : prog A) (bs : bytes) : res (A * bytes) :=
  match p with
  | Ret a => Ok (a, bs)
  | Fail e => Err e
  | Crash x => Panic x
  | Read n e k => match split_at n bs with
                  | Some (x, y) => run (k x) y
                  | None => Err e
                  end
  end.

(** One byte / a fixed number of bytes: primitives.rs:7-11 [read_buffer]. *)
Definition read_n (n : N) : prog bytes := Read n EIo (fun x => Ret x).
Definition read_byte : prog N := Read 1 EIo (fun x => Ret (hd 0 x)).

(** Behaviour of an arbitrary [io::Read] over a stream: what each call to [read] does. *)
Inductive ev :=
| Interrupted            (* Err(ErrorKind::Interrupted) *)
| Give (k : N)           (* at most k+1 bytes *)
| IoFail.                (* any other io::Error *)

(** [Read::read_exact] of the standard library: loop over [read], retry on [Interrupted],
    [UnexpectedEof] on [Ok(0)].  When the schedule [sch] is used up the reader serves requests in
    full.  Returns the bytes, the unread stream and the unused schedule. *)
Fixpoint read_exact (sch : list ev) (n : N) (bs : bytes) (acc : bytes)
  : option (bytes * bytes * list ev) :=
  match n with
  | 0 => Some (acc, bs, sch)
  | _ =>
    match sch with
    | [] => match split_at n bs with
            | Some (x, y) => Some (acc ++ x, y, [])
            | None => None
            end
    | Interrupted :: sch' => read_exact sch' n bs acc
    | IoFail :: _ => None
    | Give k :: sch' =>
        let m := N.min (N.min (k + 1) n) (len bs) in
        match m with
        | 0 => None
        | _ => match split_at m bs with
               | Some (x, y) => read_exact sch' (n - m) y (acc ++ x)
               | None => None
               end
        end
    end
  end.

(** Interpretation over an arbitrary reader. *)
Fixpoint run_sched {A} (p : prog A) (sch : list ev) (bs : bytes) : res (A * bytes) :=
  match p with
  | Ret a => Ok (a, bs)
  | Fail e => Err e
  | Crash x => Panic x
  | Read n e k => match read_exact sch n bs [] with
                  | Some (x, y, sch') => run_sched (k x) sch' y
                  | None => Err e
                  end
  end.

(** A call to [write_all] / to [write] with the given buffer. *)
Inductive wop := WAll (b : bytes) | WOnce (b : bytes).
Definition wop_bytes (w : wop) : bytes := match w with WAll b => b | WOnce b => b end.
(** What a [Vec<u8>] writer holds afterwards ([Vec]'s [write] always takes everything). *)
Definition out (l : list wop) : bytes := flat_map wop_bytes l.

(** Serializers: the write calls made, in order, or the error that stopped them. *)
Definition ser := res (list wop).
Definition sbind (a b : ser) : ser :=
  match a with
  | Ok la => match b with Ok lb => Ok (la ++ lb) | Err e => Err e | Panic p => Panic p end
  | Err e => Err e
  | Panic p => Panic p
  end.
Notation "a +++ b" := (sbind a b) (at level 60, right associativity).
Definition sall (b : bytes) : ser := Ok [WAll b].
Definition snil : ser := Ok [].
(** [to_vec]: lib.rs *)
Definition ser_bytes (s : ser) : res bytes := rmap out s.

(** Behaviour of an arbitrary [io::Write]: each event serves one call to [write]. *)
Inductive wev :=
| WInterrupted
| WTake (k : N)          (* accepts at most k+1 bytes *)
| WZero                  (* Ok(0) *)
| WFail.

(** [Write::write_all] of the standard library: loop over [write]; [Ok(0)] is a [WriteZero] error;
    [Interrupted] is retried.  Returns bytes delivered so far and the unused schedule; [inl] is
    success.  An exhausted schedule accepts everything. *)
Fixpoint write_all (sch : list wev) (b : bytes) (acc : bytes) : (bytes * list wev) + bytes :=
  match b with
  | [] => inl (acc, sch)
  | _ => match sch with
         | [] => inl (acc ++ b, [])
         | WInterrupted :: s => write_all s b acc
         | WZero :: _ => inr acc
         | WFail :: _ => inr acc
         | WTake k :: s =>
             match split_at (k + 1) b with
             | Some (x, y) => write_all s y (acc ++ x)
             | None => inl (acc ++ b, s)
             end
         end
  end.

(** A single [Write::write] call, its returned count dropped (primitives.rs:146). *)
Definition write_once (sch : list wev) (b : bytes) (acc : bytes) : (bytes * list wev) + bytes :=
  match sch with
  | [] => inl (acc ++ b, [])
  | WInterrupted :: _ => inr acc
  | WFail :: _ => inr acc
  | WZero :: s => inl (acc, s)
  | WTake k :: s => match split_at (k + 1) b with
                    | Some (x, _) => inl (acc ++ x, s)
                    | None => inl (acc ++ b, s)
                    end
  end.

(** [to_writer] (lib.rs) into such a writer: delivered bytes on success / on an IO error. *)
Fixpoint write_ops (l : list wop) (sch : list wev) (acc : bytes) : bytes + bytes :=
  match l with
  | [] => inl acc
  | WAll b :: l' => match write_all sch b acc with
                    | inl (acc', s) => write_ops l' s acc'
                    | inr acc' => inr acc'
                    end
  | WOnce b :: l' => match write_once sch b acc with
                     | inl (acc', s) => write_ops l' s acc'
                     | inr acc' => inr acc'
                     end
  end.
