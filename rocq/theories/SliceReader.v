(** Readers over a byte slice: src/slice_reader.rs.  Model part. *)

From Verif Require Import Base Prog.
From Coq Require Import List NArith Bool.
Import ListNotations.
Open Scope N_scope.

(** slice_reader.rs:9-19 [advance_read]: reads and drops [len] bytes through a 4096 byte stack buffer.
    The fuel is the number of rounds. *)
Fixpoint adv_loop (fuel : nat) (n : N) : prog unit :=
  match fuel with
  | O => Ret tt
  | S f => if n =? 0 then Ret tt
           else let chunk := N.min n 4096 in read_n chunk ;;; adv_loop f (n - chunk)
  end.
Definition advance_read (n : N) : prog unit := adv_loop (N.to_nat ((n + 4095) / 4096)) n.

(** slice_reader.rs:27-30 [SliceReader]. *)
Record sreader := mkSR { sr_inner : bytes; sr_orig : N }.
(** 34-39. *)
Definition sr_new (b : bytes) : sreader := mkSR b (len b).
(** 43-45. *)
Definition sr_remaining (s : sreader) : bytes := sr_inner s.
(** 49-51 (the subtraction is in [usize]; [N] subtraction stops at 0, see C42). *)
Definition sr_consumed (s : sreader) : N := sr_orig s - len (sr_inner s).
(** 55-64 [consume]: result and reader afterwards. *)
Definition sr_consume (n : N) (s : sreader) : res unit * sreader :=
  match split_at n (sr_inner s) with
  | Some (_, y) => (Ok tt, mkSR y (sr_orig s))
  | None => (Err EIo, s)
  end.
(** 75-93 [sub], [ub]: pointer width. *)
Definition sr_sub (ub : N) (offset n : N) (s : sreader) : res sreader :=
  if offset <? sr_consumed s then Err EIoInput
  else let io := offset - sr_consumed s in
       if 2 ^ ub <=? io + n then Err EIoInput
       else if len (sr_inner s) <? io + n then Err ESubReaderOverrun
       else match split_at io (sr_inner s) with
            | Some (_, y) => match split_at n y with
                             | Some (x, _) => Ok (sr_new x)
                             | None => Panic PSlice
                             end
            | None => Panic PSlice
            end.
(** 96-104 [Read::read] into a buffer of [n] bytes: what is copied, and the reader afterwards. *)
Definition sr_read (n : N) (s : sreader) : bytes * sreader :=
  match split_at (N.min n (len (sr_inner s))) (sr_inner s) with
  | Some (x, y) => (x, mkSR y (sr_orig s))
  | None => ([], s)
  end.
(** [Read::read_exact] of the standard library on it: loop over [read], [UnexpectedEof] on [Ok(0)].
    Two rounds are enough, as [read] gives everything there is. *)
Fixpoint sr_exact (fuel : nat) (n : N) (s : sreader) (acc : bytes) : option (bytes * sreader) :=
  if n =? 0 then Some (acc, s)
  else match fuel with
       | O => None
       | S f => let (x, s') := sr_read n s in
                if len x =? 0 then None else sr_exact f (n - len x) s' (acc ++ x)
       end.
Definition sr_read_exact (n : N) (s : sreader) : option (bytes * sreader) := sr_exact 2 n s [].

(** 324-349 [BorrowedReader for SliceReader]. *)
Definition sr_peek (n : N) (s : sreader) : res bytes :=
  match split_at n (sr_inner s) with Some (x, _) => Ok x | None => Err EIo end.
Definition sr_advance (n : N) (s : sreader) : res unit * sreader := sr_consume n s.
Definition sr_position (s : sreader) : N := sr_consumed s.
(** 251-287 [BorrowedReader for &[u8]]. *)
Definition sl_peek (n : N) (b : bytes) : res bytes :=
  match split_at n b with Some (x, _) => Ok x | None => Err EIo end.
Definition sl_advance (n : N) (b : bytes) : res unit * bytes :=
  match split_at n b with Some (_, y) => (Ok tt, y) | None => (Err EIo, b) end.
(** 365-381 [read_borrowed_bytes]: peek, then advance. *)
Definition sr_borrow (n : N) (s : sreader) : res bytes * sreader :=
  match sr_peek n s with
  | Ok x => match sr_advance n s with
            | (Ok _, s') => (Ok x, s')
            | (Err e, s') => (Err e, s')
            | (Panic p, s') => (Panic p, s')
            end
  | Err e => (Err e, s)
  | Panic p => (Panic p, s)
  end.
(** 389-399 [take_bytes_slice]. *)
Definition take_slice (n : N) (b : bytes) : res bytes * bytes :=
  match split_at n b with Some (x, y) => (Ok x, y) | None => (Err EIo, b) end.
(** 403-416 [take_bytes_reader]. *)
Definition take_reader (n : N) (s : sreader) : res bytes * sreader :=
  match split_at n (sr_inner s) with
  | Some (x, y) => (Ok x, mkSR y (sr_orig s))
  | None => (Err EIo, s)
  end.

(** Code that takes a [&mut SliceReader] and stops at the first error. *)
Definition sm (A : Type) := sreader -> res (A * sreader).
Definition sm_ret {A} (a : A) : sm A := fun s => Ok (a, s).
Definition sm_err {A} (e : err) : sm A := fun _ => Err e.
Definition sm_panic {A} (p : pan) : sm A := fun _ => Panic p.
Definition sm_bind {A B} (m : sm A) (f : A -> sm B) : sm B :=
  fun s => match m s with Ok (a, s') => f a s' | Err e => Err e | Panic p => Panic p end.
(** A call of the form [op(&mut reader)?]. *)
Definition sm_op {A} (op : sreader -> res A * sreader) : sm A :=
  fun s => match op s with (Ok a, s') => Ok (a, s') | (Err e, _) => Err e | (Panic p, _) => Panic p end.
Definition sm_consume (n : N) : sm unit := sm_op (sr_consume n).
Fixpoint sm_rep (n : nat) (m : sm unit) : sm unit :=
  match n with O => sm_ret tt | S n' => sm_bind m (fun _ => sm_rep n' m) end.
(** A decoder generic over [R: Read], called on a [SliceReader]. *)
Fixpoint sr_run {A} (p : prog A) : sm A :=
  match p with
  | Ret a => sm_ret a
  | Fail e => sm_err e
  | Crash x => sm_panic x
  | Read n e k => fun s => match sr_read_exact n s with
                           | Some (x, s') => sr_run (k x) s'
                           | None => Err e
                           end
  end.
