(** Code generic over [R: BorrowedReader]: src/slice_reader.rs:106-416 and its users.  Model part.

    The contents of a slice that was handed out are a value here: that they stay as they are is what bullets 1 to 3
    of the trait's contract ask for (slice_reader.rs:122-139) and what a functional model cannot express. *)

From Verif Require Import Base Prog Prim Tag Ty De SliceReader Skip SkipIdx Walk.
From Coq Require Import List NArith Bool.
Import ListNotations.
Open Scope N_scope.

(** slice_reader.rs:183-246: an implementation of the trait, with states [St].  [br_exact] is [Read::read_exact]
    ([None]: an error); [br_peek], [br_advance], [br_remaining] are the methods of the trait ([position] is used
    by no code in the crate). *)
Record breader (St : Type) := mkBReader {
  br_exact : N -> St -> option (bytes * St);
  br_peek : N -> St -> res bytes;
  br_advance : N -> St -> res unit * St;
  br_remaining : St -> res bytes
}.
Arguments mkBReader {St}. Arguments br_exact {St}. Arguments br_peek {St}. Arguments br_advance {St}. Arguments br_remaining {St}.

(** A function generic over the reader can call these methods and nothing else. *)
Inductive bprog (A : Type) :=
| BRet (a : A)
| BFail (e : err)
| BCrash (p : pan)
| BRead (n : N) (e : err) (k : bytes -> bprog A)
| BPeek (n : N) (k : bytes -> bprog A)
| BAdvance (n : N) (k : bprog A)
| BRemaining (k : bytes -> bprog A).
Arguments BRet {A}. Arguments BFail {A}. Arguments BCrash {A}. Arguments BRead {A}. Arguments BPeek {A}.
Arguments BAdvance {A}. Arguments BRemaining {A}.

(** Each method is called with [?]. *)
Fixpoint brun {St A} (R : breader St) (p : bprog A) (s : St) : res (A * St) :=
  match p with
  | BRet a => Ok (a, s)
  | BFail e => Err e
  | BCrash x => Panic x
  | BRead n e k => match br_exact R n s with Some (x, s') => brun R (k x) s' | None => Err e end
  | BPeek n k => rbind (br_peek R n s) (fun x => brun R (k x) s)
  | BAdvance n k => match br_advance R n s with
                    | (Ok _, s') => brun R k s'
                    | (Err e, _) => Err e
                    | (Panic x, _) => Panic x
                    end
  | BRemaining k => rbind (br_remaining R s) (fun x => brun R (k x) s)
  end.
Fixpoint bbind {A B} (p : bprog A) (f : A -> bprog B) : bprog B :=
  match p with
  | BRet a => f a
  | BFail e => BFail e
  | BCrash x => BCrash x
  | BRead n e k => BRead n e (fun x => bbind (k x) f)
  | BPeek n k => BPeek n (fun x => bbind (k x) f)
  | BAdvance n k => BAdvance n (bbind k f)
  | BRemaining k => BRemaining (fun x => bbind (k x) f)
  end.
(** A decoder generic over [R: Read], called on a [BorrowedReader]. *)
Fixpoint bread {A} (p : prog A) : bprog A :=
  match p with
  | Ret a => BRet a
  | Fail e => BFail e
  | Crash x => BCrash x
  | Read n e k => BRead n e (fun x => bread (k x))
  end.
Fixpoint brep (n : nat) (p : bprog unit) : bprog unit :=
  match n with O => BRet tt | S n' => bbind p (fun _ => brep n' p) end.

(** [slice::from_raw_parts(ptr, n)] on the memory that starts with the slice [x]: beyond its end the behaviour
    is undefined, for which [PSlice] stands here. *)
Definition raw_parts {A} (x : bytes) (n : N) (k : bytes -> bprog A) : bprog A :=
  if n <=? len x then k (firstn (N.to_nat n) x) else BCrash PSlice.
(** slice_reader.rs:365-381 [read_borrowed_bytes]. *)
Definition b_borrow (n : N) : bprog bytes :=
  BPeek n (fun x => BAdvance n (raw_parts x n (fun y => BRet y))).
(** optimised/envelope.rs:80-83 [read_varlen_slice], 96-99 [skip_varlen_borrowed]. *)
Definition b_varlen_slice : bprog bytes := bbind (bread read_varlen_len) b_borrow.
Definition b_varlen_skip : bprog unit := bbind (bread read_varlen_len) (fun n => BAdvance n (BRet tt)).
(** walk.rs:165-177 [with_length_prefixed_bytes]. *)
Definition b_with_bytes (E : env) : bprog bytes :=
  bbind (bread (de_len E)) (fun n => BPeek n (fun x => BAdvance n (BRet x))).

Section Idx.
Variable E : env.
Variable d : nat.
(** optimised/indexed/serialize.rs:814-845. *)
Definition b_skip_map (a b : ty) : bprog unit :=
  bbind (bread read_byte) (fun flags =>
  bbind (bread (read_varint E)) (fun n =>
  if N.land flags 1 =? 0 then
    brep (N.to_nat n) (bbind (bread (skip E d a)) (fun _ => bread (skip E d b)))
  else if n * 8 <? 2 ^ e_ub E then
    BAdvance (n * 8)
    (bbind (bread (read_n 8)) (fun lens =>
     let k_region := le_val (firstn 4 lens) in
     let v_region := le_val (skipn 4 lens) in
     if k_region + v_region <? 2 ^ e_ub E then BAdvance (k_region + v_region) (BRet tt)
     else BFail ESubReaderOverrun))
  else BFail ESubReaderOverrun)).
(** serialize.rs:858-888, sets 268-276, 292-294, 310-313.  [table[(len - 1) * 4..len * 4]] panics if the slice is
    shorter than what was asked for. *)
Definition b_skip_seq (a : ty) : bprog unit :=
  bbind (bread read_byte) (fun flags =>
  bbind (bread (read_varint E)) (fun n =>
  if N.land flags 1 =? 0 then brep (N.to_nat n) (bread (skip E d a))
  else if n =? 0 then BRet tt
  else if n * 4 <? 2 ^ e_ub E then
    BPeek (n * 4) (fun table =>
    if n * 4 <=? len table then
      let last_off := le_val (firstn 4 (skipn (N.to_nat ((n - 1) * 4)) table)) in
      BAdvance (n * 4) (BAdvance last_off (bread (skip E d a)))
    else BCrash PSlice)
  else BFail ESubReaderOverrun)).
Definition b_skip_idx (t : ty) : bprog unit :=
  match t with
  | TMap _ a b => b_skip_map a b
  | TVec a | TImVec a | TSet _ a => b_skip_seq a
  | _ => BCrash PType
  end.
End Idx.

(** derive expand/walk.rs:660-709 (views of [indexed_*] fields) and 975-1005 ([into_<field>_bytes]) on the wire: the
    unread bytes before and after skipping the field. *)
Definition b_view (skip : bprog unit) : bprog bytes :=
  BRemaining (fun before =>
  bbind skip (fun _ =>
  BRemaining (fun after =>
  if len before <? len after then BFail EBorrowedContract
  else raw_parts before (len before - len after) (fun x => BRet x)))).

(** slice_reader.rs:324-349 and 95-104: [SliceReader]. *)
Definition br_slice_reader : breader sreader :=
  mkBReader sr_read_exact sr_peek sr_advance (fun s => Ok (sr_remaining s)).
(** slice_reader.rs:251-287: [&[u8]]. *)
Definition br_slice : breader bytes :=
  mkBReader split_at sl_peek sl_advance (fun s => Ok s).
(** slice_reader.rs:299-319: [&mut R] forwards every call. *)
Definition br_mut {St} (R : breader St) : breader St :=
  mkBReader (fun n s => br_exact R n s) (fun n s => br_peek R n s) (fun n s => br_advance R n s) (fun s => br_remaining R s).
(** slice_reader.rs:235-245: an implementation that leaves [remaining] to the trait's default. *)
Definition br_default {St} (dbg : bool) (R : breader St) : breader St :=
  mkBReader (br_exact R) (br_peek R) (br_advance R) (fun _ => if dbg then Panic PAssert else Ok []).
