(** Bytes, outcomes, little-endian integers.

    Model part.  Citations are to files under /repo. *)

From Coq Require Import List NArith ZArith Bool Lia ZifyBool ZifyN ZifyNat.
Import ListNotations.
Open Scope N_scope.


(** A byte string.  A Rust [u8] is an [N] below 256; [wfb] says so for a whole string. *)
Definition bytes := list N.
Definition wfb (l : bytes) : Prop := Forall (fun b => b < 256) l.
Definition wfbb (l : bytes) : bool := forallb (fun b => b <? 256) l.

(** Length of a list as an [N] (Rust [usize] lengths). *)
Definition len {A} (l : list A) : N := N.of_nat (length l).

(** Reasons inside [Error::Serialize]/[Error::Deserialize]; the code carries a [String], the model
    only distinguishes which call site produced it. *)
Inductive msg :=
| MInner                (* result.rs:28-31, bound.rs:31-38: inner error re-wrapped *)
| MBadOption            (* option.rs:33 *)
| MUnknownVariant       (* result.rs:32, bound.rs:39, derive de.rs *)
| MInvalidRevision      (* derive expand/mod.rs *)
| MExternal (c : N)     (* regex.rs:19, chrono.rs, notnan.rs:24: external validation *)
| MTooLong              (* optimised payload longer than u32::MAX *)
| MPreEpoch             (* system_time.rs:12 *)
| MBulkVec              (* implementations/walk.rs: bulk encoded Vec cannot be walked *)
| MNotIndexed           (* map_walk.rs: lookup on a legacy payload *)
| MLenOverflow          (* offset table length overflow *)
| MUser (n : N)         (* error value returned by user default_fn/convert_fn *)
| MOther (n : N).

(** src/error.rs: [revision::Error]. [Io] is kept without its [io::Error] payload, but for the kind of those that the
    code makes itself: [EIo] is an error of the reader or writer, or UnexpectedEof; [EIoInput] is InvalidInput. *)
Inductive err :=
| EIo
| EIoInput
| EInvalidBool (b : N)
| EInvalidInt
| EOverflow
| EInvalidPath
| EInvalidChar
| EUtf8
| ESerialize (m : msg)
| EDeserialize (m : msg)
| EConversion (m : msg)
| EInvalidTag (b : N)
| EOffsetRange (off plen : N)
| ENonMonotonic
| EKeysNotAscending
| ESubReaderOverrun
| EBorrowedContract.

(** Ways a Rust program stops without returning. *)
Inductive pan :=
| PType        (* value does not have the static type: cannot happen in Rust, kept explicit *)
| PStack       (* call depth exhausted *)
| PMem         (* allocation refused / capacity overflow *)
| PTime        (* Duration::new or SystemTime + Duration overflow *)
| POverflow    (* arithmetic overflow with overflow checks on *)
| PSlice       (* slice index out of range *)
| PAssert      (* debug_assert! failed *)
| PUnwrap      (* unwrap/expect on None or Err *)
| PUser (n : N)(* user supplied function panicked *).

(** Outcome of a Rust call returning [Result<A, Error>]. *)
Inductive res (A : Type) :=
| Ok (a : A)
| Err (e : err)
| Panic (p : pan).
Arguments Ok {A} a.
Arguments Err {A} e.
Arguments Panic {A} p.

Definition rbind {A B} (r : res A) (f : A -> res B) : res B :=
  match r with Ok a => f a | Err e => Err e | Panic p => Panic p end.
Definition rmap {A B} (f : A -> B) (r : res A) : res B :=
  match r with Ok a => Ok (f a) | Err e => Err e | Panic p => Panic p end.

(** [split_at n l]: the first [n] elements and the rest, [None] when [l] is shorter.
    Recursion on the list, so that huge [n] costs nothing. *)
Fixpoint split_at {A} (n : N) (l : list A) : option (list A * list A) :=
  match n with
  | 0 => Some ([], l)
  | _ => match l with
         | [] => None
         | b :: r => match split_at (N.pred n) r with
                     | Some (x, y) => Some (b :: x, y)
                     | None => None
                     end
         end
  end.

(** Little-endian bytes: [to_le_bytes] / [from_le_bytes] of the Rust standard library. *)
Fixpoint le_bytes (k : nat) (n : N) : bytes :=
  match k with
  | O => []
  | S k' => (n mod 256) :: le_bytes k' (n / 256)
  end.
Fixpoint le_val (l : bytes) : N :=
  match l with
  | [] => 0
  | b :: r => b + 256 * le_val r
  end.

(** Two's complement view of an unsigned word, Rust [as] casts between uN and iN. *)
Definition wrapZ (bits : N) (z : Z) : N := Z.to_N (z mod 2 ^ Z.of_N bits)%Z.
Definition signZ (bits : N) (n : N) : Z :=
  if n <? 2 ^ (bits - 1) then Z.of_N n else (Z.of_N n - 2 ^ Z.of_N bits)%Z.
