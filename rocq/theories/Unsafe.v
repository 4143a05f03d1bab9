(** Memory as the crate's [unsafe] blocks see it: allocations, uninitialised bytes, frees, unwinding.  Model part.

    Simplifications: alignment is not modelled (every cast here is from an allocation of the wider type to bytes, or
    between [u8] and [i8]); aliasing rules are not modelled (each slice is dropped before the next access to its vector);
    an allocation that fails ends the process, shown here as a panic that frees what the function owned; elements of
    generic vectors are plain bytes. *)

From Verif Require Import Base Prog Prim Ty Ser De.
From Coq Require Import List NArith Bool.
Import ListNotations.
Open Scope N_scope.

(** A byte of memory, [None] while uninitialised; an allocation; all allocations ever made, in order. *)
Definition cell := option N.
Record block := mkBlock { b_live : bool; b_data : list cell }.
Definition heap := list block.

(** How a call ends; [MUB] is undefined behaviour. *)
Inductive mout (A : Type) := MOk (a : A) | MErr (e : err) | MPanic (p : pan) | MUB.
Arguments MOk {A} a. Arguments MErr {A} e. Arguments MPanic {A} p. Arguments MUB {A}.

(** Any implementation of [Read] in safe code.  [rd_exact s buf]: [read_exact] on a buffer that holds [buf]; what it leaves
    there need not have anything to do with the outcome.  [rd_take s n]: what [take(n).read_to_end] appends, at most
    [n] bytes (the standard library's [Take]); it may fail or panic after having appended some. *)
Record reader (St : Type) := mkReader {
  rd_exact : St -> list N -> res unit * list N * St;
  rd_take : St -> N -> res unit * list N * St }.
Arguments mkReader {St} _ _. Arguments rd_exact {St} _. Arguments rd_take {St} _.
(** A buffer keeps its length and holds bytes. *)
Definition byte_of (b : N) : N := b mod 256.
Definition fit (n : N) (l : list N) : list N := firstn (N.to_nat n) (map byte_of l ++ repeat 0 (N.to_nat n)).
(** Any implementation of [Write]. *)
Definition writer (St : Type) := St -> list N -> res unit * St.

(** A vector: pointer (none: dangling, nothing allocated), length and capacity in elements. *)
Record rvec := mkV { v_block : option nat; v_len : N; v_cap : N }.

Section Mem.
Variable E : env.
Context {St : Type}.
Variable R : reader St.
(** How many elements more than asked for a vector has room for ([Vec::with_capacity]: "at least"). *)
Variable spare : N -> N.

Definition mem (A : Type) := St * heap -> mout A * (St * heap).
Definition mret {A} (a : A) : mem A := fun s => (MOk a, s).
Definition mfail {A} (e : err) : mem A := fun s => (MErr e, s).
Definition mpanic {A} (p : pan) : mem A := fun s => (MPanic p, s).
Definition mub {A} : mem A := fun s => (MUB, s).
Definition mbind {A B} (m : mem A) (f : A -> mem B) : mem B := fun s =>
  match m s with
  | (MOk a, s') => f a s'
  | (MErr e, s') => (MErr e, s')
  | (MPanic p, s') => (MPanic p, s')
  | (MUB, s') => (MUB, s')
  end.
Notation "x <<- m ;; f" := (mbind m (fun x => f)) (at level 61, m at next level, right associativity).

(** [isize::MAX], the largest size of an allocation or a slice. *)
Definition isize_max : N := 2 ^ (e_ub E - 1) - 1.
Definition fits (n : N) : bool := (n <=? isize_max) && match e_mem E with None => true | Some m => n <=? m end.

(** [std::hint::assert_unchecked]. *)
Definition assume (b : bool) : mem unit := if b then mret tt else mub.

Definition set_block (h : heap) (i : nat) (b : block) : heap := firstn i h ++ b :: skipn (S i) h.
(** The allocator. *)
Definition m_alloc (cells : list cell) : mem nat := fun '(s, h) => (MOk (length h), (s, h ++ [mkBlock true cells])).
Definition m_free (i : nat) : mem unit := fun '(s, h) =>
  match nth_error h i with
  | Some (mkBlock true d) => (MOk tt, (s, set_block h i (mkBlock false d)))
  | _ => (MUB, (s, h))
  end.
(** Writing initialised bytes at an offset. *)
Definition m_write (i : nat) (off : N) (x : list N) : mem unit := fun '(s, h) =>
  match nth_error h i with
  | Some (mkBlock true d) =>
      if off + len x <=? len d
      then (MOk tt, (s, set_block h i (mkBlock true (firstn (N.to_nat off) d ++ map Some x ++ skipn (N.to_nat (off + len x)) d))))
      else (MUB, (s, h))
  | _ => (MUB, (s, h))
  end.
Fixpoint all_some (l : list cell) : option (list N) :=
  match l with
  | [] => Some []
  | Some b :: l' => match all_some l' with Some r => Some (b :: r) | None => None end
  | None :: _ => None
  end.
(** [slice::from_raw_parts(_mut)(ptr as *u8, n)]: the memory has to be there, initialised, and not above [isize::MAX]. *)
Definition m_slice (p : option nat) (n : N) : mem (list N) := fun '(s, h) =>
  if isize_max <? n then (MUB, (s, h)) else
  match p with
  | None => ((if n =? 0 then MOk [] else MUB), (s, h))
  | Some i =>
      match nth_error h i with
      | Some (mkBlock true d) =>
          if n <=? len d then
            match all_some (firstn (N.to_nat n) d) with Some x => (MOk x, (s, h)) | None => (MUB, (s, h)) end
          else (MUB, (s, h))
      | _ => (MUB, (s, h))
      end
  end.

(** Code without [unsafe]: each read goes into a buffer of its own. *)
Fixpoint m_prog {A} (p : prog A) : mem A :=
  match p with
  | Ret a => mret a
  | Fail e => mfail e
  | Crash x => mpanic x
  | Read n e k => fun '(s, h) =>
      match rd_exact R s (repeat 0 (N.to_nat n)) with
      | (Ok _, buf, s') => m_prog (k (fit n buf)) (s', h)
      | (Err _, _, s') => (MErr e, (s', h))
      | (Panic x, _, s') => (MPanic x, (s', h))
      end
  end.

(** ** [Vec] of the standard library, elements of [sz] bytes *)

Definition v_new : rvec := mkV None 0 0.
Definition v_drop (v : rvec) : mem unit := match v_block v with None => mret tt | Some i => m_free i end.
(** A local vector is dropped when the function returns early or unwinds. *)
Definition owning {A} (v : rvec) (m : mem A) : mem A := fun s =>
  match m s with
  | (MErr e, s') => mbind (v_drop v) (fun _ => mfail e) s'
  | (MPanic p, s') => mbind (v_drop v) (fun _ => mpanic p) s'
  | r => r
  end.
Definition room (sz n : N) : N := n + N.min (spare n) ((isize_max - n * sz) / sz).
Definition v_with_capacity (sz n : N) : mem rvec :=
  if n * sz =? 0 then mret (mkV None 0 (if sz =? 0 then 2 ^ e_ub E - 1 else 0))
  else if fits (n * sz) then
    i <<- m_alloc (repeat None (N.to_nat (room sz n * sz))) ;; mret (mkV (Some i) 0 (room sz n))
  else mpanic PMem.
(** [vec![zero; n]]. *)
Definition v_zeroed (sz n : N) : mem rvec :=
  if n * sz =? 0 then mret (mkV None n (if sz =? 0 then 2 ^ e_ub E - 1 else 0))
  else if fits (n * sz) then
    i <<- m_alloc (repeat (Some 0) (N.to_nat (n * sz))) ;; mret (mkV (Some i) n n)
  else mpanic PMem.
(** [push] with room left; without, [v_grow] comes first. *)
Definition v_put (sz : N) (v : rvec) (x : list N) : mem rvec :=
  _ <<- match v_block v with
       | None => if len x =? 0 then mret tt else mub
       | Some i => m_write i (v_len v * sz) x
       end ;;
  mret (mkV (v_block v) (v_len v + 1) (v_cap v)).

(** ** The crate *)

(** [reader.read_exact(slice)] on a slice made of a vector's memory: what it leaves is in the vector, however it ends. *)
Definition m_read_exact (p : option nat) (n : N) : mem unit :=
  old <<- m_slice p n ;;
  fun '(s, h) =>
  match rd_exact R s old with
  | (r, buf, s') =>
      mbind (match p with None => mret tt | Some i => m_write i 0 (fit n buf) end)
            (fun _ => match r with Ok _ => mret tt | Err _ => mfail EIo | Panic x => mpanic x end) (s', h)
  end.
(** specialised.rs:87-110, uuid.rs:70-94: [Vec] of numbers or of [Uuid], [sz] bytes each, on little-endian targets. *)
Definition bulk_read (sz : N) : mem rvec :=
  n <<- m_prog (de_len E) ;;
  if n =? 0 then mret v_new
  else if n * sz <? 2 ^ e_ub E then
    v <<- v_zeroed sz n ;;
    owning v (_ <<- m_read_exact (v_block v) (n * sz) ;; mret v)
  else mfail EOverflow.

(** [take(n).read_to_end(&mut vec)] of the standard library: appends, growing if it must; says how much it appended. *)
Definition v_append (v : rvec) (x : list N) : mem rvec :=
  if len x =? 0 then mret v
  else if v_len v + len x <=? v_cap v then
    match v_block v with
    | None => mub
    | Some i => _ <<- m_write i (v_len v) x ;; mret (mkV (v_block v) (v_len v + len x) (v_cap v))
    end
  else if fits (v_len v + len x) then
    old <<- m_slice (v_block v) (v_len v) ;;
    i <<- m_alloc (map Some (old ++ x)) ;;
    _ <<- v_drop v ;;
    mret (mkV (Some i) (v_len v + len x) (v_len v + len x))
  else mpanic PMem.
Definition read_to_end (v : rvec) (n : N) : mem (res unit * N * rvec) := fun '(s, h) =>
  match rd_take R s n with
  | (r, x, s') =>
      let x' := firstn (N.to_nat n) (map byte_of x) in
      mbind (v_append v x') (fun v' => mret (r, len x', v')) (s', h)
  end.
(** specialised.rs:146-164, bytes.rs:19-31: [Vec<u8>] (and [Bytes], which takes the vector over). *)
Definition read_bytes : mem rvec :=
  n <<- m_prog (de_len E) ;;
  if n =? 0 then mret v_new
  else
    v <<- v_with_capacity 1 n ;;
    t <<- owning v (read_to_end v n) ;;
    let '(r, got, v) := t in
    owning v match r with
             | Ok _ => if n =? got then mret v else mfail EIo
             | Err _ => mfail EIo
             | Panic x => mpanic x
             end.
(** [Vec::from_raw_parts]: the allocation has to be there, of this capacity, initialised up to the length. *)
Definition from_raw_parts (sz : N) (p : option nat) (n cap : N) : mem rvec := fun '(s, h) =>
  match p with
  | None => ((if cap * sz =? 0 then MOk (mkV None n cap) else MUB), (s, h))
  | Some i =>
      match nth_error h i with
      | Some (mkBlock true d) =>
          if (len d =? cap * sz) && (n <=? cap) then
            match all_some (firstn (N.to_nat (n * sz)) d) with
            | Some _ => (MOk (mkV p n cap), (s, h))
            | None => (MUB, (s, h))
            end
          else (MUB, (s, h))
      | _ => (MUB, (s, h))
      end
  end.
(** specialised.rs:193-216: [Vec<i8>]; [mem::forget] leaves the allocation as it is. *)
Definition read_i8s : mem rvec :=
  n <<- m_prog (de_len E) ;;
  if n =? 0 then mret v_new
  else
    v <<- v_with_capacity 1 n ;;
    t <<- owning v (read_to_end v n) ;;
    let '(r, got, v) := t in
    _ <<- owning v match r with
                  | Ok _ => if n =? got then mret tt else mfail EIo
                  | Err _ => mfail EIo
                  | Panic x => mpanic x
                  end ;;
    from_raw_parts 1 (v_block v) (v_len v) (v_cap v).

(** The loop of vecs.rs:123-131, decimal.rs:74-86, specialised.rs:115-125, collections.rs:92-102, 187-195, imbl.rs (five
    times): decode an element, promise that there is room, push it.  [p]: the element, as the bytes it takes in
    memory. *)
Fixpoint push_loop (sz : N) (p : prog (list N)) (k : nat) (v : rvec) : mem rvec :=
  match k with
  | O => mret v
  | S k' =>
      x <<- owning v (m_prog p) ;;
      _ <<- assume (v_len v <? v_cap v) ;;
      v' <<- v_put sz v (fit sz x) ;;
      push_loop sz p k' v'
  end.
(** vecs.rs:115-134 and the others (those that do not return early for no elements allocate nothing for them). *)
Definition read_elements (sz : N) (p : prog (list N)) : mem rvec :=
  n <<- m_prog (de_len E) ;;
  if n =? 0 then mret v_new
  else v <<- v_with_capacity sz n ;; push_loop sz p (N.to_nat n) v.

(** specialised.rs:49-75, 169-187: all elements as one slice.  The multiplication is not checked: in release builds it
    would wrap. *)
Variable W : writer St.
Definition m_write_all (x : list N) : mem unit := fun '(s, h) =>
  match W s x with
  | (Ok _, s') => (MOk tt, (s', h))
  | (Err _, s') => (MErr EIo, (s', h))
  | (Panic p, s') => (MPanic p, (s', h))
  end.
Definition bulk_write (sz : N) (v : rvec) : mem unit :=
  _ <<- m_write_all (ser_len E (v_len v)) ;;
  if v_len v =? 0 then mret tt
  else x <<- m_slice (v_block v) ((v_len v * sz) mod 2 ^ e_ub E) ;; m_write_all x.
(** uuid.rs:39-64: the same with a checked multiplication. *)
Definition uuid_write (v : rvec) : mem unit :=
  _ <<- m_write_all (ser_len E (v_len v)) ;;
  if v_len v =? 0 then mret tt
  else if v_len v * 16 <? 2 ^ e_ub E then x <<- m_slice (v_block v) (v_len v * 16) ;; m_write_all x
  else mfail EOverflow.
End Mem.
