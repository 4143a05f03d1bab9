(** Bulk vectors of numbers on big-endian targets: src/implementations/specialised.rs:45-129 with
    [target_endian = "big"].  Model part; [ser_bulk] and [de_bulk] are the code for little-endian ones. *)

From Verif Require Import Base Prog Prim Ty Ser De.
From Coq Require Import List NArith ZArith Bool.
Import ListNotations.
Open Scope N_scope.

(** specialised.rs:53-59, 76-82: one [write_all] per element. *)
Definition ser_bulk_be (E : env) (w : nat) (l : list val) : ser :=
  Ok [WAll (ser_len E (len l))] +++
  (if len l =? 0 then snil
   else rbind (rmapM as_int l) (fun zs => Ok (map (fun z => WAll (ser_fixed w z)) zs))).

(** specialised.rs:88-92, 111-125: [with_capacity], then one [read_exact] per element. *)
Definition de_bulk_be (E : env) (signed : bool) (w : nat) : prog (list val) :=
  n <- de_len E ;;
  if n =? 0 then Ret []
  else alloc E (n * N.of_nat w) ;;;
       rep (N.to_nat n) (x <- read_n (N.of_nat w) ;; Ret (VInt (fixed_val signed w x))).
