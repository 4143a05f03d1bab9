(** How often a decoder calls its reader: specification part. *)

From Verif Require Import Base Prog.
From Coq Require Import List NArith.
Import ListNotations.
Open Scope N_scope.

(** The calls made to the reader on the input [bs], the last one included if it is the one that fails. *)
Fixpoint calls {A} (p : prog A) (bs : bytes) : N :=
  match p with
  | Ret _ | Fail _ | Crash _ => 0
  | Read n _ k => 1 + match split_at n bs with Some (x, y) => calls (k x) y | None => 0 end
  end.
