(** The other ways of skipping types whose implementations are written by hand (Custom.v): on a slice, and with checks. *)

From Verif Require Import Base Prog Prim SliceReader Ty Ser De Skip Custom.
From Coq Require Import List NArith Bool.
Import ListNotations.
Open Scope N_scope.

Section CustomSkip.
Variable E : env.
Variable U : N -> option codec.
(** lib.rs:40-42: a hand-written [skip_revisioned_slice], if there is one, over those of the other types. *)
Variable O : N -> option ((N -> sm unit) -> (N -> prog unit) -> (N -> prog val) -> sm unit).
(** lib.rs:45-47: the hand-written [skip_check_revisioned], over those of the other types. *)
Variable K : N -> option ((N -> prog unit) -> (N -> prog val) -> prog unit).

(** lib.rs:40-42 (the default calls [skip_revisioned]); derived types as [ss_ref] (Skip.v). *)
Fixpoint user_slice (depth : nat) (n : N) : sm unit :=
  match depth with
  | 0%nat => sm_panic PStack
  | S d =>
      match U n with
      | Some c =>
          match O n with
          | Some o => o (user_slice d) (user_skip E U d) (user_de E U d)
          | None => sr_run (c_skip c (user_skip E U d) (user_de E U d))
          end
      | None => match e_sch E n with Some s => ss_derived E (user_slice d) (user_de E U d) s | None => sm_panic PType end
      end
  end.
(** lib.rs:72-76 [skip_slice]. *)
Definition u_skip_slice (d : nat) (t : ty) (b : bytes) : res N :=
  rmap (fun p => sr_consumed (snd p)) (ss_ty E (user_slice d) (user_de E U d) t (sr_new b)).

(** lib.rs:45-47; derived types deserialise and drop the value (derive expand/mod.rs:188-200).  A hand-written type without
    the trait is not accepted by the compiler where it is needed. *)
Fixpoint user_check (depth : nat) (n : N) : prog unit :=
  match depth with
  | 0%nat => Crash PStack
  | S d =>
      match U n with
      | Some _ => match K n with Some k => k (user_check d) (user_de E U d) | None => Crash PType end
      | None => match e_sch E n with Some s => de_derived E (user_de E U d) s ;;; Ret tt | None => Crash PType end
      end
  end.
(** As [sc_ty] (Skip.v), skip.rs:98-106, 124-130, 152-160, 188-196. *)
Fixpoint user_check_ty (d : nat) (t : ty) : prog unit :=
  match t with
  | TUnit => Ret tt
  | TPair a b => user_check_ty d a ;;; user_check_ty d b
  | TArray n t' => rep_ n (user_check_ty d t')
  | TSystemTime => de_ty E (user_de E U d) (TInt U64) ;;; de_ty E (user_de E U d) (TInt U32) ;;; Ret tt
  | TRef n => user_check d n
  | _ => de_ty E (user_de E U d) t ;;; Ret tt
  end.
(** lib.rs:60-69 [skip_check_revisioned], [skip_check_reader]; 79-84 [skip_check_slice]. *)
Definition u_skip_check (d : nat) (t : ty) : prog unit := user_check_ty d t.
Definition u_skip_check_slice (d : nat) (t : ty) (b : bytes) : res N :=
  rmap (fun p => len b - len (snd p)) (run (u_skip_check d t) b).
End CustomSkip.
