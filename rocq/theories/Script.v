(** The scripts Rust's type checker accepts on a walker.  Specification part: types only, no readers and no data. *)

From Verif Require Import Base Prog Ty Ser De Walk WalkSpec.
From Coq Require Import List NArith Bool.
Import ListNotations.
Open Scope N_scope.

(** What [T::walk_revisioned] gives, by type. *)
Inductive walker :=
| WPos (t : ty) | WOpt (t : ty) | WRes (a b : ty) | WSeq (t : ty) | WMap (a b : ty)
| WStruct (s : schema) (fs : list field)      (* the fields not yet handled *)
| WEnum (s : schema) (vs : list variant).

Section Typed.
Variable E : env.
Fixpoint walker_of (t : ty) : walker :=
  match t with
  | TOption t' => WOpt t'
  | TResult a b => WRes a b
  | TVec t' | TImVec t' | TSet _ t' | THeap t' => WSeq t'
  | TMap _ a b => WMap a b
  | TWrap t' => walker_of t'
  | TExt _ false TF32 => WPos TF32
  | TExt _ false TF64 => WPos TF64
  | TRef n => match e_sch E n with
              | Some s => match s_body s with
                          | SStruct fs => WStruct s (filter (falive (scur s)) fs)
                          | SEnum vs => WEnum s vs
                          end
              | None => WPos t
              end
  | _ => WPos t
  end.

(** [walk_<field>] exists in two forms: of [indexed_*] fields ([View]) and of the others ([Walk]).  Variants without
    fields have no [<variant>_view], only unit variants and variants with one field have [decode_<variant>]. *)
Fixpoint accepted (k : walker) (a : act) {struct a} : Prop :=
  match k, a with
  | WPos _, Decode | WPos _, Skip => True
  | WPos t, Bytes => length_prefixed t = true
  | WPos t, Walk w => accepted (walker_of t) w
  | WOpt _, Decode | WOpt _, Skip | WRes _ _, Decode | WRes _ _, Skip => True
  | WOpt _, Case w0 w1 | WRes _ _, Case w0 w1 => accepted k w0 /\ accepted k w1
  | WOpt t, Into 1 w => accepted (walker_of t) w
  | WRes t _, Into 0 w => accepted (walker_of t) w
  | WRes _ t, Into 1 w => accepted (walker_of t) w
  | WSeq t, Item x w => accepted (WPos t) x /\ accepted k w
  | WMap t t', Entry x y w =>
      match x with Walk _ => False | _ => accepted (WPos t) x end /\ accepted (WPos t') y /\ accepted k w
  | WStruct s (f :: fs), Field x w =>
      match x with
      | Decode | Skip => True
      | View => is_idx f = true
      | Walk _ => is_idx f = false /\ accepted (WPos (f_ty f)) x
      | _ => False
      end /\ accepted (WStruct s fs) w
  | WStruct _ [], Field _ _ => True
  | WSeq _, Rest | WMap _ _, Rest | WStruct _ _, Rest => True
  | WEnum s vs, Is n w0 w1 => variant_here s vs n <> None /\ accepted k w0 /\ accepted k w1
  | WEnum s vs, DecodeVar n => exists fs, variant_here s vs n = Some fs /\ (length fs <= 1)%nat
  | WEnum s vs, ViewVar n => exists f fs, variant_here s vs n = Some (f :: fs)
  | WEnum s vs, IntoVar n w => exists f, variant_here s vs n = Some [f] /\ accepted (walker_of (f_ty f)) w
  | _, _ => False
  end.

(** No [walk_<field>] of an [indexed_*] field of a type with convert functions. *)
Fixpoint no_owned_view (k : walker) (a : act) {struct a} : Prop :=
  match k, a with
  | WPos t, Walk w => no_owned_view (walker_of t) w
  | WOpt _, Case w0 w1 | WRes _ _, Case w0 w1 | WEnum _ _, Is _ w0 w1 => no_owned_view k w0 /\ no_owned_view k w1
  | WOpt t, Into 1 w | WRes t _, Into 0 w | WRes _ t, Into 1 w => no_owned_view (walker_of t) w
  | WSeq t, Item x w => no_owned_view (WPos t) x /\ no_owned_view k w
  | WMap t t', Entry x y w => no_owned_view (WPos t) x /\ no_owned_view (WPos t') y /\ no_owned_view k w
  | WStruct s (f :: fs), Field x w =>
      (x = View -> has_convert s = false) /\ no_owned_view (WPos (f_ty f)) x /\ no_owned_view (WStruct s fs) w
  | WEnum s vs, IntoVar n w => forall f, variant_here s vs n = Some [f] -> no_owned_view (walker_of (f_ty f)) w
  | _, _ => True
  end.
End Typed.
