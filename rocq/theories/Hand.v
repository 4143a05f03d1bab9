(** The tables that the derive emits for introspection, the accessors of the generated walkers, and the generic
    walkers for callers who take the bytes apart by hand.  Model part. *)

From Verif Require Import Base Prog Prim Ty Ser De SliceReader Skip Walk.
From Coq Require Import List NArith ZArith Bool.
Import ListNotations.
Open Scope N_scope.

(** ** Tables: derive expand/walk.rs:1516-1620, one arm per revision [1..=current] *)
Definition known (s : schema) (r : N) : bool := (1 <=? r) && (r <=? scur s).
(** walk.rs:1516-1577 [walk_revisioned_variant_table]: names and discriminants of the variants alive at [r]
    in the order of their declaration.  A clash of overrides is a compile error. *)
Definition variant_table (s : schema) (r : N) : list (N * N) :=
  match s_body s with
  | SEnum vs => if known s r then match calc_disc r vs with Some ds => map (fun p => (v_name (fst p), snd p)) ds | None => [] end
                else []
  | SStruct _ => []
  end.
(** walk.rs:1524-1562 [walk_revisioned_variant_name]: a [match] with one arm per entry. *)
Definition variant_name (s : schema) (r d : N) : option N :=
  match find (fun p => snd p =? d) (variant_table s r) with Some (k, _) => Some k | None => None end.
(** walk.rs:1579-1625 [walk_revisioned_field_names]; a field is named by its place in the declaration. *)
Fixpoint alive_at (r : N) (i : nat) (fs : list field) : list nat :=
  match fs with
  | [] => []
  | f :: fs' => if falive r f then i :: alive_at r (S i) fs' else alive_at r (S i) fs'
  end.
Definition field_names (s : schema) (r : N) : list nat :=
  match s_body s with
  | SStruct fs => if known s r then alive_at r 0 fs else []
  | SEnum _ => []
  end.

(** ** Accessors of the generated walkers: derive expand/walk.rs:272-310 *)
Definition struct_revision (s : schema) (r : srepr) : N :=
  match r with SWire rev => rev | SIndexed _ _ | SOwned _ _ => scur s end.
Definition enum_revision (s : schema) (r : erepr) : N :=
  match r with EWire rev _ => rev | EBorrowed _ _ | EOwned _ _ _ => scur s end.
Definition enum_discriminant (r : erepr) : N :=
  match r with EWire _ d | EBorrowed _ d | EOwned _ _ d => d end.

(** ** StructWalker and EnumWalker: src/walk.rs:938-1131 *)

(** walk.rs:955-959: the reader is the state of [sm]. *)
Record hand := mkHand { hw_revision : N; hw_position : N }.
(** The calls that touch a field: [decode::<T>], [skip::<T>], [walk::<T>] and what is done with the walker. *)
Inductive hop := HDecode (t : ty) | HSkip (t : ty) | HWalk (t : ty) (w : act).

Section Hand.
Variable E : env.
Variable D : nat.
Definition hop_on (d : nat) (h : hop) : sm obs :=
  match h with
  | HDecode t => sm_map OVal (sr_run (deserialize E d t))
  | HSkip t => sm_map (fun _ => ODone) (sr_run (skip E d t))
  | HWalk t w => walk_with E D d t w
  end.
(** [self.position += 1] on a [u32]. *)
Definition hand_next (h : hand) : res hand :=
  if e_dbg E && (2 ^ 32 <=? hw_position h + 1) then Panic POverflow
  else Ok (mkHand (hw_revision h) ((hw_position h + 1) mod 2 ^ 32)).
(** walk.rs:994-1023.  [walk] counts before the nested walker reads; the caller cannot look before that is
    done with, since it borrows the outer one. *)
Definition hand_step (d : nat) (o : hop) (h : hand) : sm (obs * hand) :=
  sm_bind (hop_on d o) (fun x => sm_bind (sm_res (hand_next h)) (fun h' => sm_ret (x, h'))).
Fixpoint hand_run (d : nat) (ops : list hop) (h : hand) : sm (list obs * hand) :=
  match ops with
  | [] => sm_ret ([], h)
  | o :: ops' => sm_bind (hand_step d o h) (fun p => sm_bind (hand_run d ops' (snd p)) (fun q => sm_ret (fst p :: fst q, snd q)))
  end.
(** A caller that reads the revision, makes a StructWalker (walk.rs:961-971), and goes on with calls it chooses
    by the revision. *)
Definition struct_by_hand (d : nat) (choose : N -> list hop) : sm (list obs * hand) :=
  sm_bind (sr_run (de_u16 (e_fw E))) (fun rev => hand_run d (choose rev) (mkHand rev 0)).
(** walk.rs:1071-1083 [EnumWalker::new], 1124-1131 [read_enum_discriminant]. *)
Definition enum_walker (rev : N) : sm (N * N) := sm_bind (sr_run (de_u32 (e_fw E))) (fun k => sm_ret (rev, k)).
(** The payload of a variant: [decode], [skip], [into_walk] for one field (walk.rs:1097-1114); for more,
    [into_reader] and a StructWalker. *)
Definition enum_by_hand (d : nat) (choose : N -> N -> list hop) : sm (N * N * list obs) :=
  sm_bind (sr_run (de_u16 (e_fw E))) (fun rev =>
  sm_bind (enum_walker rev) (fun w =>
  sm_bind (hand_run d (choose (fst w) (snd w)) (mkHand (fst w) 0)) (fun q => sm_ret (w, fst q)))).
End Hand.
