(** The methods of a struct walker, called in any order.  derive expand/walk.rs:448-1151: every method sets [pos], none
    reads it, and nothing makes the caller go through the fields in order. *)

From Verif Require Import Base Prog Ty De SliceReader Skip SkipIdx Walk.
From Coq Require Import List NArith Bool.
Import ListNotations.
Open Scope N_scope.

Section Calls.
Variable E : env.
Variable D : nat.

(** [decode_<field>], [skip_<field>], [walk_<field>] of an [indexed_*] field and of another one (with what is done
    to the child walker), by the position of the field among those of the current revision. *)
Inductive fcall := FDecode (i : nat) | FSkip (i : nat) | FView (i : nat) | FWalk (i : nat) (w : act).

(** walk.rs:1026-1069, 1075-1100, 614-870, 871-905. *)
Definition call (d : nat) (fs : list field) (c : fcall) (r : srepr) : sm (obs * srepr) :=
  match c with
  | FDecode i => match nth_error fs i with Some f => field_decode E D d r (N.of_nat i) f | None => sm_panic PType end
  | FSkip i => match nth_error fs i with Some f => field_skip E D d r f | None => sm_panic PType end
  | FView i => match nth_error fs i with
               | Some f => if is_idx f then field_view E D d r (N.of_nat i) f else sm_panic PType
               | None => sm_panic PType
               end
  | FWalk i w =>
      match nth_error fs i with
      | Some f =>
          if is_idx f then sm_panic PType
          else match r with
               | SWire rev =>
                   if f_start f <=? rev then
                     sm_bind (enter E D d (f_ty f)) (fun p => sm_map (fun o => (o, r)) (act_on E D (fst p) (snd p) w))
                   else sm_err (EConversion (MOther 1))
               | _ => sm_err (EConversion (MOther 7))
               end
      | None => sm_panic PType
      end
  end.
(** A sequence of calls: their results, and the walker and the reader afterwards.  The walker of an indexed struct
    has no state but [pos], so that calls can follow one that failed; for the others the sequence ends there. *)
Fixpoint calls (d : nat) (fs : list field) (cs : list fcall) (r : srepr) (s : sreader) : list (res obs) * option (srepr * sreader) :=
  match cs with
  | [] => ([], Some (r, s))
  | c :: cs' =>
      match call d fs c r s with
      | Ok ((o, r'), s') => let q := calls d fs cs' r' s' in (Ok o :: fst q, snd q)
      | Err e => match r with
                 | SIndexed _ _ => let q := calls d fs cs' r s in (Err e :: fst q, snd q)
                 | _ => ([Err e], None)
                 end
      | Panic p => ([Panic p], None)
      end
  end.
(** [walk_revisioned] of a struct, then the calls. *)
Definition with_calls (d : nat) (t : ty) (cs : list fcall) (s : sreader) : res (list (res obs) * option (srepr * sreader)) :=
  match enter E D d t s with
  | Ok ((d', CStruct r _ fs), s') => Ok (calls d' fs cs r s')
  | Ok _ => Panic PType
  | Err e => Err e
  | Panic p => Panic p
  end.

(** The methods that consume the walker: [into_<field>_bytes], [into_walk_<field>] of an [indexed_*] field and of
    another one.  walk.rs:930-1022 and 560-578, 747-870, 872-890: [into_walk_<field>] does what [walk_<field>] does. *)
Inductive lcall := LBytes (i : nat) | LView (i : nat) | LWalk (i : nat) (w : act).
Definition last_call (d : nat) (fs : list field) (c : lcall) (r : srepr) : sm obs :=
  match c with
  | LBytes i => match nth_error fs i with Some f => field_bytes E D d r (N.of_nat i) f | None => sm_panic PType end
  | LView i => match nth_error fs i with
               | Some f => if is_idx f then sm_map fst (field_view E D d r (N.of_nat i) f) else sm_panic PType
               | None => sm_panic PType
               end
  | LWalk i w =>
      match nth_error fs i with
      | Some f =>
          if is_idx f then sm_panic PType
          else match r with
               | SWire rev =>
                   if f_start f <=? rev then sm_bind (enter E D d (f_ty f)) (fun p => act_on E D (fst p) (snd p) w)
                   else sm_err (EConversion (MOther 1))
               | _ => sm_err (EConversion (MOther 7))
               end
      | None => sm_panic PType
      end
  end.
(** [walk_revisioned], the calls, and the last one if none of them ended the walk: its result and the reader. *)
Definition calls_then (d : nat) (t : ty) (cs : list fcall) (c : lcall) (s : sreader) : res (list (res obs) * option (res (obs * sreader))) :=
  match enter E D d t s with
  | Ok ((d', CStruct r _ fs), s') =>
      let q := calls d' fs cs r s' in
      Ok (fst q, match snd q with Some (r', s'') => Some (last_call d' fs c r' s'') | None => None end)
  | Ok _ => Panic PType
  | Err e => Err e
  | Panic p => Panic p
  end.
End Calls.
