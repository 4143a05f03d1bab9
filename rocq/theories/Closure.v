(** Lookups with a comparison that has a state of its own: src/optimised/indexed/map_walk.rs:290-419.  Model part.

    The methods take an [F: FnMut(&[u8]) -> Ordering].  What such a closure answers may depend on everything it was
    shown before; the functions below are those of IdxWalk.v for such closures and also return the keys shown. *)

From Verif Require Import Base Ty IdxWalk.
From Coq Require Import List NArith Bool.
Import ListNotations.
Open Scope N_scope.

(** The answer to a key, after the keys of the list (the latest first). *)
Definition closure := list bytes -> bytes -> comparison.

(** map_walk.rs:376-419 [binary_search_entry]; see [bsearch]. *)
Fixpoint bsearch_mut (fuel : nat) (p : mapp) (n lo hi : N) (pred : closure) (shown : list bytes)
    : res (option (bytes * N)) * list bytes :=
  if lo <? hi then
    match fuel with
    | O => (Panic PAssert, shown)
    | S fuel' =>
        let mid := lo + (hi - lo) / 2 in
        if n <=? mid then (Panic PUnwrap, shown)
        else
          match entry_ranges p n mid with
          | Ok r =>
              match get (mp_keys p) (fst (fst r)) (snd (fst r)) with
              | None => (Err (EOffsetRange (snd (fst r) mod 2 ^ 32) (len (mp_keys p) mod 2 ^ 32)), shown)
              | Some key =>
                  match pred shown key with
                  | Eq =>
                      match get (mp_vals p) (fst (snd r)) (snd (snd r)) with
                      | None => (Err (EOffsetRange (snd (snd r) mod 2 ^ 32) (len (mp_vals p) mod 2 ^ 32)), key :: shown)
                      | Some value => (Ok (Some (value, mid mod 2 ^ 32)), key :: shown)
                      end
                  | Lt => bsearch_mut fuel' p n (mid + 1) hi pred (key :: shown)
                  | Gt => bsearch_mut fuel' p n lo mid pred (key :: shown)
                  end
              end
          | Err e => (Err e, shown)
          | Panic x => (Panic x, shown)
          end
    end
  else (Ok None, shown).
(** map_walk.rs:292-300. *)
Definition find_mut (w : mapw) (pred : closure) : res (option bytes) * list bytes :=
  match mw_pro w with
  | None => (Err (EDeserialize MNotIndexed), [])
  | Some p => let (r, shown) := bsearch_mut (N.to_nat (mw_len w)) p (mw_len w) 0 (mw_len w) pred [] in
              (rmap (option_map fst) r, shown)
  end.
(** map_walk.rs:328-370. *)
Definition probe_mut (p : mapp) (n h : N) (pred : closure) : res (option bytes) * list bytes :=
  if n <=? h then (Ok None, [])
  else match entry_ranges p n h with
       | Ok r => match get (mp_keys p) (fst (fst r)) (snd (fst r)) with
                 | None => (Ok None, [])
                 | Some key => (match pred [] key with
                                | Eq => Ok (get (mp_vals p) (fst (snd r)) (snd (snd r)))
                                | _ => Ok None
                                end, [key])
                 end
       | Err e => (Err e, [])
       | Panic x => (Panic x, [])
       end.
Definition find_hint_mut (w : mapw) (hint : option N) (pred : closure) : res (option bytes * option N) * list bytes :=
  match mw_pro w with
  | None => (Err (EDeserialize MNotIndexed), [])
  | Some p =>
      match (match hint with Some h => probe_mut p (mw_len w) h pred | None => (Ok None, []) end) with
      | (Ok (Some value), shown) => (Ok (Some value, hint), shown)
      | (Ok None, shown) =>
          let (r, shown') := bsearch_mut (N.to_nat (mw_len w)) p (mw_len w) 0 (mw_len w) pred shown in
          (rmap (fun r => match r with Some (value, i) => (Some value, Some i) | None => (None, hint) end) r, shown')
      | (Err e, shown) => (Err e, shown)
      | (Panic x, shown) => (Panic x, shown)
      end
  end.
