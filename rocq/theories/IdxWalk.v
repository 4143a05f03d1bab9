(** Random access into indexed encodings: src/optimised/validation.rs,
    src/optimised/indexed/{seq_walk,map_walk,struct_walk}.rs.  Model part. *)

From Verif Require Import Base Ty Ser De.
From Coq Require Import List NArith Bool.
Import ListNotations.
Open Scope N_scope.

(** [b.get(s..e)] (std). *)
Definition get (b : bytes) (s e : N) : option bytes :=
  if (s <=? e) && (e <=? len b) then Some (firstn (N.to_nat (e - s)) (skipn (N.to_nat s) b)) else None.
(** [&b[s..e]] (std). *)
Definition at_range (b : bytes) (s e : N) : res bytes :=
  match get b s e with Some x => Ok x | None => Panic PSlice end.
(** validation.rs:19-26 [decode_u32_le_at]. *)
Definition u32_at (b : bytes) (o : N) : res N := rmap le_val (at_range b o (o + 4)).

Section IdxWalk.
Variable E : env.

(** [a + b] on [usize]. *)
Definition uadd (a b : N) : res N :=
  if a + b <? 2 ^ e_ub E then Ok (a + b)
  else if e_dbg E then Panic POverflow else Ok ((a + b) mod 2 ^ e_ub E).

(** seq_walk.rs:181-210 = map_walk.rs:432-461: the value and the number of bytes read. *)
Definition varint_at (b : bytes) : res (N * N) :=
  match b with
  | [] => Err ESubReaderOverrun
  | t :: r =>
      if t <=? 250 then Ok (t, 1)
      else if t =? 251 then
        if len b <? 3 then Err ESubReaderOverrun else Ok (le_val (firstn 2 r), 3)
      else if t =? 252 then
        if len b <? 5 then Err ESubReaderOverrun else Ok (le_val (firstn 4 r), 5)
      else if t =? 253 then
        if len b <? 9 then Err ESubReaderOverrun
        else if le_val (firstn 8 r) <? 2 ^ e_ub E then Ok (le_val (firstn 8 r), 9) else Err EOverflow
      else Err EInvalidInt
  end.

(** validation.rs:37-60 [validate_struct_prologue]; [n] iterations left, the next one is [i]. *)
Fixpoint prologue_loop (n : nat) (i : N) (offs : bytes) (stride plen : N) (last : option N) : res unit :=
  match n with
  | O => Ok tt
  | S n' =>
      rbind (u32_at offs (i * stride)) (fun o =>
      if plen <? o then Err (EOffsetRange o plen)
      else if match last with Some prev => o <=? prev | None => false end then Err ENonMonotonic
      else prologue_loop n' (i + 1) offs stride plen (Some o))
  end.
Definition validate_prologue (offs : bytes) (count stride plen : N) : res unit :=
  prologue_loop (N.to_nat count) 0 offs stride plen None.

(** validation.rs:68-85 [validate_map_prologue]. *)
Definition validate_map_prologue (table : bytes) (count klen vlen : N) : res unit :=
  if negb (len table =? N.min (count * 8) (2 ^ e_ub E - 1)) then Err ENonMonotonic
  else rbind (validate_prologue table count 8 klen) (fun _ =>
       rbind (at_range table 4 (len table)) (fun vals => validate_prologue vals count 8 vlen)).

(** [a <= b] on [&[u8]] (std). *)
Definition ble (a b : bytes) : bool := match bcmp a b with Gt => false | _ => true end.
(** validation.rs:94-124 [validate_key_region_ascending]; [n] iterations left, the next one is [i]. *)
Fixpoint ascending_loop (n : nat) (i count : N) (keys table : bytes) (prev_start curr_start : N) : res unit :=
  match n with
  | O => Ok tt
  | S n' =>
      rbind (if i + 1 <? count then u32_at table ((i + 1) * 8) else Ok (len keys)) (fun curr_end =>
      rbind (at_range keys prev_start curr_start) (fun prev =>
      rbind (at_range keys curr_start curr_end) (fun curr =>
      if ble curr prev then Err EKeysNotAscending
      else ascending_loop n' (i + 1) count keys table curr_start curr_end)))
  end.
Definition validate_ascending (keys table : bytes) (count : N) : res unit :=
  if count <? 2 then Ok tt
  else rbind (u32_at table 0) (fun p => rbind (u32_at table 8) (fun c =>
       ascending_loop (N.to_nat (count - 1)) 1 count keys table p c)).

(** ** IndexedSeqWalker: seq_walk.rs:41-49. *)
Record seqw := mkSeqW { sw_body : bytes; sw_offs : option bytes; sw_len : N }.
(** seq_walk.rs:89-126 [from_payload_inner]; [v]: validate ([from_payload], 55-57) or not
    ([from_payload_unvalidated], 85-87). *)
Definition seq_open (v : bool) (b : bytes) : res seqw :=
  match b with
  | [] => Err ESubReaderOverrun
  | flags :: r =>
      rbind (varint_at r) (fun p =>
      let n := fst p in
      let cursor := 1 + snd p in
      if N.land flags FLAG_INDEXED =? 0 then
        rmap (fun body => mkSeqW body None n) (at_range b cursor (len b))
      else if n * 4 <? 2 ^ e_ub E then
        rbind (uadd cursor (n * 4)) (fun past =>
        if len b <? past then Err ESubReaderOverrun
        else
          rbind (at_range b cursor past) (fun offs =>
          rbind (at_range b past (len b)) (fun body =>
          rbind (if v then validate_prologue offs n 4 (len body mod 2 ^ 32) else Ok tt) (fun _ =>
          Ok (mkSeqW body (Some offs) n)))))
      else Err (EDeserialize MLenOverflow))
  end.
(** seq_walk.rs:154-168. *)
Definition element_bytes (w : seqw) (i : N) : res bytes :=
  match sw_offs w with
  | None => Err (EDeserialize MNotIndexed)
  | Some offs =>
      if sw_len w <=? i then Err (EDeserialize (MOther 1))
      else rbind (u32_at offs (i * 4)) (fun s =>
           rbind (if i + 1 <? sw_len w then u32_at offs ((i + 1) * 4) else Ok (len (sw_body w))) (fun e =>
           at_range (sw_body w) s e))
  end.

(** ** IndexedMapWalker: map_walk.rs:42-74. *)
Record mapp := mkMapP { mp_table : bytes; mp_keys : bytes; mp_vals : bytes }.
Record mapw := mkMapW { mw_body : bytes; mw_pro : option mapp; mw_len : N }.
(** map_walk.rs:161-232. *)
Definition map_open (v : bool) (b : bytes) : res mapw :=
  match b with
  | [] => Err ESubReaderOverrun
  | flags :: r =>
      rbind (varint_at r) (fun p =>
      let n := fst p in
      let c1 := 1 + snd p in
      rbind (at_range b c1 (len b)) (fun body =>
      if N.land flags FLAG_INDEXED =? 0 then Ok (mkMapW body None n)
      else if n * 8 <? 2 ^ e_ub E then
        rbind (uadd c1 (n * 8)) (fun c2 =>
        if len b <? c2 then Err ESubReaderOverrun
        else
          rbind (at_range b c1 c2) (fun table =>
          rbind (uadd c2 8) (fun c3 =>
          if len b <? c3 then Err ESubReaderOverrun
          else
            rbind (u32_at b c2) (fun kl =>
            rbind (u32_at b (c2 + 4)) (fun vl =>
            rbind (rbind (uadd c3 kl) (fun c4 => uadd c4 vl)) (fun c5 =>
            if len b <? c5 then Err ESubReaderOverrun
            else
              rbind (uadd c3 kl) (fun c4 =>
              rbind (at_range b c3 c4) (fun keys =>
              rbind (uadd c4 vl) (fun c5 =>
              rbind (at_range b c4 c5) (fun vals =>
              rbind (if v then rbind (validate_map_prologue table n kl vl) (fun _ => validate_ascending keys table n)
                     else Ok tt) (fun _ =>
              Ok (mkMapW body (Some (mkMapP table keys vals)) n)))))))))))) 
      else Err (EDeserialize MLenOverflow)))
  end.

(** map_walk.rs:92-110 [entry_ranges], after the [index >= n] check; 76-89 [key_off], [val_off]. *)
Definition entry_ranges (p : mapp) (n i : N) : res ((N * N) * (N * N)) :=
  rbind (u32_at (mp_table p) (i * 8)) (fun ks =>
  rbind (u32_at (mp_table p) (i * 8 + 4)) (fun vs =>
  if i + 1 <? n then
    rbind (u32_at (mp_table p) ((i + 1) * 8)) (fun ke =>
    rbind (u32_at (mp_table p) ((i + 1) * 8 + 4)) (fun ve => Ok ((ks, ke), (vs, ve))))
  else Ok ((ks, len (mp_keys p)), (vs, len (mp_vals p))))).

(** map_walk.rs:257-288: what the iterator yields; [k] entries remain, the next one is [i]. *)
Definition or_empty (o : option bytes) : bytes := match o with Some x => x | None => [] end.
Fixpoint entries_loop (k : nat) (i n : N) (p : mapp) (ks vs : N) : res (list (bytes * bytes)) :=
  match k with
  | O => Ok []
  | S k' =>
      rbind (if i + 1 <? n then
               rbind (u32_at (mp_table p) ((i + 1) * 8)) (fun ke =>
               rbind (u32_at (mp_table p) ((i + 1) * 8 + 4)) (fun ve => Ok (ke, ve)))
             else Ok (len (mp_keys p), len (mp_vals p))) (fun e =>
      rmap (cons (or_empty (get (mp_keys p) ks (fst e)), or_empty (get (mp_vals p) vs (snd e))))
           (entries_loop k' (i + 1) n p (fst e) (snd e)))
  end.
Definition entries (w : mapw) : option (res (list (bytes * bytes))) :=
  match mw_pro w with
  | None => None
  | Some p => Some
      (if mw_len w =? 0 then entries_loop 0 0 (mw_len w) p 0 0
       else rbind (u32_at (mp_table p) 0) (fun ks => rbind (u32_at (mp_table p) 4) (fun vs =>
            entries_loop (N.to_nat (mw_len w)) 0 (mw_len w) p ks vs)))
  end.

(** map_walk.rs:376-419 [binary_search_entry]; the loop runs while [lo < hi], at most [fuel] times
    ([PAssert] stands for running out of fuel and never happens).  The predicate is a function of
    the key bytes (closures with a state of their own: Closure.v). *)
Fixpoint bsearch (fuel : nat) (p : mapp) (n lo hi : N) (pred : bytes -> comparison) : res (option (bytes * N)) :=
  if lo <? hi then
    match fuel with
    | O => Panic PAssert
    | S fuel' =>
        let mid := lo + (hi - lo) / 2 in
        if n <=? mid then Panic PUnwrap
        else
          rbind (entry_ranges p n mid) (fun r =>
          match get (mp_keys p) (fst (fst r)) (snd (fst r)) with
          | None => Err (EOffsetRange (snd (fst r) mod 2 ^ 32) (len (mp_keys p) mod 2 ^ 32))
          | Some key =>
              match pred key with
              | Eq =>
                  match get (mp_vals p) (fst (snd r)) (snd (snd r)) with
                  | None => Err (EOffsetRange (snd (snd r) mod 2 ^ 32) (len (mp_vals p) mod 2 ^ 32))
                  | Some value => Ok (Some (value, mid mod 2 ^ 32))
                  end
              | Lt => bsearch fuel' p n (mid + 1) hi pred
              | Gt => bsearch fuel' p n lo mid pred
              end
          end)
    end
  else Ok None.
(** map_walk.rs:292-300. *)
Definition find_value_bytes (w : mapw) (pred : bytes -> comparison) : res (option bytes) :=
  match mw_pro w with
  | None => Err (EDeserialize MNotIndexed)
  | Some p => rmap (option_map fst) (bsearch (N.to_nat (mw_len w)) p (mw_len w) 0 (mw_len w) pred)
  end.
(** map_walk.rs:328-370. *)
Definition probe_hint (p : mapp) (n h : N) (pred : bytes -> comparison) : res (option bytes) :=
  if n <=? h then Ok None
  else rbind (entry_ranges p n h) (fun r =>
       match get (mp_keys p) (fst (fst r)) (snd (fst r)) with
       | None => Ok None
       | Some key => match pred key with
                     | Eq => Ok (get (mp_vals p) (fst (snd r)) (snd (snd r)))
                     | _ => Ok None
                     end
       end).
Definition find_value_bytes_with_hint (w : mapw) (hint : option N) (pred : bytes -> comparison)
    : res (option bytes * option N) :=
  match mw_pro w with
  | None => Err (EDeserialize MNotIndexed)
  | Some p =>
      rbind (match hint with Some h => probe_hint p (mw_len w) h pred | None => Ok None end) (fun o =>
      match o with
      | Some value => Ok (Some value, hint)
      | None =>
          rmap (fun r => match r with Some (value, i) => (Some value, Some i) | None => (None, hint) end)
               (bsearch (N.to_nat (mw_len w)) p (mw_len w) 0 (mw_len w) pred)
      end)
  end.

(** ** IndexedStructWalker: struct_walk.rs:55-60, 71-93, 137-150. *)
Record structw := mkStructW { stw_payload : bytes; stw_count : N }.
Definition struct_open (v : bool) (b : bytes) (count : N) : res structw :=
  if len b <? count * 4 then Err ESubReaderOverrun
  else if v then
    rbind (at_range b 0 (count * 4)) (fun t =>
    rbind (validate_prologue t count 4 (len b mod 2 ^ 32)) (fun _ =>
    if 0 <? count then
      rbind (u32_at b 0) (fun first =>
      if first <? count * 4 then Err (EOffsetRange first (count * 4)) else Ok (mkStructW b count))
    else Ok (mkStructW b count)))
  else Ok (mkStructW b count).
(** struct_walk.rs:166-181, 197-201. *)
Definition field_bytes (w : structw) (i : N) : res bytes :=
  if stw_count w <=? i then Err (EDeserialize (MOther 1))
  else rbind (u32_at (stw_payload w) (i * 4)) (fun s =>
       rbind (if i + 1 <? stw_count w then u32_at (stw_payload w) ((i + 1) * 4) else Ok (len (stw_payload w))) (fun e =>
       at_range (stw_payload w) s e)).
End IdxWalk.
