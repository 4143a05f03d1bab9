(** Runtime walkers: src/walk.rs and src/implementations/walk.rs.  Model part.  The reader is a
    [SliceReader]; [&[u8]] behaves the same on the unread bytes (C42). *)

From Verif Require Import Base Prog Prim Tag Ty Ser De SliceReader Skip SkipIdx.
From Coq Require Import List NArith ZArith Bool.
Import ListNotations.
Open Scope N_scope.

Section Walk.
Variable E : env.

(** walk.rs:127-148: the types marked [LengthPrefixedBytes]. *)
Fixpoint length_prefixed (t : ty) : bool :=
  match t with
  | TStr | TPath | TBytes => true
  | TVec (TInt U8) | TVec (TInt I8) => true
  | TWrap t' => length_prefixed t'
  | _ => false
  end.
(** walk.rs:165-177 [with_length_prefixed_bytes]; the closure returns the bytes. *)
Definition with_bytes : sm bytes :=
  sm_bind (sr_run (de_len E)) (fun n =>
  sm_bind (fun s => rmap (fun x => (x, s)) (sr_peek n s)) (fun x =>
  sm_bind (sm_op (sr_advance n)) (fun _ => sm_ret x))).

(** implementations/walk.rs:26-45 [vec_uses_bulk_encoding], a list of its own. *)
Definition vec_uses_bulk (t : ty) : bool :=
  e_spec E &&
  match t with
  | TBool | TF32 | TF64 | TUuid | TDecimal => true
  | TInt Usize | TInt Isize => false
  | TInt _ => true
  | _ => false
  end.

(** What a caller does with a walker, one constructor per method, in the order of the calls:
    - [Decode], [Skip], [Bytes] ([with_bytes]), [Walk]: LeafWalker (walk.rs:187-268), SeqItem
      (520-585), keys and values of a MapEntry (786-935), fields of a struct;
    - [Case w0 w1]: look at [is_some] / [is_ok] first and go on with one of two;
    - [Into k]: [into_some] (1), [into_ok] (0), [into_err] (1);
    - [Item a w]: [next_item], [a] on the item, then [w] on the walker; [Entry a b w]: the same for
      the key and the value of [next_entry];
    - [Rest]: [skip_remaining]; for a struct walker [skip_<field>] for each field left;
    - [Field a w]: the methods of the next field; [View]: [walk_<field>] of an [indexed_*] field;
    - [Is k w0 w1]: [is_<variant>] of the variant named [k], then one of two; [IntoVar], [DecodeVar],
      [ViewVar]: [into_<variant>], [decode_<variant>], [<variant>_view].
    A script that Rust's type checker would refuse ends in [Panic PType]. *)
Inductive act :=
| Decode | Skip | Bytes
| Walk (w : act)
| Case (w0 w1 : act)
| Into (k : N) (w : act)
| Item (a w : act)
| Entry (a b w : act)
| Rest
| Field (a w : act) | View
| Is (k : N) (w0 w1 : act) | IntoVar (k : N) (w : act) | DecodeVar (k : N) | ViewVar (k : N).

(** What the caller sees. *)
Inductive obs :=
| ODone
| OVal (v : val)
| OBytes (b : bytes)
| OEnd                      (* [next_item] / [next_entry] returned None, no field left *)
| OCons (a b : obs).

(** derive expand/walk.rs:348-392, 395-434: the representations of the walkers of derived types.  The
    reader is the state of the [sm] monad. *)
Inductive srepr :=
| SWire (rev : N)
| SIndexed (payload : bytes) (fc : N)
| SOwned (buf : bytes) (cursor : N).
Inductive erepr :=
| EWire (rev disc : N)
| EBorrowed (payload : bytes) (disc : N)
| EOwned (buf : bytes) (cursor disc : N).

(** A walker, or a position where one can be opened ([CPos]: LeafWalker, SeqItem, ...).  [CStruct]: the
    fields not yet handled and the index of the first one. *)
Inductive ctx :=
| CPos (t : ty)
| COpt (t : ty) (tag : N)
| CRes (a b : ty) (tag : N)
| CSeq (t : ty) (n : N)
| CMap (a b : ty) (n : N)
| CStruct (r : srepr) (i : N) (fs : list field)
| CEnum (r : erepr) (s : schema) (vs : list variant).

Definition sm_map {A B} (f : A -> B) (m : sm A) : sm B := sm_bind m (fun a => sm_ret (f a)).
Definition sm_res {A} (r : res A) : sm A := fun s => rmap (fun a => (a, s)) r.
(** [remaining()] before and after: the bytes a call consumed (walk.rs:652-700, 970-1005). *)
Definition sm_consumed (m : sm unit) : sm bytes :=
  fun s => match m s with
           | Ok (_, s') => if len (sr_inner s) <? len (sr_inner s') then Err EBorrowedContract
                           else Ok (firstn (N.to_nat (len (sr_inner s) - len (sr_inner s'))) (sr_inner s), s')
           | Err e => Err e
           | Panic p => Panic p
           end.
(** A decoder run on a separate slice, from [cursor] on; the cursor afterwards. *)
Definition on_slice {A} (p : prog A) (buf : bytes) (cursor : N) : sm (A * N) :=
  match split_at cursor buf with
  | Some (_, y) => sm_res (rmap (fun r => (fst r, len buf - len (snd r))) (run p y))
  | None => sm_panic PSlice
  end.
Definition slice_of (b : bytes) (x y : N) : res bytes :=
  if (x <=? y) && (y <=? len b) then Ok (firstn (N.to_nat (y - x)) (skipn (N.to_nat x) b)) else Panic PSlice.
(** walk.rs:1037-1055, 614-634: field [i] of an indexed struct, unchecked indexing. *)
Definition indexed_field (b : bytes) (fc i : N) : res bytes :=
  rbind (slice_of b (i * 4) (i * 4 + 4)) (fun x =>
  rbind (if i + 1 <? fc then rmap le_val (slice_of b (i * 4 + 4) (i * 4 + 8)) else Ok (len b)) (fun y =>
  slice_of b (le_val x) y)).
(** walk.rs:931-968: the same in [into_<field>_bytes], with checks. *)
Definition indexed_field_checked (b : bytes) (fc i : N) : res bytes :=
  if len b <? i * 4 + (if i + 1 <? fc then 8 else 4) then Err (EDeserialize (MOther 10))
  else rbind (slice_of b (i * 4) (i * 4 + 4)) (fun x =>
       rbind (if i + 1 <? fc then rmap le_val (slice_of b (i * 4 + 4) (i * 4 + 8)) else Ok (len b)) (fun y =>
       if (y <? le_val x) || (len b <? y) then Err (EDeserialize (MOther 11)) else slice_of b (le_val x) y)).

(** expand/common.rs:17-46 [HasConvertFn]; [end] requires a [convert_fn] (attributes.rs:329-336,
    822-829). *)
Definition ended {A} (e : option A) : bool := match e with Some _ => true | None => false end.
Definition has_convert (s : schema) : bool :=
  s_conv s ||
  match s_body s with
  | SStruct fs => existsb (fun f => ended (f_end f)) fs
  | SEnum vs => existsb (fun v => ended (v_end v) || existsb (fun f => ended (f_end f)) (v_fields v)) vs
  end.

(** walk.rs:1652-1690: the table of size classes, by variant id; 0xFF is [None]. *)
Definition class_at (ds : list (variant * N)) (id : N) : option sclass :=
  match find (fun p => snd p =? id) ds with
  | Some (v, _) => match v_size v with Some z => Some (class_of z) | None => None end
  | None => None
  end.

(** Stack available for encoding, and for decoding from the buffers of [SOwned] and [EOwned]. *)
Variable D : nat.

(** walk.rs:104-155: older revision of a type with [convert_fn]: decode, encode again, read the u16.  The
    buffer is a Vec, which cannot outgrow the address space. *)
Definition materialise (d : nat) (s : schema) (rev : N) : sm (bytes * N) :=
  sm_bind (sr_run (de_body E (de_ref E d) s rev)) (fun v =>
  sm_bind (sm_res (ser_bytes (ser_derived E (ser_ref E D) s v))) (fun buf =>
  if len buf <? 2 ^ e_ub E then sm_bind (on_slice (de_u16 (e_fw E)) buf 0) (fun p => sm_ret (buf, snd p))
  else sm_panic PMem)).

(** walk.rs:311-330 and the parts above it. *)
Definition enter_struct (d : nat) (s : schema) (fs : list field) (rev : N) : sm ctx :=
  let alive := filter (falive (scur s)) fs in
  if has_convert s && negb (rev =? scur s) then
    sm_bind (materialise d s rev) (fun p => sm_ret (CStruct (SOwned (fst p) (snd p)) 0 alive))
  else match sent s rev with
       | Some h =>
           if h_opt h then
             if h_idx h then
               sm_bind (sr_run read_varlen_len) (fun n =>
               sm_bind (sm_op (sr_borrow n)) (fun p => sm_ret (CStruct (SIndexed p (len alive)) 0 alive)))
             else sm_bind (sr_run read_varlen_len) (fun _ => sm_ret (CStruct (SWire rev) 0 alive))
           else sm_ret (CStruct (SWire rev) 0 alive)
       | None => sm_err (EDeserialize MInvalidRevision)
       end.
Definition enter_enum (d : nat) (s : schema) (vs : list variant) (rev : N) : sm ctx :=
  if has_convert s && negb (rev =? scur s) then
    sm_bind (materialise d s rev) (fun p =>
    sm_bind (on_slice (de_u32 (e_fw E)) (fst p) (snd p)) (fun q =>
    sm_ret (CEnum (EOwned (fst p) (snd q) (fst q)) s vs)))
  else match sent s rev with
       | Some h =>
           if h_opt h then
             match calc_disc rev vs with
             | None => sm_panic PType
             | Some ds =>
                 sm_bind (sr_run read_tag) (fun tag =>
                 sm_bind (sm_res (size_class tag)) (fun c =>
                 match class_at ds (variant_id tag) with
                 | Some c' =>
                     if sclass_eqb c c' then
                       sm_bind (match c with
                                | CInline => sm_ret []
                                | CFixed => match nth_error (size_table ds) (N.to_nat (variant_id tag)) with
                                            | Some n => sm_op (sr_borrow n)
                                            | None => sm_panic PSlice
                                            end
                                | CVarlen => sm_bind (sr_run read_varlen_len) (fun n => sm_op (sr_borrow n))
                                end)
                               (fun p => sm_ret (CEnum (EBorrowed p (variant_id tag)) s vs))
                     else sm_err (EDeserialize MUnknownVariant)
                 | None => sm_err (EDeserialize MUnknownVariant)
                 end))
             end
           else sm_bind (sr_run (de_u32 (e_fw E))) (fun k => sm_ret (CEnum (EWire rev k) s vs))
       | None => sm_err (EDeserialize MInvalidRevision)
       end.
Definition enter_derived (d : nat) (s : schema) : sm ctx :=
  sm_bind (sr_run (de_u16 (e_fw E))) (fun rev =>
  if (rev =? 0) || (scur s <? rev) then sm_err (EDeserialize MInvalidRevision)
  else match s_body s with
       | SStruct fs => enter_struct d s fs rev
       | SEnum vs => enter_enum d s vs rev
       end).

(** [T::walk_revisioned]: the walker, and the stack left for the types inside of it.  The walker of a
    [Cow] is a LeafWalker over the owned type, so there it takes one [Walk] more than here. *)
Fixpoint enter (d : nat) (t : ty) : sm (nat * ctx) :=
  match t with
  (* walk.rs:283-297 *)
  | TOption t' =>
      sm_bind (sr_run read_byte) (fun tag =>
      if (tag =? 0) || (tag =? 1) then sm_ret (d, COpt t' tag) else sm_err (EDeserialize MBadOption))
  (* walk.rs:363-377 *)
  | TResult a b =>
      sm_bind (sr_run (de_u32 (e_fw E))) (fun tag =>
      if (tag =? 0) || (tag =? 1) then sm_ret (d, CRes a b tag) else sm_err (EDeserialize MUnknownVariant))
  (* implementations/walk.rs:235-255 *)
  | TVec t' => if vec_uses_bulk t' then sm_err (EDeserialize MBulkVec)
               else sm_bind (sr_run (de_len E)) (fun n => sm_ret (d, CSeq t' n))
  (* walk.rs:472-481, 612-622 *)
  | TImVec t' | TSet _ t' | THeap t' => sm_bind (sr_run (de_len E)) (fun n => sm_ret (d, CSeq t' n))
  | TMap _ a b => sm_bind (sr_run (de_len E)) (fun n => sm_ret (d, CMap a b n))
  (* implementations/walk.rs:340-408 *)
  | TWrap t' => enter d t'
  (* NotNan: the walker of the float; the others are leaves *)
  | TExt _ false TF32 => sm_ret (d, CPos TF32)
  | TExt _ false TF64 => sm_ret (d, CPos TF64)
  | TRef n =>
      match d with
      | O => sm_panic PStack
      | S d' => match e_sch E n with
                | Some s => sm_map (fun c => (d', c)) (enter_derived d' s)
                | None => sm_panic PType
                end
      end
  | _ => sm_ret (d, CPos t)
  end.

(** Skip of an [indexed_*] field: SkipIdx.v. *)
Definition skip_idx (d : nat) (t : ty) : sm unit :=
  match t with
  | TMap _ a b => skip_indexed_map E d a b
  | TVec a | TImVec a | TSet _ a => skip_indexed_seq E d a
  | _ => sm_panic PType
  end.
Definition is_idx (f : field) : bool := match f_idx f with INone => false | _ => true end.

(** The methods of the next field, by representation: walk.rs:448-1151.  Results: what the caller sees, and
    the representation afterwards.  [Walk] is in [act_on]. *)
Definition field_decode (d : nat) (r : srepr) (i : N) (f : field) : sm (obs * srepr) :=
  match r with
  (* 1026-1032, 493-526: [indexed_*] through its decoder, anything else through the trait *)
  | SWire rev =>
      if f_start f <=? rev then
        sm_map (fun v => (OVal v, r)) (sr_run (de_mode E (de_ref E d) (mode_opt f) (f_ty f)))
      else sm_map (fun v => (OVal v, r)) (sm_res (f_default f rev))
  (* 1033-1060: always through the trait *)
  | SIndexed b fc =>
      sm_bind (sm_res (indexed_field b fc i)) (fun x =>
      sm_map (fun p => (OVal (fst p), r)) (on_slice (deserialize E d (f_ty f)) x 0))
  (* 1061-1069 *)
  | SOwned b c => sm_map (fun p => (OVal (fst p), SOwned b (snd p))) (on_slice (deserialize E D (f_ty f)) b c)
  end.
Definition wire_skip (d : nat) (f : field) : sm unit :=
  if is_idx f then skip_idx d (f_ty f) else sr_run (skip E d (f_ty f)).
Definition field_skip (d : nat) (r : srepr) (f : field) : sm (obs * srepr) :=
  match r with
  | SWire rev => if f_start f <=? rev then sm_map (fun _ => (ODone, r)) (wire_skip d f) else sm_ret (ODone, r)
  | SIndexed _ _ => sm_ret (ODone, r)
  | SOwned b c => sm_map (fun p => (ODone, SOwned b (snd p))) (on_slice (skip E D (f_ty f)) b c)
  end.
(** [walk_<field>] of an [indexed_*] field: the bytes of the view; 614-700, 704-870.  On the wire the
    revision is not looked at. *)
Definition ser_idx (t : ty) (f : field) (v : val) : res bytes :=
  ser_bytes (ser_mode E (ser_ref E D) (mode_opt f) t v).
Definition field_view (d : nat) (r : srepr) (i : N) (f : field) : sm (obs * srepr) :=
  match r with
  | SWire _ => sm_map (fun b => (OBytes b, r)) (sm_consumed (skip_idx d (f_ty f)))
  | SIndexed b fc => sm_map (fun x => (OBytes x, r)) (sm_res (indexed_field b fc i))
  | SOwned b c =>
      sm_bind (on_slice (deserialize E D (f_ty f)) b c) (fun p =>
      sm_map (fun x => (OBytes x, SOwned b (snd p))) (sm_res (ser_idx (f_ty f) f (fst p))))
  end.
(** 930-1022. *)
Definition field_bytes (d : nat) (r : srepr) (i : N) (f : field) : sm obs :=
  match r with
  | SWire rev => if f_start f <=? rev then sm_map OBytes (sm_consumed (wire_skip d f)) else sm_err (EConversion (MOther 1))
  | SIndexed b fc => sm_map OBytes (sm_res (indexed_field_checked b fc i))
  | SOwned b c =>
      sm_bind (on_slice (deserialize E D (f_ty f)) b c) (fun p =>
      sm_map OBytes (sm_res (ser_bytes (ser_ty E (ser_ref E D) (f_ty f) (fst p)))))
  end.

(** walk.rs:1183-1239 [is_<variant>]: on the wire the discriminant of the variant at the wire revision, else
    the one at the current revision. *)
Definition disc_of (vs : list variant) (r k : N) : option N :=
  match calc_disc r vs with
  | Some ds => match find_name k ds with Some (_, x) => Some x | None => None end
  | None => None
  end.
Definition is_variant (r : erepr) (s : schema) (vs : list variant) (k : N) : bool :=
  match r with
  | EWire rev x => match disc_of vs rev k with Some y => x =? y | None => false end
  | EBorrowed _ x | EOwned _ _ x => match disc_of vs (scur s) k with Some y => x =? y | None => false end
  end.
(** The variant, if it is alive at the current revision (otherwise it has no methods), and the fields it has
    there. *)
Definition cur_variant (s : schema) (vs : list variant) (k : N) : option (list field) :=
  match find (fun v => (v_name v =? k) && valive (scur s) v) vs with
  | Some v => Some (filter (falive (scur s)) (v_fields v))
  | None => None
  end.
(** The payload of a variant that is not on the wire. *)
Definition variant_slice (r : erepr) : sm bytes :=
  match r with
  | EWire _ _ => sm_panic PType
  | EBorrowed b _ => sm_ret b
  | EOwned b c _ => match split_at c b with Some (_, y) => sm_ret y | None => sm_panic PSlice end
  end.
Definition slice_depth (d : nat) (r : erepr) : nat := match r with EOwned _ _ _ => D | _ => d end.
(** walk.rs:1336-1360, 1247-1270 [decode_<variant>]: unit variants and tuple variants with one field (a struct
    variant, and a tuple variant whose fields are all gone, has only [<variant>_view]; the model does not
    distinguish them). *)
Definition variant_decode (d : nat) (r : erepr) (s : schema) (vs : list variant) (k : N) : sm obs :=
  match cur_variant s vs k with
  | Some [] => if is_variant r s vs k then sm_ret ODone else sm_err (EDeserialize (MOther 2))
  | Some [f] =>
      if is_variant r s vs k then
        match r with
        | EWire _ _ => sm_map OVal (sr_run (deserialize E d (f_ty f)))
        | _ => sm_bind (variant_slice r) (fun b => sm_map (fun p => OVal (fst p)) (on_slice (deserialize E (slice_depth d r) (f_ty f)) b 0))
        end
      else sm_err (EDeserialize (MOther 2))
  | _ => sm_panic PType
  end.
(** walk.rs:1376-1430, 1435-1490 [<variant>_view]: the bytes of the payload. *)
Definition variant_view (d : nat) (r : erepr) (s : schema) (vs : list variant) (k : N) : sm obs :=
  match cur_variant s vs k with
  | Some [] => sm_panic PType
  | Some [f] =>
      if is_variant r s vs k then
        match r with
        | EWire _ _ => sm_bind (sr_run (deserialize E d (f_ty f))) (fun v =>
                       sm_map OBytes (sm_res (ser_bytes (ser_ty E (ser_ref E D) (f_ty f) v))))
        | _ => sm_map OBytes (variant_slice r)
        end
      else sm_err (EDeserialize (MOther 2))
  | Some _ =>
      if is_variant r s vs k then
        match r with EWire _ _ => sm_err (EConversion (MOther 3)) | _ => sm_map OBytes (variant_slice r) end
      else sm_err (EDeserialize (MOther 2))
  | None => sm_panic PType
  end.

(** Skip of the fields left. *)
Fixpoint skip_fields (d : nat) (r : srepr) (fs : list field) : sm unit :=
  match fs with
  | [] => sm_ret tt
  | f :: fs' => sm_bind (field_skip d r f) (fun p => skip_fields d (snd p) fs')
  end.

(** A script run on a walker. *)
Fixpoint act_on (d : nat) (c : ctx) (a : act) {struct a} : sm obs :=
  match c, a with
  (* walk.rs:203-233, 262-267 *)
  | CPos t, Decode => sm_map OVal (sr_run (deserialize E d t))
  | CPos t, Skip => sm_map (fun _ => ODone) (sr_run (skip E d t))
  | CPos t, Bytes => if length_prefixed t then sm_map OBytes with_bytes else sm_panic PType
  | CPos t, Walk w => sm_bind (enter d t) (fun p => act_on (fst p) (snd p) w)
  (* walk.rs:313-347 *)
  | COpt t tag, Decode =>
      if tag =? 0 then sm_ret (OVal (VVar 0 []))
      else sm_map (fun x => OVal (VVar 1 [x])) (sr_run (deserialize E d t))
  | COpt t tag, Skip =>
      if tag =? 1 then sm_map (fun _ => ODone) (sr_run (skip E d t)) else sm_ret ODone
  | COpt t tag, Case w0 w1 => act_on d c (if tag =? 0 then w0 else w1)
  | COpt t tag, Into 1 w =>
      if tag =? 0 then sm_err (EDeserialize (MOther 4))
      else sm_bind (enter d t) (fun p => act_on (fst p) (snd p) w)
  (* walk.rs:390-443 *)
  | CRes t t' tag, Decode =>
      if tag =? 0 then sm_map (fun x => OVal (VVar 0 [x])) (sr_run (deserialize E d t))
      else sm_map (fun x => OVal (VVar 1 [x])) (sr_run (deserialize E d t'))
  | CRes t t' tag, Skip =>
      sm_map (fun _ => ODone) (sr_run (skip E d (if tag =? 0 then t else t')))
  | CRes t t' tag, Case w0 w1 => act_on d c (if tag =? 0 then w0 else w1)
  | CRes t t' tag, Into 0 w =>
      if tag =? 0 then sm_bind (enter d t) (fun p => act_on (fst p) (snd p) w)
      else sm_err (EDeserialize (MOther 5))
  | CRes t t' tag, Into 1 w =>
      if tag =? 0 then sm_err (EDeserialize (MOther 6))
      else sm_bind (enter d t') (fun p => act_on (fst p) (snd p) w)
  (* walk.rs:492-517, 525-585 *)
  | CSeq t n, Item x w =>
      if n =? 0 then sm_ret OEnd
      else sm_bind (act_on d (CPos t) x) (fun o => sm_map (OCons o) (act_on d (CSeq t (n - 1)) w))
  | CSeq t n, Rest => sm_map (fun _ => ODone) (sm_rep (N.to_nat n) (sr_run (skip E d t)))
  (* walk.rs:631-657, 806-900, 905-935 *)
  | CMap t t' n, Entry x y w =>
      if n =? 0 then sm_ret OEnd
      else match x with
           | Walk _ => sm_panic PType
           | _ => sm_bind (act_on d (CPos t) x) (fun o =>
                  sm_bind (act_on d (CPos t') y) (fun o' =>
                  sm_map (OCons (OCons o o')) (act_on d (CMap t t' (n - 1)) w)))
           end
  | CMap t t' n, Rest =>
      sm_map (fun _ => ODone)
        (sm_rep (N.to_nat n) (sm_bind (sr_run (skip E d t)) (fun _ => sr_run (skip E d t'))))
  | CStruct r i (f :: fs), Field x w =>
      match x with
      | Decode => sm_bind (field_decode d r i f) (fun p =>
                  sm_map (OCons (fst p)) (act_on d (CStruct (snd p) (i + 1) fs) w))
      | Skip => sm_bind (field_skip d r f) (fun p =>
                sm_map (OCons (fst p)) (act_on d (CStruct (snd p) (i + 1) fs) w))
      | View => if is_idx f then sm_bind (field_view d r i f) (fun p =>
                                 sm_map (OCons (fst p)) (act_on d (CStruct (snd p) (i + 1) fs) w))
                else sm_panic PType
      | Walk x' =>
          if is_idx f then sm_panic PType
          else match r with
               | SWire rev =>
                   if f_start f <=? rev then
                     sm_bind (enter d (f_ty f)) (fun p =>
                     sm_bind (act_on (fst p) (snd p) x') (fun o =>
                     sm_map (OCons o) (act_on d (CStruct r (i + 1) fs) w)))
                   else sm_err (EConversion (MOther 1))
               | _ => sm_err (EConversion (MOther 7))
               end
      | _ => sm_panic PType
      end
  | CStruct r i [], Field _ _ => sm_ret OEnd
  | CStruct r i fs, Rest => sm_map (fun _ => ODone) (skip_fields d r fs)
  | CEnum r s vs, Is k w0 w1 =>
      match cur_variant s vs k with
      | Some _ => act_on d c (if is_variant r s vs k then w0 else w1)
      | None => sm_panic PType
      end
  | CEnum r s vs, DecodeVar k => variant_decode d r s vs k
  | CEnum r s vs, ViewVar k => variant_view d r s vs k
  (* walk.rs:1300-1334 *)
  | CEnum r s vs, IntoVar k w =>
      match cur_variant s vs k with
      | Some [f] =>
          if is_variant r s vs k then
            match r with
            | EWire _ _ => sm_bind (enter d (f_ty f)) (fun p => act_on (fst p) (snd p) w)
            | _ => sm_err (EConversion (MOther 8))
            end
          else sm_err (EDeserialize (MOther 2))
      | _ => sm_panic PType
      end
  | _, _ => sm_panic PType
  end.

(** [into_<field>_bytes], after some fields have been decoded ([true]) or skipped; it ends the walk. *)
Fixpoint into_bytes_after (d : nat) (r : srepr) (i : N) (fs : list field) (cs : list bool) : sm obs :=
  match fs, cs with
  | f :: _, [] => field_bytes d r i f
  | f :: fs', c :: cs' =>
      sm_bind (if c then field_decode d r i f else field_skip d r f) (fun p => into_bytes_after d (snd p) (i + 1) fs' cs')
  | [], _ => sm_panic PType
  end.
Definition walk_into_bytes (d : nat) (t : ty) (cs : list bool) : sm obs :=
  sm_bind (enter d t) (fun p =>
  match snd p with CStruct r i fs => into_bytes_after (fst p) r i fs cs | _ => sm_panic PType end).

(** walk.rs:683-712 [find]: true when a matching key was read and the reader is at its value. *)
Fixpoint find_loop (d : nat) (a b : ty) (p : val -> comparison) (n : nat) : sm bool :=
  match n with
  | O => sm_ret false
  | S n' =>
      sm_bind (sr_run (deserialize E d a)) (fun k =>
      match p k with
      | Lt => sm_bind (sr_run (skip E d b)) (fun _ => find_loop d a b p n')
      | Eq => sm_ret true
      | Gt => sm_bind (sr_run (skip E d b)) (fun _ =>
              sm_bind (sm_rep n' (sm_bind (sr_run (skip E d a)) (fun _ => sr_run (skip E d b)))) (fun _ => sm_ret false))
      end)
  end.
(** walk.rs:741-773 [find_bytes]. *)
Fixpoint find_bytes_loop (d : nat) (a b : ty) (p : bytes -> comparison) (n : nat) : sm bool :=
  match n with
  | O => sm_ret false
  | S n' =>
      sm_bind (sr_run (de_len E)) (fun m =>
      sm_bind (fun s => rmap (fun x => (x, s)) (sr_peek m s)) (fun x =>
      sm_bind (sm_op (sr_advance m)) (fun _ =>
      match p x with
      | Lt => sm_bind (sr_run (skip E d b)) (fun _ => find_bytes_loop d a b p n')
      | Eq => sm_ret true
      | Gt => sm_bind (sr_run (skip E d b)) (fun _ =>
              sm_bind (sm_rep n' (sm_bind (sr_run (skip E d a)) (fun _ => sr_run (skip E d b)))) (fun _ => sm_ret false))
      end)))
  end.
(** [Map::walk_revisioned], then [find] / [find_bytes], then a script on the handle. *)
Definition map_find (d : nat) (a b : ty) (p : val -> comparison) (w : act) : sm (option obs) :=
  sm_bind (sr_run (de_len E)) (fun n =>
  sm_bind (find_loop d a b p (N.to_nat n)) (fun hit =>
  if hit then sm_map Some (act_on d (CPos b) w) else sm_ret None)).
Definition map_find_bytes (d : nat) (a b : ty) (p : bytes -> comparison) (w : act) : sm (option obs) :=
  sm_bind (sr_run (de_len E)) (fun n =>
  sm_bind (find_bytes_loop d a b p (N.to_nat n)) (fun hit =>
  if hit then sm_map Some (act_on d (CPos b) w) else sm_ret None)).
End Walk.

(** A script on a fresh walker. *)
Definition walk_with (E : env) (D d : nat) (t : ty) (a : act) : sm obs :=
  sm_bind (enter E D d t) (fun p => act_on E D (fst p) (snd p) a).

(** walk.rs:593-659, 786-935: [MapWalker] and [MapEntry] as objects, call by call.  [ms_entry]: the entry the
    caller holds, and whether its key has been handled.  [WalkValue w]: [walk_value], then the script [w].  The
    calls that consume the entry take it from the caller whether they succeed or not.  A session is not followed
    past a call that failed after it had read something.  A call on an entry the caller does not hold does not
    compile: [Panic PType]. *)
Inductive mop := Remaining | NextEntry | DecodeKey | SkipKey | KeyBytes | DecodeValue | SkipValue | ValueBytes | WalkValue (w : act).
Inductive mside := OnWalker | OnKey (a : act) | OnValue (a : act).
Definition side (o : mop) : mside :=
  match o with
  | Remaining | NextEntry => OnWalker
  | DecodeKey => OnKey Decode | SkipKey => OnKey Skip | KeyBytes => OnKey Bytes
  | DecodeValue => OnValue Decode | SkipValue => OnValue Skip | ValueBytes => OnValue Bytes
  | WalkValue w => OnValue (Walk w)
  end.
Record msession := mkMS { ms_reader : sreader; ms_remaining : N; ms_entry : option bool }.
Section Session.
Variables (E : env) (D d : nat) (a b : ty).
Definition after {A} (m : sm A) (s : sreader) (f : sreader -> msession) : res A * option msession :=
  match m s with
  | Ok (x, s') => (Ok x, Some (f s'))
  | Err e => (Err e, None)
  | Panic p => (Panic p, None)
  end.
Definition ms_step (o : mop) (m : msession) : res obs * option msession :=
  let r := ms_reader m in let n := ms_remaining m in
  match side o, ms_entry m with
  | OnWalker, _ =>
      match o with
      | NextEntry => if n =? 0 then (Ok OEnd, Some (mkMS r n None)) else (Ok ODone, Some (mkMS r n (Some false)))
      | _ => (Ok (OVal (VInt (Z.of_N n))), Some (mkMS r n None))
      end
  | _, None => (Panic PType, None)
  | OnKey x, Some false => after (act_on E D d (CPos a) x) r (fun r' => mkMS r' n (Some true))
  | OnKey _, Some true => (Err (EDeserialize (MOther 9)), Some m)
  | OnValue x, Some true =>
      if n =? 0 then (Panic POverflow, None) else after (act_on E D d (CPos b) x) r (fun r' => mkMS r' (n - 1) None)
  | OnValue _, Some false => (Err (EDeserialize (MOther 9)), Some (mkMS r n None))
  end.
Fixpoint ms_run (ops : list mop) (m : msession) : list (res obs) * option msession :=
  match ops with
  | [] => ([], Some m)
  | o :: ops' =>
      match ms_step o m with
      | (x, Some m') => let (xs, m'') := ms_run ops' m' in (x :: xs, m'')
      | (x, None) => ([x], None)
      end
  end.
(** [Map::walk_revisioned] and the calls. *)
Definition map_session (ops : list mop) (s : sreader) : res (list (res obs) * option msession) :=
  rmap (fun p => ms_run ops (mkMS (snd p) (fst p) None)) (sr_run (de_len E) s).
End Session.
