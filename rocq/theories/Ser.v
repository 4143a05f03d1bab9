(** Serialisation: every [SerializeRevisioned] implementation, the indexed encoders and the code
    the derive macro emits.  Model part. *)

From Verif Require Import Base Prog Prim Utf8 Tag Ty.
From Coq Require Import List NArith ZArith Bool.
Import ListNotations.
Open Scope N_scope.

Definition ty_err {A} : res A := Panic PType.

(** One serializer call after the other. *)
Definition sconcat (l : list ser) : ser := fold_right sbind snil l.

(** specialised.rs:238-246: eight bools per byte, [byte |= 1 << i]. *)
Fixpoint byte_of (i : N) (l : list bool) : N :=
  match l with
  | [] => 0
  | b :: l' => N.lor (if b then N.shiftl 1 i else 0) (byte_of (i + 1) l')
  end.
Fixpoint pack (l : list bool) : bytes :=
  match l with
  | [] => []
  | b0 :: b1 :: b2 :: b3 :: b4 :: b5 :: b6 :: b7 :: l' =>
      byte_of 0 [b0; b1; b2; b3; b4; b5; b6; b7] :: pack l'
  | _ => [byte_of 0 l]
  end.

Definition as_bool (v : val) : res bool := match v with VBool b => Ok b | _ => ty_err end.
Definition as_int (v : val) : res Z := match v with VInt z => Ok z | _ => ty_err end.
Definition as_bytes (v : val) : res bytes := match v with VBytes b => Ok b | _ => ty_err end.

(** primitives.rs:35-55 used by serialize.rs:918-931 [write_varint]; the variable width format in
    both feature configurations. *)
Definition write_varint (n : N) : bytes := encode_u64 n.

(** serialize.rs:614-627, 704-710, 242-248: running offsets; [b.len() as u32], [checked_add]. *)
Fixpoint offsets (o : N) (l : list bytes) : option (list N * N) :=
  match l with
  | [] => Some ([], o)
  | b :: l' =>
      let o' := o + len b mod 2 ^ 32 in
      if o' <? 2 ^ 32 then
        match offsets o' l' with
        | Some (t, e) => Some (o :: t, e)
        | None => None
        end
      else None
  end.
Definition le32s (l : list N) : bytes := flat_map (le_bytes 4) l.

(** optimised/indexed/mod.rs:32, serialize.rs FLAG_INDEXED. *)
Definition OFFSET_TABLE_MIN_LEN : N := 8.
Definition FLAG_INDEXED : N := 1.

(** serialize.rs:591-645: [serialize_indexed_entries] after sorting. *)
Definition enc_idx_map (ps : list (bytes * bytes)) : res bytes :=
  let n := len ps in
  if n <? OFFSET_TABLE_MIN_LEN then
    Ok (0 :: write_varint n ++ flat_map (fun p => fst p ++ snd p) ps)
  else
    match offsets 0 (map fst ps), offsets 0 (map snd ps) with
    | Some (ks, ke), Some (vs, ve) =>
        Ok (FLAG_INDEXED :: write_varint n
            ++ flat_map (fun p => le_bytes 4 (fst p) ++ le_bytes 4 (snd p)) (combine ks vs)
            ++ le_bytes 4 ke ++ le_bytes 4 ve
            ++ concat (map fst ps) ++ concat (map snd ps))
    | _, _ => Err (ESerialize MTooLong)
    end.
(** serialize.rs:687-715 [serialize_indexed_seq_iter], 229-252 [serialize_indexed_set_iter] after
    sorting: the same shape. *)
Definition enc_idx_seq (bs : list bytes) : res bytes :=
  let n := len bs in
  if n <? OFFSET_TABLE_MIN_LEN then Ok (0 :: write_varint n ++ concat bs)
  else
    match offsets 0 bs with
    | Some (os, _) => Ok (FLAG_INDEXED :: write_varint n ++ le32s os ++ concat bs)
    | None => Err (ESerialize MTooLong)
    end.
(** serialize.rs:590. *)
Definition key_cmp (a b : bytes * bytes) : comparison := bcmp (fst a) (fst b).

Section Ser.
Variable E : env.

(** usize length prefixes. *)
Definition ser_len (n : N) : bytes := ser_usize (e_fw E) n.

(** vecs.rs:7-13 [serialize_bytes], string.rs:7-12, bytes.rs:10-16. *)
Definition ser_blob (b : bytes) : ser := Ok [WAll (ser_len (len b)); WAll b].

(** specialised.rs:47-83, 137-143, 171-189, 223-250; uuid.rs:37-65; decimal.rs:37-61. *)
Definition ser_bulk (k : bk) (l : list val) : ser :=
  let n := len l in
  Ok [WAll (ser_len n)] +++
  (if n =? 0 then snil
   else match k with
        | BBool => rbind (rmapM as_bool l) (fun bs => sall (pack bs))
        | BFix _ w => rbind (rmapM as_int l) (fun zs => sall (flat_map (ser_fixed w) zs))
        | BRaw _ => if n * 16 <? 2 ^ e_ub E
                    then rbind (rmapM as_bytes l) (fun bs => sall (concat bs))
                    else Err EOverflow
        end).

(** Iteration order of a container. *)
Definition citer (k : ckind) (t : ty) (l : list val) : list val :=
  match k with KHash => e_iter E t l | KOrd => l end.

Section Rec.
(** [rec n v]: [serialize_revisioned] of the derived type [n]. *)
Variable rec : N -> val -> ser.

Definition ser_entry (sk sv : val -> ser) (p : val) : ser :=
  match p with VPair k v => sk k +++ sv v | _ => ty_err end.

Fixpoint ser_ty (t : ty) (v : val) {struct t} : ser :=
  match t, v with
  (* primitives.rs:142-149: a single [write], not [write_all] *)
  | TBool, VBool b => Ok [WOnce [if b then 1 else 0]]
  | TInt i, VInt z => sall (ser_int (e_fw E) i z)
  (* primitives.rs:596-602, 622-628: to_le_bytes *)
  | TF32, VInt z => sall (le_bytes 4 (Z.to_N z))
  | TF64, VInt z => sall (le_bytes 8 (Z.to_N z))
  | TChar, VInt z => ser_char (Z.to_N z)
  | TStr, VBytes b => ser_blob b
  (* path.rs:10-15: [to_str] fails on non UTF-8 *)
  | TPath, VBytes b => if utf8_ok b then ser_blob b else Err EInvalidPath
  | TBytes, VBytes b => ser_blob b
  (* uuid.rs:9-14, decimal.rs:9-14 *)
  | TUuid, VBytes b => sall b
  | TDecimal, VBytes b => sall b
  | TUnit, VUnit => snil
  (* tuple.rs:10-22 *)
  | TPair a b, VPair x y => ser_ty a x +++ ser_ty b y
  (* vecs.rs:15-73 *)
  | TVec t', VSeq l =>
      match (if e_spec E then bulk_of t' else None) with
      | Some k => ser_bulk k l
      | None => Ok [WAll (ser_len (len l))] +++ sconcat (map (ser_ty t') l)
      end
  (* imbl.rs:116-133 *)
  | TImVec t', VSeq l => Ok [WAll (ser_len (len l))] +++ sconcat (map (ser_ty t') l)
  (* arrays.rs:8-17 *)
  | TArray n t', VSeq l => if Nat.eqb (length l) n then sconcat (map (ser_ty t') l) else ty_err
  (* option.rs:7-20 *)
  | TOption t', VVar k l =>
      match k, l with
      | 0, [] => sall [0]
      | 1, [x] => sall [1] +++ ser_ty t' x
      | _, _ => ty_err
      end
  (* result.rs:7-20 *)
  | TResult a b, VVar k l =>
      match k, l with
      | 0, [x] => sall (ser_u32 (e_fw E) 0) +++ ser_ty a x
      | 1, [x] => sall (ser_u32 (e_fw E) 1) +++ ser_ty b x
      | _, _ => ty_err
      end
  (* bound.rs:8-22 *)
  | TBound t', VVar k l =>
      match k, l with
      | 0, [] => sall (ser_u32 (e_fw E) 0)
      | 1, [x] => sall (ser_u32 (e_fw E) 1) +++ ser_ty t' x
      | 2, [x] => sall (ser_u32 (e_fw E) 2) +++ ser_ty t' x
      | _, _ => ty_err
      end
  (* collections.rs:14-34, 64-82; imbl.rs:167-187, 276-296 *)
  | TMap k a b, VSeq l =>
      Ok [WAll (ser_len (len l))]
      +++ sconcat (map (ser_entry (ser_ty a) (ser_ty b)) (citer k (TMap k a b) l))
  (* collections.rs:115-130, 161-177; imbl.rs:225-242, 333-350 *)
  | TSet k t', VSeq l =>
      Ok [WAll (ser_len (len l))] +++ sconcat (map (ser_ty t') (citer k (TSet k t') l))
  (* collections.rs:208-222 *)
  | THeap t', VSeq l =>
      Ok [WAll (ser_len (len l))] +++ sconcat (map (ser_ty t') (e_iter E (THeap t') l))
  (* boxes.rs:7-14, arc.rs:8-15, cow.rs:5-20, wrapping.rs:8-14, reverse.rs:8-14 *)
  | TWrap t', _ => ser_ty t' v
  (* duration.rs:8-14 *)
  | TDuration, VPair (VInt s) (VInt n) =>
      sall (ser_int (e_fw E) U64 s) +++ sall (ser_int (e_fw E) U32 n)
  (* system_time.rs:8-16; the value is (seconds, nanoseconds) since the epoch *)
  | TSystemTime, VPair (VInt s) (VInt n) =>
      if (s <? 0)%Z then Err (ESerialize MPreEpoch)
      else sall (ser_int (e_fw E) U64 s) +++ sall (ser_int (e_fw E) U32 n)
  | TExt _ _ t', _ => ser_ty t' v
  | TRef n, _ => rec n v
  | _, _ => ty_err
  end.

(** Pre-serialised entries, serialize.rs:582-589. *)
Definition pre_entry (sk sv : val -> ser) (p : val) : res (bytes * bytes) :=
  match p with
  | VPair k v => rbind (ser_bytes (sk k)) (fun kb =>
                 rbind (ser_bytes (sv v)) (fun vb => Ok (kb, vb)))
  | _ => ty_err
  end.

(** One field, by encoding mode. *)
Definition ser_mode (m : fmode) (t : ty) (v : val) : ser :=
  match m, t, v with
  | MPlain, _, _ => ser_ty t v
  (* derive common.rs emit_serialize_fixed_le, primitives.rs:661-668 *)
  | MFixed, _, VInt z =>
      match fixed_of t with Some (_, w) => sall (ser_fixed w z) | None => ty_err end
  (* derive common.rs emit_serialize_specialised *)
  | MBulk, TVec t', VSeq l =>
      match bulk_of t' with Some k => ser_bulk k l | None => ty_err end
  (* serialize.rs:99-101, 118-123, 547-646 *)
  | MIdxMap, TMap k a b, VSeq l =>
      rbind (rmapM (pre_entry (ser_ty a) (ser_ty b)) (citer k t l)) (fun ps =>
      rbind (enc_idx_map (ssort key_cmp ps)) sall)
  (* serialize.rs:179-181, 654-715; imbl.rs:66 *)
  | MIdxSeq, TVec t', VSeq l =>
      rbind (rmapM (fun x => ser_bytes (ser_ty t' x)) l) (fun bs => rbind (enc_idx_seq bs) sall)
  | MIdxSeq, TImVec t', VSeq l =>
      rbind (rmapM (fun x => ser_bytes (ser_ty t' x)) l) (fun bs => rbind (enc_idx_seq bs) sall)
  (* serialize.rs:214-253, 286-288, 303-305 *)
  | MIdxSet, TSet k t', VSeq l =>
      rbind (rmapM (fun x => ser_bytes (ser_ty t' x)) (citer k t l)) (fun bs =>
      rbind (enc_idx_seq (ssort bcmp bs)) sall)
  | _, _, _ => ty_err
  end.

(** The fields alive at [r], in declaration order, next to the values of the program's struct
    (which has exactly those fields): ser.rs:127-147, struct_codegen.rs:74-113. *)
Fixpoint ser_fields (opt : bool) (r : N) (fs : list field) (vs : list val) : list ser :=
  match fs with
  | [] => match vs with [] => [] | _ => [ty_err] end
  | f :: fs' =>
      if falive r f then
        match vs with
        | v :: vs' => ser_mode (mode_of opt f) (f_ty f) v :: ser_fields opt r fs' vs'
        | [] => [ty_err]
        end
      else ser_fields opt r fs' vs
  end.

(** u32 length then payload: struct_codegen.rs:115-126, enum_codegen.rs:149-159. *)
Definition ser_payload (b : bytes) : ser :=
  if len b <? 2 ^ 32 then Ok [WAll (le_bytes 4 (len b)); WAll b] else Err (ESerialize MTooLong).

(** struct_codegen.rs:74-83: offsets measured from the start of the prologue, [as u32]. *)
Fixpoint struct_offsets (o : N) (l : list bytes) : bytes :=
  match l with
  | [] => []
  | b :: l' => le_bytes 4 (o mod 2 ^ 32) ++ struct_offsets (o + len b) l'
  end.
(** struct_codegen.rs:28-129 [emit_struct_serialize]. *)
Definition ser_struct_opt (indexed : bool) (r : N) (fs : list field) (vs : list val) : ser :=
  rbind (rmapM ser_bytes (ser_fields true r fs vs)) (fun bs =>
    ser_payload ((if indexed then struct_offsets (4 * len bs) bs else []) ++ concat bs)).

(** ser.rs:29-73. *)
Definition ser_struct (h : hent) (r : N) (fs : list field) (v : val) : ser :=
  match v with
  | VSeq vs => if h_opt h then ser_struct_opt (h_idx h) r fs vs
               else sconcat (ser_fields false r fs vs)
  | _ => ty_err
  end.

(** Variant fields in an optimised enum: always through the trait (enum_codegen.rs:118-123). *)
Fixpoint ser_vfields (r : N) (fs : list field) (vs : list val) : list ser :=
  match fs with
  | [] => match vs with [] => [] | _ => [ty_err] end
  | f :: fs' =>
      if falive r f then
        match vs with
        | v :: vs' => ser_ty (f_ty f) v :: ser_vfields r fs' vs'
        | [] => [ty_err]
        end
      else ser_vfields r fs' vs
  end.

(** enum_codegen.rs:85-173. *)
Definition ser_variant_opt (r : N) (vr : variant) (d : N) (vs : list val) : ser :=
  match v_size vr with
  | None => ty_err   (* compile error: [size] is required *)
  | Some SInline => rbind (tag_new_checked (e_dbg E) d CInline) write_tag
  | Some (SFixed n) =>
      rbind (tag_new_checked (e_dbg E) d CFixed) write_tag +++
      rbind (rmapM ser_bytes (ser_vfields r (v_fields vr) vs)) (fun bs =>
        let b := concat bs in
        if e_dbg E && negb (len b =? n) then Panic PAssert else sall b)
  | Some SVarlen =>
      rbind (tag_new_checked (e_dbg E) d CVarlen) write_tag +++
      rbind (rmapM ser_bytes (ser_vfields r (v_fields vr) vs)) (fun bs => ser_payload (concat bs))
  end.

Definition find_name (k : N) (l : list (variant * N)) : option (variant * N) :=
  find (fun p => v_name (fst p) =? k) l.

(** ser.rs:75-99, 150-236; enum_codegen.rs:73-180. *)
Definition ser_enum (h : hent) (r : N) (vs : list variant) (v : val) : ser :=
  match v with
  | VVar k l =>
      match calc_disc r vs with
      | None => ty_err
      | Some ds =>
          match find_name k ds with
          | None => ty_err
          | Some (vr, d) =>
              if h_opt h then ser_variant_opt r vr d l
              else sall (ser_u32 (e_fw E) d) +++ sconcat (ser_fields false r (v_fields vr) l)
          end
      end
  | _ => ty_err
  end.

(** derive expand/mod.rs:221-232: the revision as u16, then the body of the latest revision. *)
Definition ser_derived (s : schema) (v : val) : ser :=
  match sent s (scur s) with
  | None => ty_err
  | Some h =>
      sall (ser_u16 (e_fw E) (scur s)) +++
      match s_body s with
      | SStruct fs => ser_struct h (scur s) fs v
      | SEnum vs => ser_enum h (scur s) vs v
      end
  end.
End Rec.

(** [depth]: bound on nested calls into derived types (the call stack). *)
Fixpoint ser_ref (depth : nat) (n : N) (v : val) : ser :=
  match depth with
  | O => Panic PStack
  | S d => match e_sch E n with
           | Some s => ser_derived (ser_ref d) s v
           | None => ty_err
           end
  end.

(** lib.rs:185-203: [to_writer], [to_vec]. *)
Definition to_writer (depth : nat) (t : ty) (v : val) : ser := ser_ty (ser_ref depth) t v.
Definition to_vec (depth : nat) (t : ty) (v : val) : res bytes := ser_bytes (to_writer depth t v).
End Ser.
