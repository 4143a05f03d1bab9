(** Deserialisation: every [DeserializeRevisioned] implementation, the indexed decoders and the
    code the derive macro emits.  Model part. *)

From Verif Require Import Base Prog Prim Utf8 Tag Ty.
From Coq Require Import List NArith ZArith Bool.
Import ListNotations.
Open Scope N_scope.

(** specialised.rs:268-273. *)
Definition bits8 (b : N) : list bool := map (N.testbit b) [0; 1; 2; 3; 4; 5; 6; 7].
Fixpoint unpack (n : nat) (bs : bytes) : list bool :=
  match bs with
  | [] => []
  | b :: r => firstn (Nat.min 8 n) (bits8 b) ++ unpack (n - 8) r
  end.

(** Consecutive chunks of [w] bytes. *)
Fixpoint chunks (n : nat) (w : N) (bs : bytes) : list bytes :=
  match n with
  | O => []
  | S n' => match split_at w bs with
            | Some (x, y) => x :: chunks n' w y
            | None => []
            end
  end.
Definition fixed_val (signed : bool) (w : nat) (x : bytes) : Z :=
  if signed then signZ (8 * N.of_nat w) (le_val x) else Z.of_N (le_val x).

Definition div_ceil8 (n : N) : N := (n + 7) / 8.

(** [advance_read(reader, n)], slice_reader.rs:9-19: reads and drops [n] bytes in pieces of at most
    4096.  Here in one piece; SliceReader.v models the loop and proves it equal. *)
Definition advance (n : N) : prog unit := read_n n ;;; Ret tt.

Section De.
Variable E : env.

Definition de_len : prog N := de_usize (e_fw E) (e_ub E).

(** serialize.rs:891-915 [read_varint]. *)
Definition read_varint : prog N :=
  b <- read_byte ;;
  if b =? 251 then x <- read_n 2 ;; Ret (le_val x)
  else if b =? 252 then x <- read_n 4 ;; Ret (le_val x)
  else if b =? 253 then x <- read_n 8 ;;
       (if le_val x <? 2 ^ e_ub E then Ret (le_val x) else Fail EOverflow)
  else if 253 <? b then Fail EInvalidInt
  else Ret b.

(** string.rs:14-35: [vec![0; len]], [read_exact]. *)
Definition de_str : prog val :=
  n <- de_len ;;
  if n =? 0 then Ret (VBytes [])
  else alloc E n ;;; x <- read_n n ;;
       if utf8_ok x then Ret (VBytes x) else Fail EUtf8.
(** bytes.rs:18-32, specialised.rs:145-165: [with_capacity(len)], [take(len).read_to_end]. *)
Definition de_blob : prog bytes :=
  n <- de_len ;;
  if n =? 0 then Ret [] else alloc E n ;;; read_n n.

(** specialised.rs:85-129, 145-165, 191-217, 252-277; uuid.rs:68-94; decimal.rs:64-89. *)
Definition de_bulk (k : bk) : prog (list val) :=
  n <- de_len ;;
  if n =? 0 then Ret []
  else match k with
       | BBool =>
           alloc E (div_ceil8 n) ;;; x <- read_n (div_ceil8 n) ;;
           alloc E n ;;; Ret (map VBool (unpack (N.to_nat n) x))
       | BFix s w =>
           if n * N.of_nat w <? 2 ^ e_ub E then
             alloc E (n * N.of_nat w) ;;; x <- read_n (n * N.of_nat w) ;;
             Ret (map (fun c => VInt (fixed_val s w c)) (chunks (N.to_nat n) (N.of_nat w) x))
           else Fail EOverflow
       | BRaw false =>
           if n * 16 <? 2 ^ e_ub E then
             alloc E (n * 16) ;;; x <- read_n (n * 16) ;;
             Ret (map VBytes (chunks (N.to_nat n) 16 x))
           else Fail EOverflow
       | BRaw true =>
           alloc E (n * 16) ;;;
           rep (N.to_nat n) (x <- read_n 16 ;; Ret (VBytes (e_dec E x)))
       end.

(** Duration::new (std): carries the nanoseconds into the seconds, panics on overflow. *)
Definition dur_new (s n : Z) : res val :=
  let s' := (s + n / 1000000000)%Z in
  if (s' <? 2 ^ 64)%Z then Ok (VPair (VInt s') (VInt (n mod 1000000000))) else Panic PTime.
(** UNIX_EPOCH + Duration (std): panics when not representable. *)
Definition time_add (d : val) : res val :=
  match d with
  | VPair (VInt s) n => if (s <=? e_time E)%Z then Ok (VPair (VInt s) n) else Panic PTime
  | _ => Panic PType
  end.

(** How each container absorbs decoded entries. *)
Definition build_map (k : ckind) (a : ty) (l : list val) : list val :=
  cbuild (e_cmp E a) pkey (match k with KHash => upd_insert | KOrd => upd_last end) l.
Definition build_set (k : ckind) (a : ty) (l : list val) : list val :=
  cbuild (e_cmp E a) vid (match k with KHash => upd_first | KOrd => upd_last end) l.
Definition build_idx_map (a : ty) (l : list val) : list val :=
  cbuild (e_cmp E a) pkey upd_insert l.

(** [map_err(|e| Error::Deserialize(e.to_string()))]: result.rs:28-31, bound.rs:31-38. *)
Definition wrap_err (_ : err) : err := EDeserialize MInner.

Section Rec.
(** [rec n]: [deserialize_revisioned] of the derived type [n]. *)
Variable rec : N -> prog val.

Definition de_entry (a b : prog val) : prog val := k <- a ;; v <- b ;; Ret (VPair k v).

(** vecs.rs:115-134: length, [with_capacity], loop. *)
Definition de_seq (sz : N) (p : prog val) : prog (list val) :=
  n <- de_len ;;
  if n =? 0 then Ret [] else alloc E (n * sz) ;;; rep (N.to_nat n) p.

Fixpoint de_ty (t : ty) : prog val :=
  match t with
  (* primitives.rs:151-161 *)
  | TBool => b <- read_byte ;;
             if b =? 0 then Ret (VBool false)
             else if b =? 1 then Ret (VBool true) else Fail (EInvalidBool b)
  | TInt i => z <- de_int (e_fw E) (e_ub E) i ;; Ret (VInt z)
  | TF32 => x <- read_n 4 ;; Ret (VInt (Z.of_N (le_val x)))
  | TF64 => x <- read_n 8 ;; Ret (VInt (Z.of_N (le_val x)))
  | TChar => c <- de_char ;; Ret (VInt (Z.of_N c))
  | TStr => de_str
  (* path.rs:17-22 *)
  | TPath => de_str
  | TBytes => b <- de_blob ;; Ret (VBytes b)
  (* uuid.rs:16-23, decimal.rs:16-23 *)
  | TUuid => x <- read_n 16 ;; Ret (VBytes x)
  | TDecimal => x <- read_n 16 ;; Ret (VBytes (e_dec E x))
  | TUnit => Ret VUnit
  (* tuple.rs:24-38 *)
  | TPair a b => x <- de_ty a ;; y <- de_ty b ;; Ret (VPair x y)
  (* vecs.rs:75-134 *)
  | TVec t' =>
      match (if e_spec E then bulk_of t' else None) with
      | Some k => l <- de_bulk k ;; Ret (VSeq l)
      | None => l <- de_seq (e_esize E t') (de_ty t') ;; Ret (VSeq l)
      end
  (* imbl.rs:135-153 *)
  | TImVec t' => l <- de_seq (e_esize E t') (de_ty t') ;; Ret (VSeq l)
  (* arrays.rs:19-33 *)
  | TArray n t' => l <- rep n (de_ty t') ;; Ret (VSeq l)
  (* option.rs:22-36 *)
  | TOption t' =>
      b <- read_byte ;;
      if b =? 0 then Ret (VVar 0 [])
      else if b =? 1 then x <- de_ty t' ;; Ret (VVar 1 [x])
      else Fail (EDeserialize MBadOption)
  (* result.rs:22-35 *)
  | TResult a b =>
      d <- de_u32 (e_fw E) ;;
      if d =? 0 then x <- map_err wrap_err (de_ty a) ;; Ret (VVar 0 [x])
      else if d =? 1 then x <- map_err wrap_err (de_ty b) ;; Ret (VVar 1 [x])
      else Fail (EDeserialize MUnknownVariant)
  (* bound.rs:24-42 *)
  | TBound t' =>
      d <- de_u32 (e_fw E) ;;
      if d =? 0 then Ret (VVar 0 [])
      else if d =? 1 then x <- map_err wrap_err (de_ty t') ;; Ret (VVar 1 [x])
      else if d =? 2 then x <- map_err wrap_err (de_ty t') ;; Ret (VVar 2 [x])
      else Fail (EDeserialize MUnknownVariant)
  (* collections.rs:36-53, 84-106; imbl.rs:189-211, 298-319 *)
  | TMap k a b =>
      l <- de_seq (e_esize E (TPair a b)) (de_entry (de_ty a) (de_ty b)) ;;
      Ret (VSeq (build_map k a l))
  (* collections.rs:132-146, 179-199; imbl.rs:244-262, 352-371 *)
  | TSet k t' => l <- de_seq (e_esize E t') (de_ty t') ;; Ret (VSeq (build_set k t' l))
  (* collections.rs:224-241 *)
  | THeap t' => l <- de_seq (e_esize E t') (de_ty t') ;; Ret (VSeq (ssort vcmp l))
  | TWrap t' => de_ty t'
  (* duration.rs:16-23 *)
  | TDuration =>
      s <- de_int (e_fw E) (e_ub E) U64 ;; n <- de_int (e_fw E) (e_ub E) U32 ;; of_res (dur_new s n)
  (* system_time.rs:18-25 *)
  | TSystemTime =>
      s <- de_int (e_fw E) (e_ub E) U64 ;; n <- de_int (e_fw E) (e_ub E) U32 ;;
      d <- of_res (dur_new s n) ;; of_res (time_add d)
  | TExt c _ t' =>
      x <- de_ty t' ;;
      match e_ext E c x with Some y => Ret y | None => Fail (EDeserialize (MExternal c)) end
  | TRef n => rec n
  end.

(** [table_bytes + 8] (serialize.rs:141, 751): unchecked addition. *)
Definition add8 (n : N) : prog N :=
  if n + 8 <? 2 ^ e_ub E then Ret (n + 8)
  else if e_dbg E then Crash POverflow else Ret ((n + 8) mod 2 ^ e_ub E).

(** serialize.rs:728-768 (BTreeMap), 124-154 (HashMap). *)
Definition de_idx_map (k : ckind) (a b : ty) (da db : prog val) : prog (list val) :=
  flags <- read_byte ;; n <- read_varint ;;
  (match k with KHash => alloc E (n * e_esize E (TPair a b)) | KOrd => Ret tt end) ;;;
  if N.land flags 1 =? 0 then
    l <- rep (N.to_nat n) (de_entry da db) ;; Ret (build_idx_map a l)
  else if n * 8 <? 2 ^ e_ub E then
    m <- add8 (n * 8) ;; advance m ;;;
    alloc E (n * e_esize E a) ;;; ks <- rep (N.to_nat n) da ;;
    alloc E (n * e_esize E b) ;;; vs <- rep (N.to_nat n) db ;;
    Ret (build_idx_map a (map (fun p => VPair (fst p) (snd p)) (combine ks vs)))
  else Fail ESubReaderOverrun.

(** serialize.rs:776-802. *)
Definition de_idx_seq (a : ty) (da : prog val) : prog (list val) :=
  flags <- read_byte ;; n <- read_varint ;;
  if N.land flags 1 =? 0 then
    alloc E (n * e_esize E a) ;;; rep (N.to_nat n) da
  else if n * 4 <? 2 ^ e_ub E then
    advance (n * 4) ;;; alloc E (n * e_esize E a) ;;; rep (N.to_nat n) da
  else Fail ESubReaderOverrun.

(** One field, by encoding mode. *)
Definition de_mode (m : fmode) (t : ty) : prog val :=
  match m, t with
  | MPlain, _ => de_ty t
  (* derive common.rs emit_deserialize_fixed_le, primitives.rs:671-674 *)
  | MFixed, _ =>
      match fixed_of t with
      | Some (s, w) => z <- de_fixed s w ;; Ret (VInt z)
      | None => Crash PType
      end
  | MBulk, TVec t' =>
      match bulk_of t' with
      | Some k => l <- de_bulk k ;; Ret (VSeq l)
      | None => Crash PType
      end
  | MIdxMap, TMap k a b => l <- de_idx_map k a b (de_ty a) (de_ty b) ;; Ret (VSeq l)
  | MIdxSeq, TVec t' => l <- de_idx_seq t' (de_ty t') ;; Ret (VSeq l)
  | MIdxSeq, TImVec t' => l <- de_idx_seq t' (de_ty t') ;; Ret (VSeq l)
  (* serialize.rs:259-267, 289-291, 306-309 *)
  | MIdxSet, TSet k t' => l <- de_idx_seq t' (de_ty t') ;; Ret (VSeq (build_set k t' l))
  | _, _ => Crash PType
  end.

(** The fields in declaration order: de.rs:395-444, struct_codegen.rs:153-212.  First component:
    the fields of the target program; second: removed fields with their decoded values. *)
Fixpoint de_fields (opt : bool) (cur tgt : N) (fs : list field)
  : prog (list val * list (field * val)) :=
  match fs with
  | [] => Ret ([], [])
  | f :: fs' =>
      if falive cur f then
        if falive tgt f then
          v <- de_mode (mode_of opt f) (f_ty f) ;; p <- de_fields opt cur tgt fs' ;;
          Ret (v :: fst p, snd p)
        else
          v <- de_mode (mode_removed opt f) (f_ty f) ;; p <- de_fields opt cur tgt fs' ;;
          Ret (fst p, (f, v) :: snd p)
      else if falive tgt f then
        v <- of_res (f_default f cur) ;; p <- de_fields opt cur tgt fs' ;;
        Ret (v :: fst p, snd p)
      else de_fields opt cur tgt fs'
  end.

(** de.rs:190-203, 257-273, 304-320; struct_codegen.rs:225-243: the convert functions of the removed
    fields, in declaration order, on the constructed value. *)
Fixpoint converts (cur : N) (this : list val) (rem : list (field * val)) : res (list val) :=
  match rem with
  | [] => Ok this
  | (f, v) :: rem' => rbind (f_convert f this cur v) (fun this' => converts cur this' rem')
  end.

(** Decode a separate buffer completely read before: bytes left over are dropped. *)
Definition in_buf {A} (p : prog A) (buf : bytes) : prog A := of_res (rmap fst (run p buf)).

(** de.rs:121-203. *)
Definition de_struct_legacy (cur tgt : N) (fs : list field) : prog val :=
  p <- de_fields false cur tgt fs ;; l <- of_res (converts cur (fst p) (snd p)) ;; Ret (VSeq l).

(** struct_codegen.rs:135-272. *)
Definition struct_payload (indexed : bool) (cur tgt : N) (fs : list field) : prog val :=
  (if indexed then Read (4 * len (filter (falive cur) fs)) ESubReaderOverrun (fun _ => Ret tt)
   else Ret tt) ;;;
  p <- de_fields true cur tgt fs ;; l <- of_res (converts cur (fst p) (snd p)) ;; Ret (VSeq l).
Definition de_struct_opt (indexed : bool) (cur tgt : N) (fs : list field) : prog val :=
  n <- read_varlen_len ;; alloc E n ;;; buf <- read_n n ;;
  in_buf (struct_payload indexed cur tgt fs) buf.

Definition find_disc (d : N) (l : list (variant * N)) : option (variant * N) :=
  find (fun p => snd p =? d) l.

(** de.rs:214-376. *)
Definition de_variant_legacy (cur tgt : N) (vr : variant) : prog val :=
  p <- de_fields false cur tgt (v_fields vr) ;;
  l <- of_res (converts cur (fst p) (snd p)) ;;
  if valive tgt vr then Ret (VVar (v_name vr) l) else of_res (v_convert vr l cur).

(** de.rs:85-119. *)
Definition de_enum_legacy (cur tgt : N) (vs : list variant) : prog val :=
  match calc_disc cur vs with
  | None => Crash PType
  | Some ds =>
      d <- de_u32 (e_fw E) ;;
      match find_disc d ds with
      | None => Fail (EDeserialize MUnknownVariant)
      | Some (vr, _) => de_variant_legacy cur tgt vr
      end
  end.

Definition class_of (s : vsize) : sclass :=
  match s with SInline => CInline | SFixed _ => CFixed | SVarlen => CVarlen end.
Definition sclass_eqb (a b : sclass) : bool :=
  match a, b with CInline, CInline | CFixed, CFixed | CVarlen, CVarlen => true | _, _ => false end.
(** The match arms of enum_codegen.rs:193-211: variant id and size class. *)
Definition find_tag (id : N) (c : sclass) (l : list (variant * N)) : option (variant * N) :=
  find (fun p => (snd p =? id) &&
                 match v_size (fst p) with Some s => sclass_eqb (class_of s) c | None => false end) l.

(** enum_codegen.rs:355-363: the fields alive at [cur], each through the trait. *)
Fixpoint de_vfields (cur : N) (fs : list field) : prog (list val) :=
  match fs with
  | [] => Ret []
  | f :: fs' =>
      if falive cur f then
        v <- de_ty (f_ty f) ;; l <- de_vfields cur fs' ;; Ret (v :: l)
      else de_vfields cur fs'
  end.

(** enum_codegen.rs:331-352. *)
Definition variant_buf (s : option vsize) : prog bytes :=
  match s with
  | None => Crash PType
  | Some SInline => Ret []
  | Some (SFixed n) => alloc E n ;;; read_n n
  | Some SVarlen => n <- read_varlen_len ;; alloc E n ;;; read_n n
  end.
(** enum_codegen.rs:321-441: note that neither defaults nor field convert functions are used. *)
Definition de_variant_opt (cur tgt : N) (vr : variant) : prog val :=
  buf <- variant_buf (v_size vr) ;;
  l <- in_buf (de_vfields cur (v_fields vr)) buf ;;
  if valive tgt vr then Ret (VVar (v_name vr) l) else of_res (v_convert vr l cur).

(** enum_codegen.rs:183-228. *)
Definition de_enum_opt (cur tgt : N) (vs : list variant) : prog val :=
  match calc_disc cur vs with
  | None => Crash PType
  | Some ds =>
      ts <- read_optimised_tag ;;
      match find_tag (variant_id (fst ts)) (snd ts) ds with
      | None => Fail (EDeserialize MUnknownVariant)
      | Some (vr, _) => de_variant_opt cur tgt vr
      end
  end.

(** One arm of the match on the wire revision: derive expand/mod.rs:84-106. *)
Definition de_body (s : schema) (r : N) : prog val :=
  match sent s r with
  | None => Fail (EDeserialize MInvalidRevision)
  | Some h =>
      match s_body s with
      | SStruct fs => if h_opt h then de_struct_opt (h_idx h) r (scur s) fs
                      else de_struct_legacy r (scur s) fs
      | SEnum vs => if h_opt h then de_enum_opt r (scur s) vs else de_enum_legacy r (scur s) vs
      end
  end.

(** derive expand/mod.rs:244-264. *)
Definition de_derived (s : schema) : prog val := r <- de_u16 (e_fw E) ;; de_body s r.
End Rec.

Fixpoint de_ref (depth : nat) (n : N) : prog val :=
  match depth with
  | O => Crash PStack
  | S d => match e_sch E n with
           | Some s => de_derived (de_ref d) s
           | None => Crash PType
           end
  end.

(** [T::deserialize_revisioned]; lib.rs:166-183 [from_reader], [from_slice] (bytes left over are
    ignored). *)
Definition deserialize (depth : nat) (t : ty) : prog val := de_ty (de_ref depth) t.
Definition from_slice (depth : nat) (t : ty) (bs : bytes) : res val :=
  rmap fst (run (deserialize depth t) bs).
End De.
