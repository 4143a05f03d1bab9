(** The decoders of De.v with a meter: next to the value, the sum of the sizes of all requests for memory
    made on the way, whether freed again or not.  Model part; MeterL.v proves that they decode the same. *)

From Verif Require Import Base Prog Prim Utf8 Tag Ty De.
From Coq Require Import List NArith ZArith Bool.
Import ListNotations.
Open Scope N_scope.

Definition mprog (A : Type) := prog (A * N).
Definition mret {A} (a : A) : mprog A := Ret (a, 0).
Definition mbind {A B} (p : mprog A) (f : A -> mprog B) : mprog B :=
  bind p (fun x => bind (f (fst x)) (fun y => Ret (fst y, snd x + snd y))).
(** A part that requests no memory. *)
Definition free {A} (p : prog A) : mprog A := bind p mret.
Notation "x <~ p ;; f" := (mbind p (fun x => f)) (at level 61, p at next level, right associativity).
Notation "p ~; f" := (mbind p (fun _ => f)) (at level 61, right associativity).
Fixpoint mrep {A} (n : nat) (p : mprog A) : mprog (list A) :=
  match n with O => mret [] | S n' => x <~ p ;; l <~ mrep n' p ;; mret (x :: l) end.

Section De.
Variable E : env.

(** A request: the size is recorded where De.v has [alloc]. *)
Definition ask (n : N) : mprog unit := alloc E n ;;; Ret (tt, n).

(** string.rs:14-35. *)
Definition md_str : mprog val :=
  n <~ free (de_len E) ;;
  if n =? 0 then mret (VBytes [])
  else ask n ~; x <~ free (read_n n) ;;
       if utf8_ok x then mret (VBytes x) else Fail EUtf8.
(** bytes.rs:18-32, specialised.rs:145-165. *)
Definition md_blob : mprog bytes :=
  n <~ free (de_len E) ;;
  if n =? 0 then mret [] else ask n ~; free (read_n n).
(** specialised.rs:85-129, 145-165, 191-217, 252-277; uuid.rs:68-94; decimal.rs:64-89. *)
Definition md_bulk (k : bk) : mprog (list val) :=
  n <~ free (de_len E) ;;
  if n =? 0 then mret []
  else match k with
       | BBool =>
           ask (div_ceil8 n) ~; x <~ free (read_n (div_ceil8 n)) ;;
           ask n ~; mret (map VBool (unpack (N.to_nat n) x))
       | BFix s w =>
           if n * N.of_nat w <? 2 ^ e_ub E then
             ask (n * N.of_nat w) ~; x <~ free (read_n (n * N.of_nat w)) ;;
             mret (map (fun c => VInt (fixed_val s w c)) (chunks (N.to_nat n) (N.of_nat w) x))
           else Fail EOverflow
       | BRaw false =>
           if n * 16 <? 2 ^ e_ub E then
             ask (n * 16) ~; x <~ free (read_n (n * 16)) ;;
             mret (map VBytes (chunks (N.to_nat n) 16 x))
           else Fail EOverflow
       | BRaw true =>
           ask (n * 16) ~; free (rep (N.to_nat n) (x <- read_n 16 ;; Ret (VBytes (e_dec E x))))
       end.
(** vecs.rs:115-134. *)
Definition md_seq (sz : N) (p : mprog val) : mprog (list val) :=
  n <~ free (de_len E) ;;
  if n =? 0 then mret [] else ask (n * sz) ~; mrep (N.to_nat n) p.
Definition md_entry (a b : mprog val) : mprog val := k <~ a ;; v <~ b ;; mret (VPair k v).
Definition mmap {A B} (g : A -> B) (p : mprog A) : mprog B := x <~ p ;; mret (g x).

Section Rec.
Variable rec : N -> mprog val.

(** As [de_ty]: the cases without data of their own are the same functions. *)
Fixpoint md_ty (t : ty) : mprog val :=
  match t with
  | TBool | TInt _ | TF32 | TF64 | TChar | TUuid | TDecimal | TUnit | TDuration | TSystemTime =>
      free (de_ty E (fun _ => Crash PType) t)
  | TStr | TPath => md_str
  | TBytes => mmap VBytes md_blob
  | TPair a b => md_entry (md_ty a) (md_ty b)
  | TVec t' =>
      match (if e_spec E then bulk_of t' else None) with
      | Some k => mmap VSeq (md_bulk k)
      | None => mmap VSeq (md_seq (e_esize E t') (md_ty t'))
      end
  | TImVec t' => mmap VSeq (md_seq (e_esize E t') (md_ty t'))
  | TArray n t' => mmap VSeq (mrep n (md_ty t'))
  | TOption t' =>
      b <~ free read_byte ;;
      if b =? 0 then mret (VVar 0 [])
      else if b =? 1 then mmap (fun x => VVar 1 [x]) (md_ty t')
      else Fail (EDeserialize MBadOption)
  | TResult a b =>
      d <~ free (de_u32 (e_fw E)) ;;
      if d =? 0 then mmap (fun x => VVar 0 [x]) (map_err wrap_err (md_ty a))
      else if d =? 1 then mmap (fun x => VVar 1 [x]) (map_err wrap_err (md_ty b))
      else Fail (EDeserialize MUnknownVariant)
  | TBound t' =>
      d <~ free (de_u32 (e_fw E)) ;;
      if d =? 0 then mret (VVar 0 [])
      else if d =? 1 then mmap (fun x => VVar 1 [x]) (map_err wrap_err (md_ty t'))
      else if d =? 2 then mmap (fun x => VVar 2 [x]) (map_err wrap_err (md_ty t'))
      else Fail (EDeserialize MUnknownVariant)
  | TMap k a b =>
      mmap (fun l => VSeq (build_map E k a l)) (md_seq (e_esize E (TPair a b)) (md_entry (md_ty a) (md_ty b)))
  | TSet k t' => mmap (fun l => VSeq (build_set E k t' l)) (md_seq (e_esize E t') (md_ty t'))
  | THeap t' => mmap (fun l => VSeq (ssort vcmp l)) (md_seq (e_esize E t') (md_ty t'))
  | TWrap t' => md_ty t'
  | TExt c _ t' =>
      x <~ md_ty t' ;;
      match e_ext E c x with Some y => mret y | None => Fail (EDeserialize (MExternal c)) end
  | TRef n => rec n
  end.

(** serialize.rs:728-768 (BTreeMap), 124-154 (HashMap). *)
Definition md_idx_map (k : ckind) (a b : ty) (da db : mprog val) : mprog (list val) :=
  flags <~ free read_byte ;; n <~ free (read_varint E) ;;
  (match k with KHash => ask (n * e_esize E (TPair a b)) | KOrd => mret tt end) ~;
  if N.land flags 1 =? 0 then
    mmap (build_idx_map E a) (mrep (N.to_nat n) (md_entry da db))
  else if n * 8 <? 2 ^ e_ub E then
    m <~ free (add8 E (n * 8)) ;; free (advance m) ~;
    ask (n * e_esize E a) ~; ks <~ mrep (N.to_nat n) da ;;
    ask (n * e_esize E b) ~; vs <~ mrep (N.to_nat n) db ;;
    mret (build_idx_map E a (map (fun p => VPair (fst p) (snd p)) (combine ks vs)))
  else Fail ESubReaderOverrun.
(** serialize.rs:776-802. *)
Definition md_idx_seq (a : ty) (da : mprog val) : mprog (list val) :=
  flags <~ free read_byte ;; n <~ free (read_varint E) ;;
  if N.land flags 1 =? 0 then
    ask (n * e_esize E a) ~; mrep (N.to_nat n) da
  else if n * 4 <? 2 ^ e_ub E then
    free (advance (n * 4)) ~; ask (n * e_esize E a) ~; mrep (N.to_nat n) da
  else Fail ESubReaderOverrun.
Definition md_mode (m : fmode) (t : ty) : mprog val :=
  match m, t with
  | MPlain, _ => md_ty t
  | MFixed, _ =>
      match fixed_of t with
      | Some (s, w) => free (z <- de_fixed s w ;; Ret (VInt z))
      | None => Crash PType
      end
  | MBulk, TVec t' =>
      match bulk_of t' with
      | Some k => mmap VSeq (md_bulk k)
      | None => Crash PType
      end
  | MIdxMap, TMap k a b => mmap VSeq (md_idx_map k a b (md_ty a) (md_ty b))
  | MIdxSeq, TVec t' => mmap VSeq (md_idx_seq t' (md_ty t'))
  | MIdxSeq, TImVec t' => mmap VSeq (md_idx_seq t' (md_ty t'))
  | MIdxSet, TSet k t' => mmap (fun l => VSeq (build_set E k t' l)) (md_idx_seq t' (md_ty t'))
  | _, _ => Crash PType
  end.
(** de.rs:395-444, struct_codegen.rs:153-212.  User supplied functions are not metered. *)
Fixpoint md_fields (opt : bool) (cur tgt : N) (fs : list field) : mprog (list val * list (field * val)) :=
  match fs with
  | [] => mret ([], [])
  | f :: fs' =>
      if falive cur f then
        if falive tgt f then
          v <~ md_mode (mode_of opt f) (f_ty f) ;; p <~ md_fields opt cur tgt fs' ;;
          mret (v :: fst p, snd p)
        else
          v <~ md_mode (mode_removed opt f) (f_ty f) ;; p <~ md_fields opt cur tgt fs' ;;
          mret (fst p, (f, v) :: snd p)
      else if falive tgt f then
        v <~ free (of_res (f_default f cur)) ;; p <~ md_fields opt cur tgt fs' ;;
        mret (v :: fst p, snd p)
      else md_fields opt cur tgt fs'
  end.
(** de.rs:121-203 (not optimised), the tail of struct_codegen.rs:135-272 (optimised). *)
Definition md_struct (opt : bool) (cur tgt : N) (fs : list field) : mprog val :=
  p <~ md_fields opt cur tgt fs ;; l <~ free (of_res (converts cur (fst p) (snd p))) ;; mret (VSeq l).
(** struct_codegen.rs:135-272: the payload is copied into a buffer and decoded from there. *)
Definition md_struct_opt (indexed : bool) (cur tgt : N) (fs : list field) : mprog val :=
  n <~ free read_varlen_len ;; ask n ~; buf <~ free (read_n n) ;;
  in_buf (free (if indexed then Read (4 * len (filter (falive cur) fs)) ESubReaderOverrun (fun _ => Ret tt)
                else Ret tt) ~; md_struct true cur tgt fs) buf.
(** de.rs:85-119, 214-376. *)
Definition md_enum_legacy (cur tgt : N) (vs : list variant) : mprog val :=
  match calc_disc cur vs with
  | None => Crash PType
  | Some ds =>
      d <~ free (de_u32 (e_fw E)) ;;
      match find_disc d ds with
      | None => Fail (EDeserialize MUnknownVariant)
      | Some (vr, _) =>
          p <~ md_fields false cur tgt (v_fields vr) ;;
          l <~ free (of_res (converts cur (fst p) (snd p))) ;;
          free (if valive tgt vr then Ret (VVar (v_name vr) l) else of_res (v_convert vr l cur))
      end
  end.
(** enum_codegen.rs:331-363. *)
Fixpoint md_vfields (cur : N) (fs : list field) : mprog (list val) :=
  match fs with
  | [] => mret []
  | f :: fs' =>
      if falive cur f then v <~ md_ty (f_ty f) ;; l <~ md_vfields cur fs' ;; mret (v :: l)
      else md_vfields cur fs'
  end.
Definition md_buf (s : option vsize) : mprog bytes :=
  match s with
  | None => Crash PType
  | Some SInline => mret []
  | Some (SFixed n) => ask n ~; free (read_n n)
  | Some SVarlen => n <~ free read_varlen_len ;; ask n ~; free (read_n n)
  end.
(** enum_codegen.rs:183-228, 321-441. *)
Definition md_enum_opt (cur tgt : N) (vs : list variant) : mprog val :=
  match calc_disc cur vs with
  | None => Crash PType
  | Some ds =>
      ts <~ free read_optimised_tag ;;
      match find_tag (variant_id (fst ts)) (snd ts) ds with
      | None => Fail (EDeserialize MUnknownVariant)
      | Some (vr, _) =>
          buf <~ md_buf (v_size vr) ;;
          l <~ in_buf (md_vfields cur (v_fields vr)) buf ;;
          free (if valive tgt vr then Ret (VVar (v_name vr) l) else of_res (v_convert vr l cur))
      end
  end.
(** derive expand/mod.rs:84-106, 244-264. *)
Definition md_derived (s : schema) : mprog val :=
  r <~ free (de_u16 (e_fw E)) ;;
  match sent s r with
  | None => Fail (EDeserialize MInvalidRevision)
  | Some h =>
      match s_body s with
      | SStruct fs => if h_opt h then md_struct_opt (h_idx h) r (scur s) fs
                      else md_struct false r (scur s) fs
      | SEnum vs => if h_opt h then md_enum_opt r (scur s) vs else md_enum_legacy r (scur s) vs
      end
  end.
End Rec.

Fixpoint md_ref (depth : nat) (n : N) : mprog val :=
  match depth with
  | O => Crash PStack
  | S d => match e_sch E n with
           | Some s => md_derived (md_ref d) s
           | None => Crash PType
           end
  end.
(** [T::deserialize_revisioned] with the sum of all requests. *)
Definition metered (depth : nat) (t : ty) : mprog val := md_ty (md_ref depth) t.
End De.
