(** Skipping: [SkipRevisioned], [SkipCheckRevisioned] and the code the derive macro emits for them.
    Model part.  The reader versions ([sk_*]), the slice versions ([ss_*]) and the checking versions
    ([sc_*]) are separate code in /repo and separate definitions here. *)

From Verif Require Import Base Prog Prim Tag Ty De SliceReader.
From Coq Require Import List NArith Bool.
Import ListNotations.
Open Scope N_scope.

(** enum_codegen.rs:247-262: the table of the sizes of [fixed(N)] variants, by variant id.  An id
    outside of the array is a compile error (the index panics in the macro). *)
Fixpoint set_at (i : nat) (x : N) (l : list N) : list N :=
  match l, i with
  | [], _ => []
  | _ :: l', O => x :: l'
  | y :: l', S i' => y :: set_at i' x l'
  end.
Definition size_table (ds : list (variant * N)) : list N :=
  fold_left (fun arr p => match v_size (fst p) with
                          | Some (SFixed n) => set_at (N.to_nat (snd p)) n arr
                          | _ => arr
                          end) ds (repeat 0 32).

Section Skip.
Variable E : env.

(** ** From any reader: [skip_revisioned] *)

(** skip.rs:58-63 (String), 867-873 (Bytes). *)
Definition sk_blob : prog unit := n <- de_len E ;; advance_read n.
(** skip.rs:213-280: under specialised-vectors. *)
Definition sk_bulk (k : bk) : prog unit :=
  n <- de_len E ;;
  match k with
  | BBool => advance_read (div_ceil8 n)
  | BFix _ 1 => advance_read n
  | BFix _ w => if n * N.of_nat w <? 2 ^ e_ub E then advance_read (n * N.of_nat w) else Fail EOverflow
  | BRaw _ => if n * 16 <? 2 ^ e_ub E then advance_read (n * 16) else Fail EOverflow
  end.
(** skip.rs:282-286 and alike: length, then a loop. *)
Definition sk_seq (p : prog unit) : prog unit := n <- de_len E ;; rep_ (N.to_nat n) p.
(** common.rs:198-204, primitives.rs:678-681. *)
Definition sk_fixed (t : ty) : prog unit :=
  match fixed_of t with Some (_, w) => read_n (N.of_nat w) ;;; Ret tt | None => Crash PType end.

Section Rec.
(** [rec n]: [skip_revisioned] of the derived type [n]; [drec n]: its [deserialize_revisioned]. *)
Variable rec : N -> prog unit.
Variable drec : N -> prog val.

Fixpoint sk_ty (t : ty) : prog unit :=
  match t with
  (* skip.rs:18-56 skip_mirror_both! *)
  | TBool | TInt _ | TF32 | TF64 | TChar | TDuration | TPath => de_ty E drec t ;;; Ret tt
  | TStr | TBytes => sk_blob
  (* skip.rs:801-804, 822-825 *)
  | TUuid | TDecimal => advance_read 16
  | TUnit => Ret tt
  (* skip.rs:81-91, 173-182 *)
  | TPair a b => sk_ty a ;;; sk_ty b
  (* skip.rs:208-287 *)
  | TVec t' => match (if e_spec E then bulk_of t' else None) with
               | Some k => sk_bulk k
               | None => sk_seq (sk_ty t')
               end
  (* skip.rs:908-918 *)
  | TImVec t' => sk_seq (sk_ty t')
  (* skip.rs:132-143 *)
  | TArray n t' => rep_ n (sk_ty t')
  (* skip.rs:355-364 *)
  | TOption t' =>
      b <- read_byte ;;
      if b =? 0 then Ret tt else if b =? 1 then sk_ty t' else Fail (EDeserialize MBadOption)
  (* skip.rs:385-396 *)
  | TResult a b =>
      d <- de_u32 (e_fw E) ;;
      if d =? 0 then sk_ty a else if d =? 1 then sk_ty b else Fail (EDeserialize MUnknownVariant)
  (* skip.rs:537-547 *)
  | TBound t' =>
      d <- de_u32 (e_fw E) ;;
      if d =? 0 then Ret tt else if d =? 1 then sk_ty t' else if d =? 2 then sk_ty t'
      else Fail (EDeserialize MUnknownVariant)
  (* skip.rs:609-622, 645-657, 943-955, 1011-1023 *)
  | TMap _ a b => sk_seq (sk_ty a ;;; sk_ty b)
  (* skip.rs:679-691, 711-722, 741-752, 978-988, 1046-1056 *)
  | TSet _ t' | THeap t' => sk_seq (sk_ty t')
  (* skip.rs:417-424, 439-446, 493-500, 515-522, 569-577 *)
  | TWrap t' => sk_ty t'
  (* skip.rs:108-115 *)
  | TSystemTime => de_ty E drec (TInt U64) ;;; de_ty E drec (TInt U32) ;;; Ret tt
  (* mirror: skip.rs:889-902; else 774-782, 843-848 *)
  | TExt _ mirror t' => if mirror then de_ty E drec t ;;; Ret tt else sk_ty t'
  | TRef n => rec n
  end.

(** derive skip.rs:133-194: the fields present at revision [cur]; [specialised] is not consulted. *)
Fixpoint sk_fields (cur : N) (fs : list field) : prog unit :=
  match fs with
  | [] => Ret tt
  | f :: fs' =>
      if falive cur f then (if f_fixed f then sk_fixed (f_ty f) else sk_ty (f_ty f)) ;;; sk_fields cur fs'
      else sk_fields cur fs'
  end.
(** derive skip.rs:23-58, 92-131. *)
Definition sk_enum_legacy (cur : N) (vs : list variant) : prog unit :=
  match calc_disc cur vs with
  | None => Crash PType
  | Some ds =>
      d <- de_u32 (e_fw E) ;;
      match find_disc d ds with
      | None => Fail (EDeserialize MUnknownVariant)
      | Some (vr, _) => sk_fields cur (v_fields vr)
      end
  end.
(** struct_codegen.rs:275-295. *)
Definition sk_struct_opt : prog unit := n <- read_varlen_len ;; advance_read n.
(** enum_codegen.rs:230-295: the variant id is not checked. *)
Definition sk_enum_opt (cur : N) (vs : list variant) : prog unit :=
  match calc_disc cur vs with
  | None => Crash PType
  | Some ds =>
      t <- read_tag ;; c <- of_res (size_class t) ;;
      match c with
      | CInline => Ret tt
      | CFixed => match nth_error (size_table ds) (N.to_nat (variant_id t)) with
                  | Some n => advance_read n
                  | None => Crash PSlice
                  end
      | CVarlen => n <- read_varlen_len ;; advance_read n
      end
  end.
(** derive expand/mod.rs:118-173. *)
Definition sk_body (s : schema) (r : N) : prog unit :=
  match sent s r with
  | None => Fail (EDeserialize MInvalidRevision)
  | Some h =>
      match s_body s with
      | SStruct fs => if h_opt h then sk_struct_opt else sk_fields r fs
      | SEnum vs => if h_opt h then sk_enum_opt r vs else sk_enum_legacy r vs
      end
  end.
Definition sk_derived (s : schema) : prog unit := r <- de_u16 (e_fw E) ;; sk_body s r.
End Rec.
Fixpoint sk_ref (depth : nat) (n : N) : prog unit :=
  match depth with
  | O => Crash PStack
  | S d => match e_sch E n with Some s => sk_derived (sk_ref d) (de_ref E d) s | None => Crash PType end
  end.
(** lib.rs:50-58 [skip_revisioned], [skip_reader]. *)
Definition skip (depth : nat) (t : ty) : prog unit := sk_ty (sk_ref depth) (de_ref E depth) t.

(** ** From a slice: [skip_revisioned_slice] *)

(** skip.rs:64-69, 874-878. *)
Definition ss_blob : sm unit := sm_bind (sr_run (de_len E)) sm_consume.
(** skip.rs:289-334. *)
Definition ss_bulk (k : bk) : sm unit :=
  sm_bind (sr_run (de_len E)) (fun n =>
  match k with
  | BBool => sm_consume (div_ceil8 n)
  | BFix _ 1 => sm_consume n
  | BFix _ w => if n * N.of_nat w <? 2 ^ e_ub E then sm_consume (n * N.of_nat w) else sm_err EOverflow
  | BRaw _ => if n * 16 <? 2 ^ e_ub E then sm_consume (n * 16) else sm_err EOverflow
  end).
(** skip.rs:336-340 and alike. *)
Definition ss_seq (m : sm unit) : sm unit := sm_bind (sr_run (de_len E)) (fun n => sm_rep (N.to_nat n) m).

Section RecS.
Variable rec : N -> sm unit.
Variable drec : N -> prog val.

Fixpoint ss_ty (t : ty) : sm unit :=
  match t with
  (* lib.rs:40-42: the default is [skip_revisioned] *)
  | TBool | TInt _ | TF32 | TF64 | TChar | TDuration | TPath => sr_run (de_ty E drec t ;;; Ret tt)
  | TStr | TBytes => ss_blob
  (* skip.rs:805-807, 826-828 *)
  | TUuid | TDecimal => sm_consume 16
  | TUnit => sm_ret tt
  (* skip.rs:92-96, 183-187 *)
  | TPair a b => sm_bind (ss_ty a) (fun _ => ss_ty b)
  | TVec t' => match (if e_spec E then bulk_of t' else None) with
               | Some k => ss_bulk k
               | None => ss_seq (ss_ty t')
               end
  (* skip.rs:919-925 *)
  | TImVec t' => ss_seq (ss_ty t')
  (* skip.rs:144-150 *)
  | TArray n t' => sm_rep n (ss_ty t')
  (* skip.rs:365-371 *)
  | TOption t' =>
      sm_bind (sr_run read_byte) (fun b =>
      if b =? 0 then sm_ret tt else if b =? 1 then ss_ty t' else sm_err (EDeserialize MBadOption))
  (* skip.rs:397-403 *)
  | TResult a b =>
      sm_bind (sr_run (de_u32 (e_fw E))) (fun d =>
      if d =? 0 then ss_ty a else if d =? 1 then ss_ty b else sm_err (EDeserialize MUnknownVariant))
  (* skip.rs:548-555 *)
  | TBound t' =>
      sm_bind (sr_run (de_u32 (e_fw E))) (fun d =>
      if d =? 0 then sm_ret tt else if d =? 1 then ss_ty t' else if d =? 2 then ss_ty t'
      else sm_err (EDeserialize MUnknownVariant))
  (* skip.rs:623-630, 658-665, 956-963, 1024-1031 *)
  | TMap _ a b => ss_seq (sm_bind (ss_ty a) (fun _ => ss_ty b))
  (* skip.rs:692-698, 723-729, 753-759, 989-995, 1057-1063 *)
  | TSet _ t' | THeap t' => ss_seq (ss_ty t')
  (* skip.rs:425-427, 447-449, 501-503, 523-525, 578-580 *)
  | TWrap t' => ss_ty t'
  (* skip.rs:116-121 *)
  | TSystemTime => sm_bind (sr_run (de_ty E drec (TInt U64) ;;; Ret tt)) (fun _ => sr_run (de_ty E drec (TInt U32) ;;; Ret tt))
  (* default for mirrored types; else skip.rs:783-785, 849-851 *)
  | TExt _ mirror t' => if mirror then sr_run (de_ty E drec t ;;; Ret tt) else ss_ty t'
  | TRef n => rec n
  end.
(** derive skip.rs:133-194 with [slice_mode]. *)
Fixpoint ss_fields (cur : N) (fs : list field) : sm unit :=
  match fs with
  | [] => sm_ret tt
  | f :: fs' =>
      if falive cur f then sm_bind (if f_fixed f then sr_run (sk_fixed (f_ty f)) else ss_ty (f_ty f)) (fun _ => ss_fields cur fs')
      else ss_fields cur fs'
  end.
Definition ss_enum_legacy (cur : N) (vs : list variant) : sm unit :=
  match calc_disc cur vs with
  | None => sm_panic PType
  | Some ds =>
      sm_bind (sr_run (de_u32 (e_fw E))) (fun d =>
      match find_disc d ds with
      | None => sm_err (EDeserialize MUnknownVariant)
      | Some (vr, _) => ss_fields cur (v_fields vr)
      end)
  end.
(** struct_codegen.rs:277-284. *)
Definition ss_struct_opt : sm unit := sm_bind (sr_run read_varlen_len) sm_consume.
(** enum_codegen.rs:264-295 with [slice_mode]. *)
Definition ss_enum_opt (cur : N) (vs : list variant) : sm unit :=
  match calc_disc cur vs with
  | None => sm_panic PType
  | Some ds =>
      sm_bind (sr_run read_tag) (fun t => sm_bind (sr_run (of_res (size_class t))) (fun c =>
      match c with
      | CInline => sm_ret tt
      | CFixed => match nth_error (size_table ds) (N.to_nat (variant_id t)) with
                  | Some n => sm_consume n
                  | None => sm_panic PSlice
                  end
      | CVarlen => sm_bind (sr_run read_varlen_len) sm_consume
      end))
  end.
(** derive expand/mod.rs:174-186. *)
Definition ss_body (s : schema) (r : N) : sm unit :=
  match sent s r with
  | None => sm_err (EDeserialize MInvalidRevision)
  | Some h =>
      match s_body s with
      | SStruct fs => if h_opt h then ss_struct_opt else ss_fields r fs
      | SEnum vs => if h_opt h then ss_enum_opt r vs else ss_enum_legacy r vs
      end
  end.
Definition ss_derived (s : schema) : sm unit := sm_bind (sr_run (de_u16 (e_fw E))) (ss_body s).
End RecS.
Fixpoint ss_ref (depth : nat) (n : N) : sm unit :=
  match depth with
  | O => sm_panic PStack
  | S d => match e_sch E n with Some s => ss_derived (ss_ref d) (de_ref E d) s | None => sm_panic PType end
  end.
Definition skip_on_slice (depth : nat) (t : ty) : sm unit := ss_ty (ss_ref depth) (de_ref E depth) t.
(** lib.rs:72-76 [skip_slice]. *)
Definition skip_slice (depth : nat) (t : ty) (b : bytes) : res N :=
  rmap (fun p => sr_consumed (snd p)) (skip_on_slice depth t (sr_new b)).

(** ** [skip_check_revisioned] *)

Section RecC.
Variable drec : N -> prog val.
(** Range (skip.rs:98-106), SystemTime (124-130), arrays (152-160) and tuples (188-196) recurse; all
    others, derived types included (derive expand/mod.rs:188-200), deserialise and drop the value. *)
Fixpoint sc_ty (t : ty) : prog unit :=
  match t with
  | TUnit => Ret tt
  | TPair a b => sc_ty a ;;; sc_ty b
  | TArray n t' => rep_ n (sc_ty t')
  | TSystemTime => de_ty E drec (TInt U64) ;;; de_ty E drec (TInt U32) ;;; Ret tt
  | _ => de_ty E drec t ;;; Ret tt
  end.
End RecC.
(** lib.rs:60-69 [skip_check_revisioned], [skip_check_reader]. *)
Definition skip_check (depth : nat) (t : ty) : prog unit := sc_ty (de_ref E depth) t.
(** lib.rs:79-84 [skip_check_slice]. *)
Definition skip_check_slice (depth : nat) (t : ty) (b : bytes) : res N :=
  rmap (fun p => len b - len (snd p)) (run (skip_check depth t) b).
End Skip.
