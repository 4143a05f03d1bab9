(** Which values can be encoded and how long their encoding is: specification part.  Computed from the value
    alone: no writers, no order of iteration. *)

From Verif Require Import Base Prim Utf8 Ty Spec.
From Coq Require Import List NArith ZArith Bool.
Import ListNotations.
Open Scope N_scope.

(** [None]: cannot be encoded. *)
Definition oadd (a b : option N) : option N := match a, b with Some x, Some y => Some (x + y) | _, _ => None end.
Definition ototal (l : list (option N)) : option N := fold_right oadd (Some 0) l.
(** Sizes stored in four bytes. *)
Definition upto32 (o : option N) : option N := match o with Some n => if n <? 2 ^ 32 then Some n else None | None => None end.

Section WSize.
Variable E : env.

(** An integer: one byte for u8 and i8; else by the feature fixed-width-encoding the width of the type (usize: eight
    bytes) or the size of the variable-length form. *)
Definition int_size (i : ity) (z : Z) : N :=
  match i with
  | U8 | I8 => 1
  | _ => if e_fw E then ity_bits 64 i / 8 else width (code i z)
  end.
Definition nat_size (i : ity) (n : N) : N := int_size i (Z.of_N n).
(** UTF-8. *)
Definition char_size (z : Z) : N := if (z <? 128)%Z then 1 else if (z <? 2048)%Z then 2 else if (z <? 65536)%Z then 3 else 4.
Definition blob_size (b : bytes) : N := nat_size Usize (len b) + len b.
Definition bulk_size (k : bk) (n : N) : N :=
  nat_size Usize n + match k with BBool => (n + 7) / 8 | BFix _ w => n * N.of_nat w | BRaw _ => n * 16 end.

Section Rec.
Variable rec : N -> val -> option N.
Fixpoint size_ty (t : ty) (v : val) {struct t} : option N :=
  match t, v with
  | TBool, VBool _ => Some 1
  | TInt i, VInt z => Some (int_size i z)
  | TF32, VInt _ => Some 4
  | TF64, VInt _ => Some 8
  | TChar, VInt z => Some (char_size z)
  | TStr, VBytes b | TBytes, VBytes b => Some (blob_size b)
  | TPath, VBytes b => if utf8_ok b then Some (blob_size b) else None
  | TUuid, VBytes _ | TDecimal, VBytes _ => Some 16
  | TUnit, VUnit => Some 0
  | TPair a b, VPair x y => oadd (size_ty a x) (size_ty b y)
  | TVec t', VSeq l =>
      match (if e_spec E then bulk_of t' else None) with
      | Some k => Some (bulk_size k (len l))
      | None => oadd (Some (nat_size Usize (len l))) (ototal (map (size_ty t') l))
      end
  | TImVec t', VSeq l | TSet _ t', VSeq l | THeap t', VSeq l =>
      oadd (Some (nat_size Usize (len l))) (ototal (map (size_ty t') l))
  | TMap _ a b, VSeq l =>
      oadd (Some (nat_size Usize (len l)))
           (ototal (map (fun p => match p with VPair x y => oadd (size_ty a x) (size_ty b y) | _ => None end) l))
  | TArray _ t', VSeq l => ototal (map (size_ty t') l)
  | TOption t', VVar _ l => oadd (Some 1) (ototal (map (size_ty t') l))
  | TResult a b, VVar k l => oadd (Some (nat_size U32 k)) (ototal (map (fun x => if k =? 0 then size_ty a x else size_ty b x) l))
  | TBound t', VVar k l => oadd (Some (nat_size U32 k)) (ototal (map (size_ty t') l))
  | TWrap t', _ => size_ty t' v
  | TDuration, VPair (VInt s) (VInt n) => Some (int_size U64 s + int_size U32 n)
  | TSystemTime, VPair (VInt s) (VInt n) => if (s <? 0)%Z then None else Some (int_size U64 s + int_size U32 n)
  | TExt _ _ t', _ => size_ty t' v
  | TRef n, _ => rec n v
  | _, _ => None
  end.

(** One field.  [indexed_*]: the flag, the number of entries as a variable-length number and, from eight entries on,
    the table. *)
Definition idx_head (n table : N) : N := 1 + width n + if n <? 8 then 0 else table.
Definition size_mode (m : fmode) (t : ty) (v : val) : option N :=
  match m, t, v with
  | MPlain, _, _ => size_ty t v
  | MFixed, _, _ => match fixed_of t with Some (_, w) => Some (N.of_nat w) | None => None end
  | MBulk, TVec t', VSeq l => match bulk_of t' with Some k => Some (bulk_size k (len l)) | None => None end
  | MIdxMap, TMap _ a b, VSeq l =>
      oadd (Some (idx_head (len l) (8 * len l + 8)))
           (ototal (map (fun p => match p with VPair x y => oadd (size_ty a x) (size_ty b y) | _ => None end) l))
  | MIdxSeq, TVec t', VSeq l | MIdxSeq, TImVec t', VSeq l | MIdxSet, TSet _ t', VSeq l =>
      oadd (Some (idx_head (len l) (4 * len l))) (ototal (map (size_ty t') l))
  | _, _, _ => None
  end.
(** The fields alive at [r] next to their values; [mode]: how a field is encoded. *)
Fixpoint size_fields (mode : field -> fmode) (fs : list field) (l : list val) : option N :=
  match fs, l with
  | f :: fs', v :: l' => oadd (size_mode (mode f) (f_ty f) v) (size_fields mode fs' l')
  | [], [] => Some 0
  | _, _ => None
  end.
Definition live (r : N) (fs : list field) : list field := filter (falive r) fs.

(** The revision, then a struct: the fields; optimised: a four byte size, the offsets of the fields if [indexed],
    the fields. *)
Definition size_struct (h : hent) (r : N) (fs : list field) (l : list val) : option N :=
  if h_opt h then
    oadd (Some 4) (upto32 (oadd (Some (if h_idx h then 4 * len (live r fs) else 0)) (size_fields mode_opt (live r fs) l)))
  else size_fields mode_legacy (live r fs) l.
(** An enum: the discriminant as a u32 and the fields; optimised: one byte and the fields, for [varlen] variants
    after a four byte size.  A build with debug assertions checks the size declared for [fixed] variants. *)
Definition size_enum (h : hent) (r : N) (vr : variant) (d : N) (l : list val) : option N :=
  if h_opt h then
    let body := size_fields (fun _ => MPlain) (live r (v_fields vr)) l in
    match v_size vr with
    | Some SInline => Some 1
    | Some (SFixed n) =>
        match body with
        | Some m => if e_dbg E && negb (m =? n) then None else Some (1 + m)
        | None => None
        end
    | Some SVarlen => oadd (Some 5) (upto32 body)
    | None => None
    end
  else oadd (Some (nat_size U32 d)) (size_fields mode_legacy (live r (v_fields vr)) l).
Definition size_derived (s : schema) (v : val) : option N :=
  match sent s (scur s) with
  | None => None
  | Some h =>
      oadd (Some (nat_size U16 (scur s)))
        match s_body s, v with
        | SStruct fs, VSeq l => size_struct h (scur s) fs l
        | SEnum vs, VVar k l =>
            match calc_disc (scur s) vs with
            | Some ds => match find (fun p => v_name (fst p) =? k) ds with
                         | Some (vr, d) => size_enum h (scur s) vr d l
                         | None => None
                         end
            | None => None
            end
        | _, _ => None
        end
  end.
End Rec.

Fixpoint size_ref (depth : nat) (n : N) (v : val) : option N :=
  match depth with
  | O => None
  | S d => match e_sch E n with Some s => size_derived (size_ref d) s v | None => None end
  end.
(** [depth]: how deep derived types are nested in each other. *)
Definition wire_size (depth : nat) (t : ty) (v : val) : option N := size_ty (size_ref depth) t v.
End WSize.
