(** The bincode format (crate bincode 1.3, little endian, no limit) over serde's data model, and how serde presents
    the types at hand: specification part.  Nothing here refers to the writers of this crate. *)

From Verif Require Import Base Prim Utf8 Ty.
From Coq Require Import List NArith ZArith Bool.
Import ListNotations.
Open Scope N_scope.

(** serde's data model, as far as it is used here.  [DVariant i l]: unit and newtype variants. *)
Inductive data :=
| DBool (b : bool)
| DUint (w : N) (n : N) | DSint (w : N) (z : Z)    (* width in bits *)
| DFloat (w : N) (bits : N)
| DChar (c : N)
| DStr (b : bytes) | DBytes (b : bytes)
| DUnit
| DNone | DSome (x : data)
| DVariant (i : N) (l : list data)
| DSeq (l : list data)
| DMap (l : list (data * data))
| DTuple (l : list data).

(** [with_varint_encoding]: numbers up to 250 as they are, larger ones after 251, 252, 253 or 254 in 2, 4, 8 or 16
    bytes.  [with_fixint_encoding] ([fix_int]): the width of the type; two's complement.  u8 and i8 are one byte in
    both, lengths are u64, variant numbers u32. *)
Definition bin_varint (n : N) : bytes :=
  if n <=? 250 then [n]
  else if n <=? 65535 then 251 :: le_bytes 2 n
  else if n <=? 4294967295 then 252 :: le_bytes 4 n
  else if n <=? 18446744073709551615 then 253 :: le_bytes 8 n
  else 254 :: le_bytes 16 n.
Definition bin_zigzag (z : Z) : N := if (0 <=? z)%Z then Z.to_N (2 * z) else Z.to_N (- 2 * z - 1).
Definition bin_fixed (w : N) (z : Z) : bytes := le_bytes (N.to_nat (w / 8)) (Z.to_N (z mod 2 ^ Z.of_N w)).

Section Bincode.
Variable fix_int : bool.
Definition bin_uint (w n : N) : bytes := if (w =? 8) || fix_int then bin_fixed w (Z.of_N n) else bin_varint n.
Definition bin_sint (w : N) (z : Z) : bytes := if (w =? 8) || fix_int then bin_fixed w z else bin_varint (bin_zigzag z).
Fixpoint bincode (x : data) : bytes :=
  match x with
  | DBool b => [if b then 1 else 0]
  | DUint w n => bin_uint w n
  | DSint w z => bin_sint w z
  | DFloat w bits => bin_fixed w (Z.of_N bits)
  | DChar c => utf8_encode c
  | DStr b | DBytes b => bin_uint 64 (len b) ++ b
  | DUnit => []
  | DNone => [0]
  | DSome x => 1 :: bincode x
  | DVariant i l => bin_uint 32 i ++ flat_map bincode l
  | DSeq l => bin_uint 64 (len l) ++ flat_map bincode l
  | DMap l => bin_uint 64 (len l) ++ flat_map (fun p => match p with (k, v) => bincode k ++ bincode v end) l
  | DTuple l => flat_map bincode l
  end.
End Bincode.

(** All or nothing. *)
Fixpoint oall {A} (l : list (option A)) : option (list A) :=
  match l with
  | [] => Some []
  | Some x :: l' => match oall l' with Some r => Some (x :: r) | None => None end
  | None :: _ => None
  end.
Definition omap {A B} (f : A -> B) (o : option A) : option B := match o with Some a => Some (f a) | None => None end.

Section Serde.
Variable E : env.
(** External types that serde presents like the type they are written as here (geo's). *)
Variable same : N -> bool.

Definition serde_int (i : ity) (z : Z) : data :=
  match i with
  | U8 => DUint 8 (Z.to_N z) | U16 => DUint 16 (Z.to_N z) | U32 => DUint 32 (Z.to_N z)
  | U64 | Usize => DUint 64 (Z.to_N z) | U128 => DUint 128 (Z.to_N z)
  | I8 => DSint 8 z | I16 => DSint 16 z | I32 => DSint 32 z | I64 | Isize => DSint 64 z | I128 => DSint 128 z
  end.
(** Hash tables and heaps are presented in the order in which they iterate. *)
Definition serde_order (k : ckind) (t : ty) (l : list val) : list val := match k with KHash => e_iter E t l | KOrd => l end.

Section Rec.
Variable rec : N -> val -> option data.
(** Tuples are right nested pairs as in the model (serde's are flat; bincode writes nothing around a tuple). *)
Fixpoint serde_ty (t : ty) (v : val) {struct t} : option data :=
  match t, v with
  | TBool, VBool b => Some (DBool b)
  | TInt i, VInt z => Some (serde_int i z)
  | TF32, VInt z => Some (DFloat 32 (Z.to_N z))
  | TF64, VInt z => Some (DFloat 64 (Z.to_N z))
  | TChar, VInt z => Some (DChar (Z.to_N z))
  | TStr, VBytes b => Some (DStr b)
  | TPath, VBytes b => if utf8_ok b then Some (DStr b) else None
  | TBytes, VBytes b => Some (DBytes b)
  | TUuid, VBytes b => Some (DBytes b)
  | TUnit, VUnit => Some DUnit
  | TPair a b, VPair x y =>
      match serde_ty a x, serde_ty b y with
      | Some p, Some q => Some (DTuple [p; q])
      | _, _ => None
      end
  | TVec t', VSeq l | TImVec t', VSeq l => omap DSeq (oall (map (serde_ty t') l))
  | TSet k t', VSeq l => omap DSeq (oall (map (serde_ty t') (serde_order k (TSet k t') l)))
  | THeap t', VSeq l => omap DSeq (oall (map (serde_ty t') (serde_order KHash (THeap t') l)))
  | TArray _ t', VSeq l => omap DTuple (oall (map (serde_ty t') l))
  | TOption t', VVar k l =>
      match k, l with 0, [] => Some DNone | 1, [x] => omap DSome (serde_ty t' x) | _, _ => None end
  | TResult a b, VVar k l =>
      match k, l with
      | 0, [x] => omap (fun y => DVariant 0 [y]) (serde_ty a x)
      | 1, [x] => omap (fun y => DVariant 1 [y]) (serde_ty b x)
      | _, _ => None
      end
  | TBound t', VVar k l =>
      match k, l with
      | 0, [] => Some (DVariant 0 [])
      | 1, [x] => omap (fun y => DVariant 1 [y]) (serde_ty t' x)
      | 2, [x] => omap (fun y => DVariant 2 [y]) (serde_ty t' x)
      | _, _ => None
      end
  | TMap k a b, VSeq l =>
      omap DMap (oall (map (fun p => match p with
                                     | VPair x y => match serde_ty a x, serde_ty b y with Some p, Some q => Some (p, q) | _, _ => None end
                                     | _ => None
                                     end) (serde_order k (TMap k a b) l)))
  | TWrap t', _ => serde_ty t' v
  | TDuration, VPair (VInt s) (VInt n) => Some (DTuple [DUint 64 (Z.to_N s); DUint 32 (Z.to_N n)])
  | TSystemTime, VPair (VInt s) (VInt n) => if (s <? 0)%Z then None else Some (DTuple [DUint 64 (Z.to_N s); DUint 32 (Z.to_N n)])
  | TExt _ _ t', _ => serde_ty t' v
  | TRef n, _ => rec n v
  | _, _ => None
  end.

(** A type with [#[revisioned]]: the revision, then the fields or the variant. *)
Fixpoint serde_fields (fs : list field) (l : list val) : list (option data) :=
  match fs, l with f :: fs', v :: l' => serde_ty (f_ty f) v :: serde_fields fs' l' | _, _ => [] end.
Definition serde_derived (s : schema) (v : val) : option data :=
  let r := scur s in
  match s_body s, v with
  | SStruct fs, VSeq l => omap (fun xs => DTuple (DUint 16 r :: xs)) (oall (serde_fields (filter (falive r) fs) l))
  | SEnum vs, VVar k l =>
      match calc_disc r vs with
      | Some ds => match find (fun p => v_name (fst p) =? k) ds with
                   | Some (vr, d) => omap (fun xs => DTuple [DUint 16 r; DVariant d xs]) (oall (serde_fields (filter (falive r) (v_fields vr)) l))
                   | None => None
                   end
      | None => None
      end
  | _, _ => None
  end.
End Rec.
Fixpoint serde_ref (depth : nat) (n : N) (v : val) : option data :=
  match depth with
  | O => None
  | S d => match e_sch E n with Some s => serde_derived (serde_ref d) s v | None => None end
  end.
Definition serde (depth : nat) (t : ty) (v : val) : option data := serde_ty (serde_ref depth) t v.

(** ** Types whose encoding is to be bincode's *)

(** Without fixed-width-encoding all integers, with it the unsigned ones and i8. *)
Definition bin_int (i : ity) : bool := negb (e_fw E) || match i with I16 | I32 | I64 | I128 | Isize => false | _ => true end.
(** Vectors in bulk form: elements of one byte and floats; with fixed-width-encoding all integers. *)
Definition bin_bulk (t : ty) : bool :=
  match t with
  | TInt U8 | TInt I8 | TF32 | TF64 => true
  | TInt _ => e_fw E
  | _ => false
  end.
Fixpoint bin_ty (t : ty) : bool :=
  match t with
  | TInt i => bin_int i
  | TUuid | TDecimal => false
  | TVec t' => match bulk_of t' with Some _ => if e_spec E then bin_bulk t' else bin_ty t' | None => bin_ty t' end
  | TPair a b | TResult a b | TMap _ a b => bin_ty a && bin_ty b
  | TImVec t' | TArray _ t' | TOption t' | TBound t' | TSet _ t' | THeap t' | TWrap t' => bin_ty t'
  | TExt c _ t' => same c && bin_ty t'
  | _ => true
  end.
(** Derived types: not [optimised], no [fixed] and [specialised] fields. *)
Definition bin_fields (r : N) (fs : list field) : bool :=
  forallb (fun f => bin_ty (f_ty f) && negb (f_fixed f) && negb (f_spec f)) (filter (falive r) fs).
Definition bin_types : Prop := forall n s, e_sch E n = Some s ->
  (forall h, sent s (scur s) = Some h -> h_opt h = false)
  /\ match s_body s with
     | SStruct fs => bin_fields (scur s) fs = true
     | SEnum vs => Forall (fun vr => bin_fields (scur s) (v_fields vr) = true) vs
     end.
End Serde.
