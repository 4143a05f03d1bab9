(** Rust types, values, derive inputs and the build/run environment.  Model part. *)

From Verif Require Import Base Prog Prim Utf8 Tag.
From Coq Require Import List NArith ZArith Bool.
Import ListNotations.
Open Scope N_scope.

(** Hash based or ordered containers: HashMap/HashSet (and imbl's) or BTreeMap/BTreeSet (and
    imbl's OrdMap/OrdSet). *)
Inductive ckind := KHash | KOrd.

(** The types with an implementation under src/implementations, plus derived types.
    - [TPair]/[TUnit]: tuples (tuple.rs:9-88), right nested and ended by [TUnit]; [Range] is the
      two element tuple (range.rs:8-26).
    - [TVec]: Vec (vecs.rs); [TImVec]: imbl::Vector, never bulk encoded (imbl.rs:116-152).
    - [TWrap]: Box, Arc, Cow, Wrapping, Reverse (boxes.rs, arc.rs, cow.rs, wrapping.rs, reverse.rs);
      [Box<str>], [Arc<str>] and [Cow<str>] are [TStr].
    - [TExt c mirror t]: a type of an external crate written as [t] and validated on reading by
      that crate (chrono.rs, notnan.rs, regex.rs, geo.rs); [mirror]: skipping it is
      [skip_mirror_both!] (skip.rs:18-35, 896, 902), otherwise it skips [t] (skip.rs:774-785,
      843-851).
    - [TRef n]: the struct or enum with [#[revisioned]] named [n]. *)
Inductive ty :=
| TBool | TInt (i : ity) | TF32 | TF64 | TChar | TStr | TPath | TBytes | TUuid | TDecimal | TUnit
| TPair (a b : ty)
| TVec (t : ty) | TImVec (t : ty) | TArray (n : nat) (t : ty)
| TOption (t : ty) | TResult (a b : ty) | TBound (t : ty)
| TMap (k : ckind) (a b : ty) | TSet (k : ckind) (t : ty) | THeap (t : ty)
| TWrap (t : ty) | TDuration | TSystemTime
| TExt (c : N) (mirror : bool) (t : ty)
| TRef (n : N).

(** Values.  Floats are their bit patterns and chars their scalar values ([VInt]); strings, paths,
    [Bytes], Uuid and Decimal are [VBytes]; vectors, arrays, sets, heaps, maps (of [VPair]s) and
    structs (fields alive in this program, in declaration order) are [VSeq]; enums are
    [VVar name fields].  None/Some = 0/1, Ok/Err = 0/1, Unbounded/Included/Excluded = 0/1/2. *)
Inductive val :=
| VBool (b : bool)
| VInt (z : Z)
| VBytes (b : bytes)
| VUnit
| VPair (a b : val)
| VSeq (l : list val)
| VVar (k : N) (l : list val).

(** attributes.rs:246-339: at most one of indexed_map/indexed_seq/indexed_set. *)
Inductive fidx := INone | IMap | ISeq | ISet.

(** attributes.rs:164-195 [FieldOptions].  [f_default r] is what [Self::default_fn(r)], or
    [Default::default()], returns; [f_convert this r v] runs [Self::convert_fn(&mut this, r, v)]
    and returns the updated fields. *)
Record field := mkField {
  f_ty : ty;
  f_start : N;
  f_end : option N;
  f_default : N -> res val;
  f_convert : list val -> N -> val -> res (list val);
  f_fixed : bool;
  f_spec : bool;
  f_idx : fidx
}.

(** attributes.rs:640-644 [VariantSize]. *)
Inductive vsize := SInline | SFixed (n : N) | SVarlen.

(** attributes.rs:654-677 [VariantOptions].  [v_over r]: the [override] for revision [r]. *)
Record variant := mkVariant {
  v_name : N;
  v_start : N;
  v_end : option N;
  v_over : N -> option N;
  v_size : option vsize;
  v_fields : list field;
  v_convert : list val -> N -> res val
}.

(** ast/history.rs: one entry per revision. *)
Record hent := mkHent { h_opt : bool; h_idx : bool }.

Inductive body := SStruct (fs : list field) | SEnum (vs : list variant).
(** A derive input as the macro sees it after resolving its history (entry [i] is revision
    [i+1], see Macro.v).  [s_conv]: there is a [convert_fn] somewhere in the declaration.  One on a
    field or variant without [end] is never called, but makes walkers take another path (Walk.v). *)
Record schema := MkSchema { s_hist : list hent; s_body : body; s_conv : bool }.
Notation mkSchema h b := (MkSchema h b false).

(** attributes.rs:186-194, 670-677 [exists_at]. *)
Definition exists_at (s : N) (e : option N) (r : N) : bool :=
  (s <=? r) && match e with None => true | Some e => r <? e end.
Definition falive (r : N) (f : field) : bool := exists_at (f_start f) (f_end f) r.
Definition valive (r : N) (v : variant) : bool := exists_at (v_start v) (v_end v) r.

(** Current revision of a type: derive expand/mod.rs:29-54, the last entry. *)
Definition scur (s : schema) : N := len (s_hist s).
Definition sent (s : schema) (r : N) : option hent :=
  if r =? 0 then None else nth_error (s_hist s) (N.to_nat (r - 1)).

(** Build configuration, platform and externally supplied functions. *)
Record env := mkEnv {
  e_fw : bool;              (* cargo feature fixed-width-encoding *)
  e_spec : bool;            (* cargo feature specialised-vectors *)
  e_dbg : bool;             (* debug assertions and overflow checks *)
  e_ub : N;                 (* pointer width in bits *)
  e_mem : option N;         (* largest single allocation that succeeds, None: all succeed *)
  e_esize : ty -> N;        (* size_of::<T>() *)
  e_cmp : ty -> val -> val -> comparison;   (* T's Ord (or a linearisation of its Eq) *)
  e_iter : ty -> list val -> list val;      (* iteration order of hash tables and heaps *)
  e_dec : bytes -> bytes;   (* rust_decimal: serialize after deserialize *)
  e_ext : N -> val -> option val;           (* external constructors, see TExt *)
  e_time : Z;               (* largest number of seconds a SystemTime holds *)
  e_sch : N -> option schema
}.

(** Encoding of one field. *)
Inductive fmode := MPlain | MFixed | MBulk | MIdxMap | MIdxSeq | MIdxSet.

(** Legacy revisions: derive ser.rs:121-148, de.rs:378-450 (fixed, specialised, else the trait). *)
Definition mode_legacy (f : field) : fmode :=
  if f_fixed f then MFixed else if f_spec f then MBulk else MPlain.
(** Optimised structs: struct_codegen.rs:84-112, 160-179 (indexed_*, else the trait; fixed and
    specialised are ignored). *)
Definition mode_opt (f : field) : fmode :=
  match f_idx f with IMap => MIdxMap | ISeq => MIdxSeq | ISet => MIdxSet | INone => MPlain end.
Definition mode_of (opt : bool) (f : field) : fmode := if opt then mode_opt f else mode_legacy f.
(** Field no longer present in the reading program: de.rs:420-450 on legacy revisions,
    struct_codegen.rs:195-207 on optimised ones (plain, whatever its indexed_* attribute). *)
Definition mode_removed (opt : bool) (f : field) : fmode := if opt then MPlain else mode_legacy f.

(** Bulk vector encodings: vecs.rs:15-134 TypeId dispatch, specialised.rs, uuid.rs, decimal.rs. *)
Inductive bk := BBool | BFix (signed : bool) (w : nat) | BRaw (dec : bool).
Definition bulk_of (t : ty) : option bk :=
  match t with
  | TBool => Some BBool
  | TInt U8 => Some (BFix false 1) | TInt I8 => Some (BFix true 1)
  | TInt U16 => Some (BFix false 2) | TInt I16 => Some (BFix true 2)
  | TInt U32 => Some (BFix false 4) | TInt I32 => Some (BFix true 4)
  | TInt U64 => Some (BFix false 8) | TInt I64 => Some (BFix true 8)
  | TInt U128 => Some (BFix false 16) | TInt I128 => Some (BFix true 16)
  | TF32 => Some (BFix false 4) | TF64 => Some (BFix false 8)
  | TDecimal => Some (BRaw true) | TUuid => Some (BRaw false)
  | _ => None
  end.

(** derive expand/common.rs:136: the types [#[revision(fixed)]] is allowed on. *)
Definition fixed_of (t : ty) : option (bool * nat) :=
  match t with
  | TInt U32 => Some (false, 4%nat) | TInt I32 => Some (true, 4%nat)
  | TInt U64 => Some (false, 8%nat) | TInt I64 => Some (true, 8%nat)
  | TInt U128 => Some (false, 16%nat) | TInt I128 => Some (true, 16%nat)
  | _ => None
  end.

(** derive expand/common.rs:49-125 [CalcDiscriminant], [GatherOverrides].  First the overrides of
    the variants alive at [r] are collected (two equal ones: compile error, here [None]); then
    each remaining variant gets the least number not used so far. *)
Fixpoint gather (r : N) (vs : list variant) (used : list N) : option (list N) :=
  match vs with
  | [] => Some used
  | v :: vs' =>
      if valive r v then
        match v_over v r with
        | Some d => if existsb (N.eqb d) used then None else gather r vs' (d :: used)
        | None => gather r vs' used
        end
      else gather r vs' used
  end.
(** common.rs:88-90: [while self.used.contains(&self.next) { self.next += 1 }]; the fuel is the
    size of the set, one more step than it can need. *)
Fixpoint next_free (fuel : nat) (used : list N) (next : N) : N :=
  match fuel with
  | O => next
  | S f => if existsb (N.eqb next) used then next_free f used (next + 1) else next
  end.
Fixpoint assign (r : N) (vs : list variant) (used : list N) (next : N) : list (variant * N) :=
  match vs with
  | [] => []
  | v :: vs' =>
      if valive r v then
        match v_over v r with
        | Some d => (v, d) :: assign r vs' used next
        | None => let d := next_free (length used) used next in
                  (v, d) :: assign r vs' (d :: used) d
        end
      else assign r vs' used next
  end.
Definition calc_disc (r : N) (vs : list variant) : option (list (variant * N)) :=
  match gather r vs [] with
  | Some used => Some (assign r vs used 0)
  | None => None
  end.

(** Monadic map in [res]. *)
Fixpoint rmapM {A B} (f : A -> res B) (l : list A) : res (list B) :=
  match l with
  | [] => Ok []
  | x :: l' => rbind (f x) (fun y => rbind (rmapM f l') (fun l'' => Ok (y :: l'')))
  end.

(** Lexicographic order on byte strings: [Ord for [u8]]. *)
Fixpoint bcmp (a b : bytes) : comparison :=
  match a, b with
  | [], [] => Eq
  | [], _ :: _ => Lt
  | _ :: _, [] => Gt
  | x :: a', y :: b' => match x ?= y with Eq => bcmp a' b' | c => c end
  end.

(** Stable insertion sort: [slice::sort_by] of the standard library (the algorithm differs, the
    result of a stable sort is determined). *)
Fixpoint sinsert {A} (cmp : A -> A -> comparison) (x : A) (l : list A) : list A :=
  match l with
  | [] => [x]
  | y :: l' => match cmp x y with Gt => y :: sinsert cmp x l' | _ => x :: l end
  end.
Fixpoint ssort {A} (cmp : A -> A -> comparison) (l : list A) : list A :=
  match l with [] => [] | x :: l' => sinsert cmp x (ssort cmp l') end.

(** Insertion into an ordered association list: [upd old new] is stored when the keys compare
    equal. *)
Fixpoint cinsert (cmp : val -> val -> comparison) (key : val -> val) (upd : val -> val -> val)
         (e : val) (l : list val) : list val :=
  match l with
  | [] => [e]
  | x :: l' => match cmp (key e) (key x) with
               | Lt => e :: l
               | Eq => upd x e :: l'
               | Gt => x :: cinsert cmp key upd e l'
               end
  end.
Definition cbuild cmp key upd (l : list val) : list val :=
  fold_left (fun acc e => cinsert cmp key upd e acc) l [].

Definition pkey (p : val) : val := match p with VPair k _ => k | v => v end.
Definition pval (p : val) : val := match p with VPair _ v => v | v => v end.
(** HashMap::insert and BTreeMap::insert: the old key stays, the value is replaced. *)
Definition upd_insert (old new : val) : val := VPair (pkey old) (pval new).
(** BTreeMap/BTreeSet built by [collect]: stable sort, then of equal neighbours the last stays. *)
Definition upd_last (_ new : val) : val := new.
(** HashSet::insert: the old element stays. *)
Definition upd_first (old _ : val) : val := old.
Definition vid (v : val) : val := v.

(** Structural order on values, used as the canonical order of heaps. *)
Definition bcomp (a b : bool) : comparison :=
  match a, b with false, true => Lt | true, false => Gt | _, _ => Eq end.
Definition vtag (v : val) : N :=
  match v with VBool _ => 0 | VInt _ => 1 | VBytes _ => 2 | VUnit => 3 | VPair _ _ => 4
             | VSeq _ => 5 | VVar _ _ => 6 end.
Fixpoint vcmp (a b : val) {struct a} : comparison :=
  let lcmp := (fix lcmp (x y : list val) {struct x} : comparison :=
    match x, y with
    | [], [] => Eq
    | [], _ :: _ => Lt
    | _ :: _, [] => Gt
    | u :: x', w :: y' => match vcmp u w with Eq => lcmp x' y' | c => c end
    end) in
  match a, b with
  | VBool x, VBool y => bcomp x y
  | VInt x, VInt y => (x ?= y)%Z
  | VBytes x, VBytes y => bcmp x y
  | VUnit, VUnit => Eq
  | VPair x1 x2, VPair y1 y2 => match vcmp x1 y1 with Eq => vcmp x2 y2 | c => c end
  | VSeq x, VSeq y => lcmp x y
  | VVar k x, VVar k' y => match k ?= k' with Eq => lcmp x y | c => c end
  | _, _ => vtag a ?= vtag b
  end.

(** An allocation of [n] bytes ([with_capacity], [vec![x; n]]). *)
Definition alloc (e : env) (n : N) : prog unit :=
  match e_mem e with
  | None => Ret tt
  | Some m => if n <=? m then Ret tt else Crash PMem
  end.
