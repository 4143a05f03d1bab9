(** The front end of the derive macro: from attributes to a schema, or a compile error.  Model.

    Modelled from the parsed options on: revision-derive/src/ast/attributes.rs (everything but the token
    parsers, which are in Syntax.v), ast/history.rs, expand/mod.rs:22-60 and the errors and [impl]s of the rest of it,
    expand/validate_version.rs, and every [Err] that expand/{ser,de,skip,walk}.rs and
    expand/optimised/*.rs can return.  Simplifications: spans and texts of errors are dropped;
    [size = ".."] and [map = ".."] are taken after parsing the string; a path in [convert_fn] or
    [default_fn] is represented by the function it names; type names are spelled out, so that
    [#[revision(fixed)]] sees the type (no aliases); when several errors are present, which of them is reported
    may differ from the code. *)

From Verif Require Import Base Ty.
From Coq Require Import List NArith ZArith Bool.
Import ListNotations.
Open Scope N_scope.

Inductive merr :=
| MLiteral                (* base10_parse: literal out of range *)
| MTwice                  (* "tried to set an option twice" *)
| MManyIndexed            (* attributes.rs:281-312 *)
| MEndConvert             (* attributes.rs:329-336, 822-829 *)
| MOverride               (* attributes.rs:783-813 *)
| MSizeClass              (* attributes.rs:832-855 *)
| MEncodingName           (* attributes.rs:468-498 *)
| MNotOptimised           (* attributes.rs:504-513 *)
| MMixed                  (* attributes.rs:594-597 *)
| MZero                   (* attributes.rs:599-601 *)
| MDuplicate (n : N)      (* attributes.rs:618-622 *)
| MGap (expected found : N) (* attributes.rs:624-630 *)
| MNoRevision             (* mod.rs:33-36 *)
| MTwoSources             (* mod.rs:39 *)
| MTooLarge               (* mod.rs:46-51 *)
| MRange                  (* validate_version.rs: used revision exceeds current revision *)
| MManyVariants           (* validate_version.rs:67-76 *)
| MNoSize                 (* validate_version.rs:78-85 *)
| MWideDiscriminant       (* validate_version.rs:88-98 *)
| MClash                  (* common.rs:118-120 *)
| MInlineFields           (* enum_codegen.rs:107-112 *)
| MFixedType              (* common.rs:163-171 *)
| MWalkConvert            (* walk.rs:75-83 *)
| MSyntax.                (* an error of the parsers: Syntax.v *)

Inductive mres (A : Type) := Done (a : A) | Fail (e : merr).
Arguments Done {A} a.
Arguments Fail {A} e.
Definition mbind {A B} (m : mres A) (f : A -> mres B) : mres B :=
  match m with Done a => f a | Fail e => Fail e end.
Fixpoint mfold {A B} (f : B -> A -> mres B) (b : B) (l : list A) : mres B :=
  match l with [] => Done b | x :: l' => mbind (f b x) (fun b' => mfold f b' l') end.
Fixpoint mmap {A B} (f : A -> mres B) (l : list A) : mres (list B) :=
  match l with [] => Done [] | x :: l' => mbind (f x) (fun y => mbind (mmap f l') (fun ys => Done (y :: ys))) end.
Fixpoint mall {A} (f : A -> mres unit) (l : list A) : mres unit :=
  match l with [] => Done tt | x :: l' => mbind (f x) (fun _ => mall f l') end.
Definition guard (b : bool) (e : merr) : mres unit := if b then Done tt else Fail e.

(** attributes.rs:95-108: literals are parsed into [usize] (64 bits on the compiling host) or [u32]. *)
Definition lit (w : N) (n : N) : mres N := if n <? 2 ^ w then Done n else Fail MLiteral.
(** [if res.x.is_some() { return Err(..) } res.x = Some(v)] *)
Definition once {A} (o : option A) (x : A) : mres (option A) :=
  match o with Some _ => Fail MTwice | None => Done (Some x) end.

(** ** Fields *)

(** attributes.rs:197-207 [FieldOption]. *)
Inductive fopt :=
| FStart (n : N) | FEnd (n : N)
| FConvert (c : list val -> N -> val -> res (list val))
| FDefault (d : N -> res val)
| FIndexed (i : fidx)     (* indexed_map, indexed_seq, indexed_set; not INone *)
| FFixed | FSpecialised.
(** attributes.rs:164-184 [FieldOptions]. *)
Record fopts := mkFopts {
  fo_start : option N;
  fo_end : option N;
  fo_convert : option (list val -> N -> val -> res (list val));
  fo_default : option (N -> res val);
  fo_idx : fidx;
  fo_fixed : bool;
  fo_spec : bool
}.
Definition fopts0 : fopts := mkFopts None None None None INone false false.
Definition same_idx (a b : fidx) : bool :=
  match a, b with IMap, IMap | ISeq, ISeq | ISet, ISet | INone, INone => true | _, _ => false end.
(** attributes.rs:252-327. *)
Definition fstep (o : fopts) (x : fopt) : mres fopts :=
  let '(mkFopts s e c d i fx sp) := o in
  match x with
  | FStart n => mbind (lit 64 n) (fun n => mbind (once s n) (fun s => Done (mkFopts s e c d i fx sp)))
  | FEnd n => mbind (lit 64 n) (fun n => mbind (once e n) (fun e => Done (mkFopts s e c d i fx sp)))
  | FConvert f => mbind (once c f) (fun c => Done (mkFopts s e c d i fx sp))
  | FDefault f => mbind (once d f) (fun d => Done (mkFopts s e c d i fx sp))
  | FIndexed i' =>
      match i with
      | INone => Done (mkFopts s e c d i' fx sp)
      | _ => Fail (if same_idx i i' then MTwice else MManyIndexed)
      end
  | FFixed => if fx then Fail MTwice else Done (mkFopts s e c d i true sp)
  | FSpecialised => if sp then Fail MTwice else Done (mkFopts s e c d i fx true)
  end.
(** attributes.rs:246-339. *)
Definition finish_field (l : list fopt) : mres fopts :=
  mbind (mfold fstep fopts0 l) (fun o =>
  match fo_end o, fo_convert o with Some _, None => Fail MEndConvert | _, _ => Done o end).

(** A field of the declaration: type, what [Default::default()] returns for it, options. *)
Record mfield := mkMfield { mf_ty : ty; mf_default : res val; mf_opts : list fopt }.
Definition start_of (o : option N) : N := match o with Some n => n | None => 0 end.
(** The functions that an absent option stands for: [Default::default()]; no [convert_fn] is ever called
    unless given (proved in MacroL.v). *)
Definition never_field : list val -> N -> val -> res (list val) := fun _ _ _ => Panic PType.
Definition never_variant : list val -> N -> res val := fun _ _ => Panic PType.
Definition field_of (m : mfield) (o : fopts) : field :=
  mkField (mf_ty m) (start_of (fo_start o)) (fo_end o)
    (match fo_default o with Some d => d | None => fun _ => mf_default m end)
    (match fo_convert o with Some c => c | None => never_field end)
    (fo_fixed o) (fo_spec o) (fo_idx o).
Definition parse_field (m : mfield) : mres (field * bool) :=
  mbind (finish_field (mf_opts m)) (fun o =>
  Done (field_of m o, match fo_convert o with Some _ => true | None => false end)).

(** ** Variants *)

(** attributes.rs:687-700 [VariantOption]; [override(..)] is a list of options itself.  [default_fn] and
    [fields_name] are parsed and not used by what is modelled. *)
Inductive oopt := ODiscriminant (n : N) | ORevision (n : N).
Inductive vopt :=
| VStart (n : N) | VEnd (n : N) | VConvert (c : list val -> N -> res val)
| VDefault | VFieldsName | VOverride (l : list oopt) | VSize (z : vsize).
Record vopts := mkVopts {
  vo_start : option N;
  vo_end : option N;
  vo_convert : option (list val -> N -> res val);
  vo_default : bool;
  vo_fields : bool;
  vo_over : list (N * option N);      (* newest first *)
  vo_size : option vsize
}.
Definition vopts0 : vopts := mkVopts None None None false false [] None.
(** attributes.rs:785-805. *)
Definition ostep (o : option N * option N) (x : oopt) : mres (option N * option N) :=
  let lit_once w o n := mbind (lit w n) (fun n => match o with Some _ => Fail MOverride | None => Done (Some n) end) in
  match x with
  | ODiscriminant n => mbind (lit_once 32 (fst o) n) (fun d => Done (d, snd o))
  | ORevision n => mbind (lit_once 64 (snd o) n) (fun r => Done (fst o, r))
  end.
(** attributes.rs:740-815. *)
Definition vstep (o : vopts) (x : vopt) : mres vopts :=
  let '(mkVopts s e c d f ov z) := o in
  match x with
  | VStart n => mbind (lit 64 n) (fun n => mbind (once s n) (fun s => Done (mkVopts s e c d f ov z)))
  | VEnd n => mbind (lit 64 n) (fun n => mbind (once e n) (fun e => Done (mkVopts s e c d f ov z)))
  | VConvert g => mbind (once c g) (fun c => Done (mkVopts s e c d f ov z))
  | VDefault => if d then Fail MTwice else Done (mkVopts s e c true f ov z)
  | VFieldsName => if f then Fail MTwice else Done (mkVopts s e c d true ov z)
  | VOverride l =>
      mbind (mfold ostep (None, None) l) (fun p =>
      match snd p with
      | None => Fail MOverride
      | Some r => Done (mkVopts s e c d f ((r, fst p) :: ov) z)
      end)
  | VSize z' =>
      mbind (once z z') (fun z'' =>
      match z' with
      | SFixed n => if n <? 256 then Done (mkVopts s e c d f ov z'') else Fail MSizeClass
      | _ => Done (mkVopts s e c d f ov z'')
      end)
  end.
Definition finish_variant (l : list vopt) : mres vopts :=
  mbind (mfold vstep vopts0 l) (fun o =>
  match vo_end o, vo_convert o with Some _, None => Fail MEndConvert | _, _ => Done o end).
(** attributes.rs:812 [overrides.insert], common.rs:110-116: the last one for a revision counts. *)
Definition over_at (l : list (N * option N)) (r : N) : option N :=
  match find (fun p => fst p =? r) l with Some p => snd p | None => None end.

Record mvariant := mkMvariant { mv_name : N; mv_opts : list vopt; mv_fields : list mfield }.
Definition variant_of (m : mvariant) (o : vopts) (fs : list field) : variant :=
  mkVariant (mv_name m) (start_of (vo_start o)) (vo_end o) (over_at (vo_over o)) (vo_size o) fs
    (match vo_convert o with Some c => c | None => never_variant end).
Definition parse_variant (m : mvariant) : mres (variant * bool) :=
  mbind (finish_variant (mv_opts m)) (fun o =>
  mbind (mmap parse_field (mv_fields m)) (fun fs =>
  Done (variant_of m o (map fst fs),
        match vo_convert o with Some _ => true | None => existsb snd fs end))).

(** ** Items *)

(** attributes.rs:385-390 [RevisionEntryOption]; the string after [map =], [seq =] is "default" or not. *)
Inductive eopt := EOptimised | EMap (default : bool) | ESeq (default : bool) | EIndexedStruct.
(** attributes.rs:368-375 [ItemOption]. *)
Inductive iopt :=
| IRevision (n : N)
| IEntry (n : N) (l : list eopt)
| ISerialize (b : bool) | IDeserialize (b : bool) | ISkip (b : bool) | IWalk (b : bool).
(** One [HistoryEntry]: number, optimised, indexed_struct. *)
Notation hist := (N * hent)%type.
(** attributes.rs:458-515 [build_history_entry]. *)
Definition estep (h : hent) (x : eopt) : mres hent :=
  match x with
  | EOptimised => Done (mkHent true (h_idx h))
  | EMap d | ESeq d => if d then Done h else Fail MEncodingName
  | EIndexedStruct => Done (mkHent (h_opt h) true)
  end.
Definition build_history_entry (n : N) (l : list eopt) : mres hist :=
  mbind (lit 64 n) (fun n =>
  mbind (mfold estep (mkHent false false) l) (fun h =>
  if negb (h_opt h) && h_idx h then Fail MNotOptimised else Done (n, h))).

(** attributes.rs:586-635 [resolve_history]. *)
Fixpoint legacy_from (i : N) (n : nat) : list hist :=
  match n with O => [] | S n' => (i, mkHent false false) :: legacy_from (i + 1) n' end.
Definition by_number (a b : hist) : comparison := fst a ?= fst b.
(** [expected] is [idx + 1]; [prev]: the number before. *)
Fixpoint contiguous (expected : N) (prev : option N) (l : list hist) : mres unit :=
  match l with
  | [] => Done tt
  | (n, _) :: l' =>
      if n =? expected then contiguous (expected + 1) (Some n) l'
      else match prev with
           | Some p => if n =? p then Fail (MDuplicate n) else Fail (MGap expected n)
           | None => Fail (MGap expected n)
           end
  end.
Definition resolve_history (legacy : option N) (entries : list hist) : mres (list hist) :=
  match legacy, entries with
  | Some _, _ :: _ => Fail MMixed
  | Some n, [] => if n =? 0 then Fail MZero else Done (legacy_from 1 (N.to_nat n))
  | None, _ :: _ => let sorted := ssort by_number entries in
                    mbind (contiguous 1 None sorted) (fun _ => Done sorted)
  | None, [] => Done []
  end.

(** attributes.rs:517-577 [ItemOptions::finish]; [iopts] holds the [Option]s of that function. *)
Record iopts := mkIopts {
  io_revision : option N;
  io_entries : list hist;             (* in order *)
  io_ser : bool; io_de : bool; io_skip : option bool; io_walk : option bool
}.
Definition iopts0 : iopts := mkIopts None [] true true None None.
Definition istep (o : iopts) (x : iopt) : mres iopts :=
  let '(mkIopts r en s d k w) := o in
  match x with
  | IRevision n => match r with Some _ => Fail MTwice | None => mbind (lit 64 n) (fun n => Done (mkIopts (Some n) en s d k w)) end
  | IEntry n l => mbind (build_history_entry n l) (fun h => Done (mkIopts r (en ++ [h]) s d k w))
  | ISerialize b => Done (mkIopts r en b d k w)
  | IDeserialize b => Done (mkIopts r en s b k w)
  | ISkip b => mbind (once k b) (fun k => Done (mkIopts r en s d k w))
  | IWalk b => mbind (once w b) (fun w => Done (mkIopts r en s d k w))
  end.
Definition finish_item (l : list iopt) : mres (iopts * list hist) :=
  mbind (mfold istep iopts0 l) (fun o =>
  mbind (resolve_history (io_revision o) (io_entries o)) (fun h => Done (o, h))).

(** ** Validation and the errors of code generation *)

(** validate_version.rs:8-37 [ValidateRevision]. *)
Definition in_range (cur : N) (s : N) (e : option N) : mres unit :=
  guard ((s <=? cur) && match e with Some e => e <=? cur | None => true end) MRange.
Definition field_range (cur : N) (f : field) : mres unit := in_range cur (f_start f) (f_end f).
Definition validate_revision (cur : N) (b : body) : mres unit :=
  match b with
  | SStruct fs => mall (field_range cur) fs
  | SEnum vs => mall (fun v => mbind (in_range cur (v_start v) (v_end v)) (fun _ => mall (field_range cur) (v_fields v))) vs
  end.

(** common.rs:67-125. *)
Definition discriminants (r : N) (vs : list variant) : mres (list (variant * N)) :=
  match calc_disc r vs with Some ds => Done ds | None => Fail MClash end.
(** validate_version.rs:58-101 [check_entry]. *)
Definition validate_optimised (b : body) (e : hist) : mres unit :=
  match b with
  | SStruct _ => Done tt
  | SEnum vs =>
      if h_opt (snd e) then
        let alive := filter (valive (fst e)) vs in
        mbind (guard (len alive <=? 32) MManyVariants) (fun _ =>
        mbind (mall (fun v => guard (match v_size v with Some _ => true | None => false end) MNoSize) alive) (fun _ =>
        mbind (discriminants (fst e) vs) (fun ds =>
        mall (fun p => guard (snd p <? 32) MWideDiscriminant) ds)))
      else Done tt
  end.

(** common.rs:176-204 via ser.rs:121-148, de.rs:389-440, skip.rs:146-190: [fixed] on a live field of a legacy
    revision. *)
Definition fixed_type (r : N) (f : field) : mres unit :=
  guard (negb (falive r f && f_fixed f) || match fixed_of (f_ty f) with Some _ => true | None => false end) MFixedType.
(** ser.rs:28-96, enum_codegen.rs:72-183: the encoder of the last revision. *)
Definition emit_serialize (b : body) (e : hist) : mres unit :=
  let r := fst e in
  match b with
  | SStruct fs => if h_opt (snd e) then Done tt else mall (fixed_type r) fs
  | SEnum vs =>
      mbind (discriminants r vs) (fun ds =>
      mall (fun v =>
        if h_opt (snd e) then
          match v_size v with
          | None => Fail MNoSize
          | Some SInline => guard (match filter (falive r) (v_fields v) with [] => true | _ => false end) MInlineFields
          | Some _ => Done tt
          end
        else mall (fixed_type r) (v_fields v)) (filter (valive r) vs))
  end.
(** de.rs:80-203, enum_codegen.rs:186-240 and 360-378; skip.rs and walk.rs:1652-1690 find the same errors. *)
Definition emit_deserialize (b : body) (e : hist) : mres unit :=
  let r := fst e in
  match b with
  | SStruct fs => if h_opt (snd e) then Done tt else mall (fixed_type r) fs
  | SEnum vs =>
      mbind (discriminants r vs) (fun ds =>
      if h_opt (snd e) then
        mbind (mall (fun p => guard (snd p <? 32) MWideDiscriminant) ds) (fun _ =>
        mall (fun v => guard (match v_size v with Some _ => true | None => false end) MNoSize) (filter (valive r) vs))
      else mall (fun v => mall (fixed_type r) (v_fields v)) (filter (valive r) vs))
  end.

Inductive mkind := KStruct (fs : list mfield) | KEnum (vs : list mvariant).
(** [#[revisioned(mi_args)] #[revision(mi_attrs)] struct/enum ..] *)
Record mitem := mkItem { mi_args : list iopt; mi_attrs : list iopt; mi_kind : mkind }.
Definition parse_kind (k : mkind) : mres (body * bool) :=
  match k with
  | KStruct fs => mbind (mmap parse_field fs) (fun l => Done (SStruct (map fst l), existsb snd l))
  | KEnum vs => mbind (mmap parse_variant vs) (fun l => Done (SEnum (map fst l), existsb snd l))
  end.

(** The trait implementations emitted: mod.rs:116, 190-206, 219-222, 229-273. *)
Record impls := mkImpls { im_ser : bool; im_de : bool; im_skip : bool; im_check : bool; im_walk : bool }.

(** mod.rs:22-292 [revision].  The flags are those of the macro's own arguments ([attrs.0]). *)
Definition expand (i : mitem) : mres (schema * impls) :=
  mbind (finish_item (mi_args i)) (fun a =>
  mbind (finish_item (mi_attrs i)) (fun t =>
  mbind (parse_kind (mi_kind i)) (fun k =>
  let '(b, conv) := k in
  let o := fst a in
  mbind (match snd t, snd a with
         | _ :: _, [] => Done (snd t)
         | [], _ :: _ => Done (snd a)
         | [], [] => Fail MNoRevision
         | _ :: _, _ :: _ => Fail MTwoSources
         end) (fun h =>
  let e := last h (0, mkHent false false) in
  let cur := fst e in
  mbind (guard (cur <? 2 ^ 16) MTooLarge) (fun _ =>
  mbind (guard (0 <? cur) MZero) (fun _ =>
  mbind (validate_revision cur b) (fun _ =>
  mbind (mall (validate_optimised b) h) (fun _ =>
  mbind (emit_serialize b e) (fun _ =>
  mbind (mall (emit_deserialize b) h) (fun _ =>
  let skip := match io_skip o with Some x => x | None => io_de o end in
  let walk := match io_walk o with Some x => x | None => io_de o end in
  mbind (guard (negb (walk && conv && negb (io_ser o && io_de o))) MWalkConvert) (fun _ =>
  Done (MkSchema (map snd h) b conv, mkImpls (io_ser o) (io_de o) skip (skip && io_de o) walk)))))))))))).
