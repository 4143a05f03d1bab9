(** From tokens to a declaration, and back: the parsers of the derive macro and the type it emits.  Model.

    revision-derive/src/ast/attributes.rs (the parsers, [parse_variant_size]), ast/mod.rs, expand/reexport.rs,
    expand/mod.rs:22-71.  Simplifications: tokens that syn parses as a type are one token, with the type and what
    its [Default::default()] returns; so are generics.  A string after [convert_fn], [default_fn] is looked up in a
    scope that gives the function.  An integer literal is its number; suffixes are dropped.  Paths of attributes may contain any
    identifier.  Whatever syn does with spans, and the texts of errors, is dropped; which of several errors is
    reported may differ.  rustc has parsed the item before the macro sees it, so that keywords do not occur as
    names; the arguments of attributes are any tokens. *)

From Verif Require Import Base Ty Macro.
From Coq Require Import List NArith Bool Ascii String.
Import ListNotations.
Open Scope N_scope.
Open Scope list_scope.

Inductive delim := Paren | Brack | Brace.
Inductive tok :=
| Id (s : string)                 (* identifiers and keywords; [true] and [false] *)
| Int (n : N) | Lit (s : list N)  (* integers; strings, by characters *)
| Pu (c : N)                      (* a punctuation character *)
| Sep                             (* :: *)
| Grp (d : delim) (l : list tok)
| Type_ (t : ty) (d : res val)
| Gen (n : N).
Definition comma : tok := Pu 44.
Definition equals : tok := Pu 61.
Definition colon : tok := Pu 58.
Definition semi : tok := Pu 59.
Definition pound : tok := Pu 35.
Fixpoint chars (s : string) : list N :=
  match s with EmptyString => [] | String a s' => N_of_ascii a :: chars s' end.
Fixpoint same_chars (a b : list N) : bool :=
  match a, b with [], [] => true | x :: a', y :: b' => (x =? y) && same_chars a' b' | _, _ => false end.

(** The functions and the variants that names stand for.  Variants are numbered by their names. *)
Record scope := mkScope {
  sc_convert : list N -> list val -> N -> val -> res (list val);
  sc_vconvert : list N -> list val -> N -> res val;
  sc_default : list N -> N -> res val
}.
Fixpoint name_code (s : string) : N :=
  match s with EmptyString => 0 | String a s' => name_code s' * 256 + (N_of_ascii a + 1) end.

(** ** syn *)

Definition par (A : Type) := list tok -> mres (A * list tok).
Definition syntax {A} : mres A := Fail MSyntax.
Definition pret {A} (a : A) : par A := fun ts => Done (a, ts).
Definition pbind {A B} (p : par A) (f : A -> par B) : par B := fun ts => mbind (p ts) (fun r => f (fst r) (snd r)).
Definition pmap {A B} (f : A -> B) (p : par A) : par B := pbind p (fun a => pret (f a)).
Definition peek (k : string) (ts : list tok) : bool := match ts with Id s :: _ => String.eqb s k | _ => false end.
Definition peek_punct (c : N) (ts : list tok) : bool := match ts with Pu x :: _ => x =? c | _ => false end.
Definition kw (k : string) : par unit :=
  fun ts => match ts with Id s :: r => if String.eqb s k then Done (tt, r) else syntax | _ => syntax end.
Definition punct (c : N) : par unit :=
  fun ts => match ts with Pu x :: r => if x =? c then Done (tt, r) else syntax | _ => syntax end.
Definition lit_int : par N := fun ts => match ts with Int n :: r => Done (n, r) | _ => syntax end.
Definition lit_str : par (list N) := fun ts => match ts with Lit s :: r => Done (s, r) | _ => syntax end.
Definition lit_bool : par bool :=
  fun ts => match ts with
            | Id s :: r => if String.eqb s "true" then Done (true, r) else if String.eqb s "false" then Done (false, r) else syntax
            | _ => syntax
            end.
(** [Ident::parse] *)
Definition keywords : list string :=
  ["_"; "abstract"; "as"; "async"; "await"; "become"; "box"; "break"; "const"; "continue"; "crate"; "do"; "dyn"; "else"; "enum";
   "extern"; "false"; "final"; "fn"; "for"; "if"; "impl"; "in"; "let"; "loop"; "macro"; "match"; "mod"; "move"; "mut";
   "override"; "priv"; "pub"; "ref"; "return"; "Self"; "self"; "static"; "struct"; "super"; "trait"; "true"; "try"; "type";
   "typeof"; "unsafe"; "unsized"; "use"; "virtual"; "where"; "while"; "yield"]%string.
Definition is_keyword (s : string) : bool := existsb (String.eqb s) keywords.
Definition ident : par string :=
  fun ts => match ts with Id s :: r => if is_keyword s then syntax else Done (s, r) | _ => syntax end.
Definition type_ : par (ty * res val) := fun ts => match ts with Type_ t d :: r => Done ((t, d), r) | _ => syntax end.
Definition generics : par (list tok) := fun ts => match ts with Gen n :: r => Done ([Gen n], r) | _ => Done ([], ts) end.
(** [pub], [pub(crate)], [pub(in ..)], or nothing. *)
Definition restriction (l : list tok) : bool :=
  match l with
  | [Id s] => String.eqb s "crate" || String.eqb s "self" || String.eqb s "super"
  | Id s :: _ :: _ => String.eqb s "in"
  | _ => false
  end.
Definition visibility : par (list tok) :=
  fun ts => if peek "pub" ts then
              match ts with
              | _ :: Grp Paren l :: r => if restriction l then Done ([Id "pub"; Grp Paren l], r) else Done ([Id "pub"], Grp Paren l :: r)
              | _ :: r => Done ([Id "pub"], r)
              | [] => syntax
              end
            else Done ([], ts).
(** [Punctuated::parse_terminated] up to the end of the tokens: the elements, and if there is a comma behind the last one. *)
Fixpoint terminated_from {A} (fuel : nat) (p : par A) (ts : list tok) : mres (list A * bool) :=
  match fuel with
  | O => syntax
  | S fuel' =>
      match ts with
      | [] => Done ([], false)
      | _ =>
          mbind (p ts) (fun r =>
          match snd r with
          | [] => Done ([fst r], false)
          | [Pu c] => if c =? 44 then Done ([fst r], true) else syntax
          | Pu c :: ts' => if c =? 44 then mbind (terminated_from fuel' p ts') (fun q => Done (fst r :: fst q, snd q)) else syntax
          | _ => syntax
          end)
      end
  end.
Definition terminated {A} (p : par A) (ts : list tok) : mres (list A * bool) := terminated_from (S (List.length ts)) p ts.
Definition all_terminated {A} (p : par A) (ts : list tok) : mres (list A) := mbind (terminated p ts) (fun r => Done (fst r)).

(** [Attribute::parse_outer]; [Meta]: a path, then a group, [= ..], or nothing. *)
Inductive meta := MPath | MList (d : delim) (l : list tok) | MValue (l : list tok).
Record attr := mkAttr { a_path : list tok; a_meta : meta }.
Fixpoint segments (ts : list tok) : mres (list tok * list tok) :=
  match ts with
  | Id s :: Sep :: ts' => mbind (segments ts') (fun r => Done (Id s :: Sep :: fst r, snd r))
  | Id s :: ts' => Done ([Id s], ts')
  | _ => syntax
  end.
Definition path : par (list tok) :=
  fun ts => match ts with Sep :: ts' => mbind (segments ts') (fun r => Done (Sep :: fst r, snd r)) | _ => segments ts end.
Definition parse_meta (ts : list tok) : mres attr :=
  mbind (path ts) (fun r =>
  match snd r with
  | [] => Done (mkAttr (fst r) MPath)
  | [Grp d l] => Done (mkAttr (fst r) (MList d l))
  | Pu c :: x :: l => if c =? 61 then Done (mkAttr (fst r) (MValue (x :: l))) else syntax
  | _ => syntax
  end).
Fixpoint outer_from (fuel : nat) (ts : list tok) : mres (list attr * list tok) :=
  match fuel with
  | O => syntax
  | S fuel' =>
      if peek_punct 35 ts then
        match ts with
        | _ :: Grp Brack l :: r => mbind (parse_meta l) (fun a => mbind (outer_from fuel' r) (fun q => Done (a :: fst q, snd q)))
        | _ => syntax
        end
      else Done ([], ts)
  end.
Definition parse_outer : par (list attr) := fun ts => outer_from (S (List.length ts)) ts.
(** [path().is_ident("revision")] *)
Definition is_revision (a : attr) : bool := match a_path a with [Id s] => String.eqb s "revision" | _ => false end.

(** ** attributes.rs *)

(** 76-88 [ValueOption]. *)
Definition value_option {A} (k : string) (p : par A) : par A := pbind (kw k) (fun _ => pbind (punct 61) (fun _ => p)).
(** 54-67 [GroupOption]. *)
Definition group_option {A} (k : string) (p : par A) : par (list A) :=
  pbind (kw k) (fun _ ts => match ts with Grp Paren l :: r => mbind (all_terminated p l) (fun x => Done (x, r)) | _ => syntax end).
(** 137-162 [FilteredAttributes]: the options of all [#[revision(..)]], in order, and the other attributes. *)
Fixpoint filtered {A} (p : par A) (l : list attr) : mres (list A * list attr) :=
  match l with
  | [] => Done ([], [])
  | a :: l' =>
      if is_revision a then
        match a_meta a with
        | MList _ ts => mbind (all_terminated p ts) (fun x => mbind (filtered p l') (fun q => Done (x ++ fst q, snd q)))
        | _ => syntax
        end
      else mbind (filtered p l') (fun q => Done (fst q, a :: snd q))
  end.
Definition filtered_attributes {A} (p : par A) : par (list A * list attr) :=
  fun ts => mbind (parse_outer ts) (fun r => mbind (filtered p (fst r)) (fun q => Done (q, snd r))).

Section Options.
Variable sc : scope.

(** 209-241. *)
Definition field_option : par fopt := fun ts =>
  if peek "start" ts then pmap FStart (value_option "start" lit_int) ts
  else if peek "end" ts then pmap FEnd (value_option "end" lit_int) ts
  else if peek "convert_fn" ts then pmap (fun s => FConvert (sc_convert sc s)) (value_option "convert_fn" lit_str) ts
  else if peek "default_fn" ts then pmap (fun s => FDefault (sc_default sc s)) (value_option "default_fn" lit_str) ts
  else if peek "indexed_map" ts then pmap (fun _ => FIndexed IMap) (kw "indexed_map") ts
  else if peek "indexed_seq" ts then pmap (fun _ => FIndexed ISeq) (kw "indexed_seq") ts
  else if peek "indexed_set" ts then pmap (fun _ => FIndexed ISet) (kw "indexed_set") ts
  else if peek "fixed" ts then pmap (fun _ => FFixed) (kw "fixed") ts
  else if peek "specialised" ts then pmap (fun _ => FSpecialised) (kw "specialised") ts
  else syntax.

(** 832-855 [parse_variant_size].  [str::trim], [char::is_whitespace], [u8::from_str] of the standard library. *)
Definition is_space (c : N) : bool :=
  ((9 <=? c) && (c <=? 13)) || (c =? 32) || (c =? 133) || (c =? 160) || (c =? 5760) || ((8192 <=? c) && (c <=? 8202))
  || (c =? 8232) || (c =? 8233) || (c =? 8239) || (c =? 8287) || (c =? 12288).
Fixpoint trim_start (l : list N) : list N :=
  match l with c :: l' => if is_space c then trim_start l' else l | [] => [] end.
Definition trim (l : list N) : list N := rev (trim_start (rev (trim_start l))).
Fixpoint strip_prefix (p l : list N) : option (list N) :=
  match p, l with
  | [], _ => Some l
  | x :: p', y :: l' => if x =? y then strip_prefix p' l' else None
  | _, _ => None
  end.
Definition strip_suffix (p l : list N) : option (list N) := option_map (@rev N) (strip_prefix (rev p) (rev l)).
(** Digits to a number, [None] on another character or when it exceeds 255. *)
Fixpoint digits_u8 (acc : N) (l : list N) : option N :=
  match l with
  | [] => Some acc
  | c :: l' =>
      if (48 <=? c) && (c <=? 57) then
        let v := acc * 10 + (c - 48) in if v <? 256 then digits_u8 v l' else None
      else None
  end.
Definition u8_from_str (l : list N) : option N :=
  match l with
  | [] => None
  | c :: l' => if c =? 43 then (match l' with [] => None | _ => digits_u8 0 l' end) else digits_u8 0 l
  end.
Definition parse_variant_size (raw : list N) : mres vsize :=
  let s := trim raw in
  if same_chars s (chars "inline") then Done SInline
  else if same_chars s (chars "varlen") then Done SVarlen
  else match strip_prefix (chars "fixed(") s with
       | Some rest =>
           match strip_suffix (chars ")") rest with
           | Some num => match u8_from_str (trim num) with Some n => Done (SFixed n) | None => Fail MSizeClass end
           | None => Fail MSizeClass
           end
       | None => Fail MSizeClass
       end.

(** 728-737. *)
Definition variant_override : par oopt := fun ts =>
  if peek "discriminant" ts then pmap ODiscriminant (value_option "discriminant" lit_int) ts
  else if peek "revision" ts then pmap ORevision (value_option "revision" lit_int) ts
  else syntax.
(** 702-726; the string of [size] is parsed in [finish] (758-769). *)
Definition variant_option : par vopt := fun ts =>
  if peek "start" ts then pmap VStart (value_option "start" lit_int) ts
  else if peek "end" ts then pmap VEnd (value_option "end" lit_int) ts
  else if peek "convert_fn" ts then pmap (fun s => VConvert (sc_vconvert sc s)) (value_option "convert_fn" lit_str) ts
  else if peek "default_fn" ts then pmap (fun _ => VDefault) (value_option "default_fn" lit_str) ts
  else if peek "fields_name" ts then pmap (fun _ => VFieldsName) (value_option "fields_name" lit_str) ts
  else if peek "override" ts then pmap VOverride (group_option "override" variant_override) ts
  else if peek "size" ts then
    pbind (value_option "size" lit_str) (fun s ts' => mbind (parse_variant_size s) (fun z => Done (VSize z, ts'))) ts
  else syntax.

(** 417-435; "default" or not. *)
Definition is_default (s : list N) : bool := same_chars s (chars "default").
Definition entry_option : par eopt := fun ts =>
  if peek "optimised" ts then pmap (fun _ => EOptimised) (kw "optimised") ts
  else if peek "map" ts then pmap (fun s => EMap (is_default s)) (value_option "map" lit_str) ts
  else if peek "seq" ts then pmap (fun s => ESeq (is_default s)) (value_option "seq" lit_str) ts
  else if peek "indexed_struct" ts then pmap (fun _ => EIndexedStruct) (kw "indexed_struct") ts
  else syntax.
(** 392-415: the number, then options each behind a comma; one comma may be last. *)
Fixpoint entry_options (fuel : nat) (ts : list tok) : mres (list eopt) :=
  match fuel with
  | O => syntax
  | S fuel' =>
      match ts with
      | [] => Done []
      | _ =>
          mbind (punct 44 ts) (fun r =>
          match snd r with
          | [] => Done []
          | ts' => mbind (entry_option ts') (fun q => mbind (entry_options fuel' (snd q)) (fun l => Done (fst q :: l)))
          end)
      end
  end.
Definition entry_group : par iopt :=
  pbind (kw "revision") (fun _ ts =>
  match ts with
  | Grp Paren l :: r => mbind (lit_int l) (fun n => mbind (entry_options (S (List.length (snd n))) (snd n)) (fun o => Done (IEntry (fst n) o, r)))
  | _ => syntax
  end).
(** 437-456. *)
Definition item_option : par iopt := fun ts =>
  if peek "revision" ts then
    match ts with
    | _ :: Grp Paren _ :: _ => entry_group ts
    | _ => pmap IRevision (value_option "revision" lit_int) ts
    end
  else if peek "serialize" ts then pmap ISerialize (value_option "serialize" lit_bool) ts
  else if peek "deserialize" ts then pmap IDeserialize (value_option "deserialize" lit_bool) ts
  else if peek "skip" ts then pmap ISkip (value_option "skip" lit_bool) ts
  else if peek "walk" ts then pmap IWalk (value_option "walk" lit_bool) ts
  else syntax.

(** ** mod.rs *)

(** 225-267 [Field]. *)
Record sfield := mkSfield { sf_opts : list fopt; sf_other : list attr; sf_vis : list tok; sf_name : option string; sf_ty : ty; sf_default : res val }.
Definition field_unnamed : par sfield :=
  pbind (filtered_attributes field_option) (fun a =>
  pbind visibility (fun v =>
  pbind type_ (fun t => pret (mkSfield (fst a) (snd a) v None (fst t) (snd t))))).
Definition field_named : par sfield :=
  pbind (filtered_attributes field_option) (fun a =>
  pbind visibility (fun v =>
  pbind ident (fun n =>
  pbind (punct 58) (fun _ =>
  pbind type_ (fun t => pret (mkSfield (fst a) (snd a) v (Some n) (fst t) (snd t))))))).
(** 186-198 [Fields]; the flag: a comma behind the last field. *)
Inductive sfields := Named (l : list sfield) (tr : bool) | Unnamed (l : list sfield) (tr : bool) | NoFields.

(** 74-132 [Variant]: behind the fields it looks for a colon, and then parses [=]. *)
Record svariant := mkSvariant { sv_opts : list vopt; sv_other : list attr; sv_name : string; sv_fields : sfields }.
Definition variant_fields : par sfields := fun ts =>
  match ts with
  | Grp Paren l :: r => mbind (terminated field_unnamed l) (fun q => Done (Unnamed (fst q) (snd q), r))
  | Grp Brace l :: r => mbind (terminated field_named l) (fun q => Done (Named (fst q) (snd q), r))
  | _ => Done (NoFields, ts)
  end.
Definition parse_svariant : par svariant :=
  pbind (filtered_attributes variant_option) (fun a =>
  pbind ident (fun n =>
  pbind variant_fields (fun fs ts =>
  if peek_punct 58 ts then mbind (punct 61 ts) (fun _ => syntax) else Done (mkSvariant (fst a) (snd a) n fs, ts)))).

(** 134-184 [Struct]. *)
Definition struct_fields : par sfields := fun ts =>
  match ts with
  | Grp Paren l :: r => mbind (terminated field_unnamed l) (fun q => mbind (punct 59 r) (fun r' => Done (Unnamed (fst q) (snd q), snd r')))
  | Grp Brace l :: r => mbind (terminated field_named l) (fun q => Done (Named (fst q) (snd q), r))
  | _ => mbind (punct 59 ts) (fun r => Done (NoFields, snd r))
  end.
(** 17-72 [Item], [ItemKind], [Enum]. *)
Inductive skind := SkEnum (l : list svariant) (tr : bool) | SkStruct (fs : sfields).
Record sitem := mkSitem { si_opts : list iopt; si_other : list attr; si_vis : list tok; si_name : string; si_gen : list tok; si_kind : skind }.
Definition enum_body : par skind := fun ts =>
  match ts with
  | Grp Brace l :: r => mbind (terminated parse_svariant l) (fun q => Done (SkEnum (fst q) (snd q), r))
  | _ => syntax
  end.
Definition parse_sitem : par sitem :=
  pbind (filtered_attributes item_option) (fun a =>
  pbind visibility (fun v ts =>
  if peek "enum" ts then
    pbind (kw "enum") (fun _ => pbind ident (fun n => pbind generics (fun g => pbind enum_body (fun k => pret (mkSitem (fst a) (snd a) v n g k))))) ts
  else if peek "struct" ts then
    pbind (kw "struct") (fun _ => pbind ident (fun n => pbind generics (fun g => pbind struct_fields (fun k => pret (mkSitem (fst a) (snd a) v n g (SkStruct k)))))) ts
  else syntax)).
(** [syn::parse2]: all tokens. *)
Definition parse2 (ts : list tok) : mres sitem :=
  mbind (parse_sitem ts) (fun r => match snd r with [] => Done (fst r) | _ => syntax end).

(** What Macro.v works on. *)
Definition mfield_of (f : sfield) : mfield := mkMfield (sf_ty f) (sf_default f) (sf_opts f).
Definition fields_in (fs : sfields) : list sfield := match fs with Named l _ | Unnamed l _ => l | NoFields => [] end.
Definition mvariant_of (v : svariant) : mvariant := mkMvariant (name_code (sv_name v)) (sv_opts v) (map mfield_of (fields_in (sv_fields v))).
Definition mkind_of (k : skind) : mkind :=
  match k with SkEnum l _ => KEnum (map mvariant_of l) | SkStruct fs => KStruct (map mfield_of (fields_in fs)) end.

(** ** expand/reexport.rs *)

(** [exists_at] of the options: attributes.rs:188-195, 679-685. *)
Definition lives (r : N) (s e : option N) : bool :=
  (start_of s <=? r) && match e with Some e => r <? e | None => true end.
Definition field_exists (r : N) (f : sfield) : bool :=
  match finish_field (sf_opts f) with Done o => lives r (fo_start o) (fo_end o) | Fail _ => false end.
Definition variant_exists (r : N) (v : svariant) : bool :=
  match finish_variant (sv_opts v) with Done o => lives r (vo_start o) (vo_end o) | Fail _ => false end.
Definition meta_tokens (m : meta) : list tok := match m with MPath => [] | MList d l => [Grp d l] | MValue l => equals :: l end.
Definition attr_tokens (a : attr) : list tok := [pound; Grp Brack (a_path a ++ meta_tokens (a_meta a))].
Definition attrs_tokens (l : list attr) : list tok := flat_map attr_tokens l.
(** 30-49, 96-115: pairs of an element and the comma behind it. *)
Fixpoint pairs {A} (live : A -> bool) (text : A -> list tok) (l : list A) (tr : bool) : list tok :=
  match l with
  | [] => []
  | x :: l' =>
      (if live x then text x ++ (match l' with [] => if tr then [comma] else [] | _ => [comma] end) else [])
      ++ pairs live text l' tr
  end.
(** 154-166. *)
Definition emit_field (f : sfield) : list tok :=
  attrs_tokens (sf_other f) ++ sf_vis f ++ (match sf_name f with Some n => [Id n; colon] | None => [] end) ++ [Type_ (sf_ty f) (sf_default f)].
(** 85-152. *)
Definition emit_fields (r : N) (fs : sfields) : list tok :=
  match fs with
  | Named l tr => [Grp Brace (pairs (field_exists r) emit_field l tr)]
  | Unnamed l tr => [Grp Paren (pairs (field_exists r) emit_field l tr)]
  | NoFields => []
  end.
(** 69-83. *)
Definition emit_variant (r : N) (v : svariant) : list tok :=
  attrs_tokens (sv_other v) ++ Id (sv_name v) :: emit_fields r (sv_fields v).
(** 13-67. *)
Definition reexport (r : N) (i : sitem) : list tok :=
  attrs_tokens (si_other i) ++ si_vis i ++
  match si_kind i with
  | SkEnum l tr => Id "enum" :: Id (si_name i) :: si_gen i ++ [Grp Brace (pairs (variant_exists r) (emit_variant r) l tr)]
  | SkStruct fs => Id "struct" :: Id (si_name i) :: si_gen i ++ emit_fields r fs ++ (match fs with Named _ _ => [] | _ => [semi] end)
  end.

(** expand/mod.rs:22-71: what is derived from [#[revisioned(args)] input], and the type that takes the place of the
    declaration. *)
Definition revisioned (args input : list tok) : mres (schema * impls * list tok) :=
  mbind (all_terminated item_option args) (fun a =>
  mbind (parse2 input) (fun i =>
  mbind (expand (mkItem a (si_opts i) (mkind_of (si_kind i)))) (fun x =>
  Done (x, reexport (scur (fst x)) i)))).
End Options.
