(** How declarations and their attributes are written.  Specification part. *)

From Verif Require Import Base Ty Macro Syntax.
From Coq Require Import List NArith Bool Ascii String.
Import ListNotations.
Open Scope N_scope.
Open Scope list_scope.

(** Elements one after the other with commas between them; [tr]: and one behind the last. *)
Inductive separated {A} (R : A -> list tok -> Prop) : list A -> bool -> list tok -> Prop :=
| sep_none : separated R [] false []
| sep_last : forall x a, R x a -> separated R [x] false a
| sep_last_comma : forall x a, R x a -> separated R [x] true (a ++ [comma])
| sep_more : forall x a l tr b, R x a -> l <> [] -> separated R l tr b -> separated R (x :: l) tr (a ++ comma :: b).
Definition listed {A} (R : A -> list tok -> Prop) (l : list A) (ts : list tok) : Prop := exists tr, separated R l tr ts.

(** [size = ".."]: the words, or a decimal number below 256 in fixed(..), with any white space around. *)
Definition white : list N :=  (* the characters of Unicode's property White_Space *)
  [9; 10; 11; 12; 13; 32; 133; 160; 5760; 8192; 8193; 8194; 8195; 8196; 8197; 8198; 8199; 8200; 8201; 8202; 8232; 8233; 8239; 8287; 12288].
Definition blank (l : list N) : Prop := Forall (fun c => In c white) l.
Definition digit (c : N) : Prop := 48 <= c <= 57.
Definition decimal (l : list N) : N := fold_left (fun a c => a * 10 + (c - 48)) l 0.
Inductive size_text : vsize -> list N -> Prop :=
| size_inline : forall a b, blank a -> blank b -> size_text SInline (a ++ chars "inline" ++ b)
| size_varlen : forall a b, blank a -> blank b -> size_text SVarlen (a ++ chars "varlen" ++ b)
| size_fixed : forall a b c d plus ds, blank a -> blank b -> blank c -> blank d -> (plus = [] \/ plus = chars "+") ->
    ds <> [] -> Forall digit ds -> decimal ds < 256 ->
    size_text (SFixed (decimal ds)) (a ++ chars "fixed(" ++ c ++ plus ++ ds ++ d ++ chars ")" ++ b).

Section Written.
Variable sc : scope.

(** The options of a field, a variant, an item. *)
Inductive field_option_text : fopt -> list tok -> Prop :=
| ft_start : forall n, field_option_text (FStart n) [Id "start"; equals; Int n]
| ft_end : forall n, field_option_text (FEnd n) [Id "end"; equals; Int n]
| ft_convert : forall s, field_option_text (FConvert (sc_convert sc s)) [Id "convert_fn"; equals; Lit s]
| ft_default : forall s, field_option_text (FDefault (sc_default sc s)) [Id "default_fn"; equals; Lit s]
| ft_map : field_option_text (FIndexed IMap) [Id "indexed_map"]
| ft_seq : field_option_text (FIndexed ISeq) [Id "indexed_seq"]
| ft_set : field_option_text (FIndexed ISet) [Id "indexed_set"]
| ft_fixed : field_option_text FFixed [Id "fixed"]
| ft_specialised : field_option_text FSpecialised [Id "specialised"].
Inductive override_text : oopt -> list tok -> Prop :=
| ot_discriminant : forall n, override_text (ODiscriminant n) [Id "discriminant"; equals; Int n]
| ot_revision : forall n, override_text (ORevision n) [Id "revision"; equals; Int n].
Inductive variant_option_text : vopt -> list tok -> Prop :=
| vt_start : forall n, variant_option_text (VStart n) [Id "start"; equals; Int n]
| vt_end : forall n, variant_option_text (VEnd n) [Id "end"; equals; Int n]
| vt_convert : forall s, variant_option_text (VConvert (sc_vconvert sc s)) [Id "convert_fn"; equals; Lit s]
| vt_default : forall s, variant_option_text VDefault [Id "default_fn"; equals; Lit s]
| vt_fields : forall s, variant_option_text VFieldsName [Id "fields_name"; equals; Lit s]
| vt_override : forall l ts, listed override_text l ts -> variant_option_text (VOverride l) [Id "override"; Grp Paren ts]
| vt_size : forall z s, size_text z s -> variant_option_text (VSize z) [Id "size"; equals; Lit s].
Definition says_default (s : list N) (d : bool) : Prop := d = true <-> s = chars "default".
Inductive entry_option_text : eopt -> list tok -> Prop :=
| et_optimised : entry_option_text EOptimised [Id "optimised"]
| et_map : forall s d, says_default s d -> entry_option_text (EMap d) [Id "map"; equals; Lit s]
| et_seq : forall s d, says_default s d -> entry_option_text (ESeq d) [Id "seq"; equals; Lit s]
| et_indexed : entry_option_text EIndexedStruct [Id "indexed_struct"].
Inductive item_option_text : iopt -> list tok -> Prop :=
| it_revision : forall n, item_option_text (IRevision n) [Id "revision"; equals; Int n]
| it_entry : forall n, item_option_text (IEntry n []) [Id "revision"; Grp Paren [Int n]]
| it_entry_options : forall n l ts, listed entry_option_text l ts -> item_option_text (IEntry n l) [Id "revision"; Grp Paren (Int n :: comma :: ts)]
| it_serialize : forall b, item_option_text (ISerialize b) [Id "serialize"; equals; Id (if b then "true" else "false")]
| it_deserialize : forall b, item_option_text (IDeserialize b) [Id "deserialize"; equals; Id (if b then "true" else "false")]
| it_skip : forall b, item_option_text (ISkip b) [Id "skip"; equals; Id (if b then "true" else "false")]
| it_walk : forall b, item_option_text (IWalk b) [Id "walk"; equals; Id (if b then "true" else "false")].

(** Attributes: those of other macros in any form, [#[revision(..)]] with options of the kind that belongs there.
    [rv = false]: without the latter. *)
Inductive path_text : list tok -> Prop :=
| path_one : forall s, path_text [Id s]
| path_more : forall s p, path_text p -> path_text (Id s :: Sep :: p).
Inductive meta_text : attr -> list tok -> Prop :=
| mt_path : forall p, meta_text (mkAttr p MPath) p
| mt_list : forall p d l, meta_text (mkAttr p (MList d l)) (p ++ [Grp d l])
| mt_value : forall p x l, meta_text (mkAttr p (MValue (x :: l))) (p ++ equals :: x :: l).
Definition attribute_text (a : attr) (ts : list tok) : Prop :=
  (path_text (a_path a) \/ exists p, a_path a = Sep :: p /\ path_text p)
  /\ exists l, meta_text a l /\ ts = [pound; Grp Brack l].
Inductive attributes_text {A} (rv : bool) (R : A -> list tok -> Prop) : list A -> list attr -> list tok -> Prop :=
| at_none : attributes_text rv R [] [] []
| at_other : forall a x opts others ts, a_path a <> [Id "revision"] -> attribute_text a x -> attributes_text rv R opts others ts ->
    attributes_text rv R opts (a :: others) (x ++ ts)
| at_revision : forall l g d opts others ts, rv = true -> listed R l g -> attributes_text rv R opts others ts ->
    attributes_text rv R (l ++ opts) others (pound :: Grp Brack [Id "revision"; Grp d g] :: ts).

Inductive visibility_text : list tok -> Prop :=
| vis_none : visibility_text []
| vis_pub : visibility_text [Id "pub"]
| vis_crate : visibility_text [Id "pub"; Grp Paren [Id "crate"]]
| vis_self : visibility_text [Id "pub"; Grp Paren [Id "self"]]
| vis_super : visibility_text [Id "pub"; Grp Paren [Id "super"]]
| vis_in : forall x l, visibility_text [Id "pub"; Grp Paren (Id "in" :: x :: l)].
(** Rust's keywords, by the edition in which they became such. *)
Definition strict_2015 : list string :=
  ["as"; "break"; "const"; "continue"; "crate"; "else"; "enum"; "extern"; "false"; "fn"; "for"; "if"; "impl"; "in"; "let"; "loop"; "match";
   "mod"; "move"; "mut"; "pub"; "ref"; "return"; "self"; "Self"; "static"; "struct"; "super"; "trait"; "true"; "type"; "unsafe"; "use"; "where"; "while"]%string.
Definition strict_2018 : list string := ["async"; "await"; "dyn"]%string.
Definition for_future : list string :=
  ["abstract"; "become"; "box"; "do"; "final"; "macro"; "override"; "priv"; "typeof"; "unsized"; "virtual"; "yield"; "try"]%string.
Definition name (s : string) : Prop := s <> "_"%string /\ ~ In s strict_2015 /\ ~ In s strict_2018 /\ ~ In s for_future.

Inductive field_text (rv : bool) : sfield -> list tok -> Prop :=
| field_with_name : forall opts others v n t d a, attributes_text rv field_option_text opts others a -> visibility_text v -> name n ->
    field_text rv (mkSfield opts others v (Some n) t d) (a ++ v ++ [Id n; colon; Type_ t d])
| field_without_name : forall opts others v t d a, attributes_text rv field_option_text opts others a -> visibility_text v ->
    field_text rv (mkSfield opts others v None t d) (a ++ v ++ [Type_ t d]).
Definition named_text (rv : bool) (f : sfield) (ts : list tok) : Prop := field_text rv f ts /\ sf_name f <> None.
Definition unnamed_text (rv : bool) (f : sfield) (ts : list tok) : Prop := field_text rv f ts /\ sf_name f = None.
Inductive fields_text (rv : bool) : sfields -> list tok -> Prop :=
| fields_named : forall l tr ts, separated (named_text rv) l tr ts -> fields_text rv (Named l tr) [Grp Brace ts]
| fields_unnamed : forall l tr ts, separated (unnamed_text rv) l tr ts -> fields_text rv (Unnamed l tr) [Grp Paren ts]
| fields_none : fields_text rv NoFields [].
Inductive variant_text (rv : bool) : svariant -> list tok -> Prop :=
| variant_written : forall opts others n fs a b, attributes_text rv variant_option_text opts others a -> name n -> fields_text rv fs b ->
    variant_text rv (mkSvariant opts others n fs) (a ++ Id n :: b).
Inductive generics_text : list tok -> Prop := gen_none : generics_text [] | gen_some : forall n, generics_text [Gen n].
Inductive item_text (rv : bool) : sitem -> list tok -> Prop :=
| struct_written : forall opts others v n g fs a b, attributes_text rv item_option_text opts others a -> visibility_text v -> name n ->
    generics_text g -> fields_text rv fs b ->
    item_text rv (mkSitem opts others v n g (SkStruct fs)) (a ++ v ++ Id "struct" :: Id n :: g ++ b ++ match fs with Named _ _ => [] | _ => [semi] end)
| enum_written : forall opts others v n g l tr a ts, attributes_text rv item_option_text opts others a -> visibility_text v -> name n ->
    generics_text g -> separated (variant_text rv) l tr ts ->
    item_text rv (mkSitem opts others v n g (SkEnum l tr)) (a ++ v ++ Id "enum" :: Id n :: g ++ [Grp Brace ts]).
End Written.

(** The type as it is at revision [r]: the fields and variants that live then, with their names, types, visibility and
    other attributes, in order. *)
Definition opts_live (r : N) (f : sfield) : Prop :=
  (forall n, In (FStart n) (sf_opts f) -> n <= r) /\ (forall n, In (FEnd n) (sf_opts f) -> r < n).
Definition vopts_live (r : N) (v : svariant) : Prop :=
  (forall n, In (VStart n) (sv_opts v) -> n <= r) /\ (forall n, In (VEnd n) (sv_opts v) -> r < n).
Inductive kept {A} (live : A -> Prop) (same : A -> A -> Prop) : list A -> list A -> Prop :=
| kept_none : kept live same [] []
| kept_yes : forall x y l l', live x -> same x y -> kept live same l l' -> kept live same (x :: l) (y :: l')
| kept_no : forall x l l', ~ live x -> kept live same l l' -> kept live same (x :: l) l'.
Definition bare_field (f g : sfield) : Prop :=
  sf_opts g = [] /\ sf_other g = sf_other f /\ sf_vis g = sf_vis f /\ sf_name g = sf_name f /\ sf_ty g = sf_ty f.
Definition bare_fields (r : N) (fs gs : sfields) : Prop :=
  match fs, gs with
  | Named l _, Named l' _ => kept (opts_live r) bare_field l l'
  | Unnamed l _, Unnamed l' _ => kept (opts_live r) bare_field l l'
  | NoFields, NoFields => True
  | _, _ => False
  end.
Definition bare_variant (r : N) (v w : svariant) : Prop :=
  sv_opts w = [] /\ sv_other w = sv_other v /\ sv_name w = sv_name v /\ bare_fields r (sv_fields v) (sv_fields w).
Definition bare_item (r : N) (i j : sitem) : Prop :=
  si_opts j = [] /\ si_other j = si_other i /\ si_vis j = si_vis i /\ si_name j = si_name i /\ si_gen j = si_gen i
  /\ match si_kind i, si_kind j with
     | SkEnum l _, SkEnum l' _ => kept (vopts_live r) (bare_variant r) l l'
     | SkStruct fs, SkStruct gs => bare_fields r fs gs
     | _, _ => False
     end.

(** The declared type [k] has the fields and variants that the schema's body [b] encodes at revision [r], in that order. *)
Definition variant_shape (r : N) (v : variant) (w : svariant) : Prop :=
  v_name v = name_code (sv_name w) /\ map sf_ty (fields_in (sv_fields w)) = map f_ty (filter (falive r) (v_fields v)).
Definition shape_of (r : N) (b : body) (k : skind) : Prop :=
  match b, k with
  | SStruct fs, SkStruct gs => map sf_ty (fields_in gs) = map f_ty (filter (falive r) fs)
  | SEnum vs, SkEnum l _ => Forall2 (variant_shape r) (filter (valive r) vs) l
  | _, _ => False
  end.
