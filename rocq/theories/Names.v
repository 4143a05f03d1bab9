(** The names in the code that the macro emits: methods of walkers, structs of variants, local variables.  Model part.

    Simplifications: identifiers are ASCII; of the local variables only those named after fields and the parameters
    [reader] and [writer] are kept (the others start with two underscores); a generated function is the list of the
    variables it binds and of the parameters it uses. *)

From Verif Require Import Base Ty Macro Syntax.
From Coq Require Import List NArith Bool Ascii String DecimalString.
Import ListNotations.
Open Scope N_scope.
Open Scope string_scope.

(** ** Identifiers *)

(** An identifier is its text, [r#x] for a raw one.  quote's [format_ident!]: the text becomes an identifier, raw if it
    starts with [r#]; otherwise [Ident::new], which panics if a [#] is in it.  [None]: the macro panics. *)
Definition has_hash (s : string) : bool := existsb (Ascii.eqb "#") (list_ascii_of_string s).
Definition mk_ident (s : string) : option string :=
  match s with
  | String "r" (String "#" s') => if has_hash s' then None else Some s'
  | _ => if has_hash s then None else Some s
  end.
Fixpoint mk_idents (l : list string) : option (list string) :=
  match l with
  | [] => Some []
  | s :: l' => match mk_ident s, mk_idents l' with Some x, Some xs => Some (x :: xs) | _, _ => None end
  end.
Definition decimal (n : nat) : string := NilEmpty.string_of_uint (Nat.to_uint n).

(** ** Methods of walkers: revision-derive/src/expand/walk.rs *)

(** 1156-1161 [field_method_base], with the index of the field among those of the current revision. *)
Definition field_method_base (f : sfield) (i : nat) : string :=
  match sf_name f with Some n => n | None => "field_" ++ decimal i end.
Fixpoint bases (i : nat) (l : list sfield) : list string :=
  match l with [] => [] | f :: l' => field_method_base f i :: bases (S i) l' end.
(** 466-470. *)
Definition field_methods (b : string) : list string :=
  ["decode_" ++ b; "skip_" ++ b; "walk_" ++ b; "into_walk_" ++ b; "into_" ++ b ++ "_bytes"].
(** 441-1150, and 299-309 [revision]. *)
Definition struct_methods (r : N) (fs : sfields) : list string :=
  "revision" :: flat_map field_methods (bases 0%nat (filter (field_exists r) (fields_in fs))).

(** 1503-1512 [snake_case]. *)
Definition is_upper (c : ascii) : bool := ((65 <=? N_of_ascii c) && (N_of_ascii c <=? 90))%N.
Definition to_lower (c : ascii) : ascii := if is_upper c then ascii_of_N (N_of_ascii c + 32)%N else c.
Fixpoint snake_from (first : bool) (s : string) : string :=
  match s with
  | EmptyString => EmptyString
  | String c s' => (if is_upper c && negb first then "_" else "") ++ String (to_lower c) (snake_from false s')
  end.
Definition snake_case (s : string) : string := snake_from true s.
(** 1214-1494: unit variants, tuple variants with one field, all others. *)
Inductive vshape := OfUnit | OfOne | OfMany.
Definition shape (r : N) (fs : sfields) : vshape :=
  match fs with
  | NoFields => OfUnit
  | Unnamed l _ => if Nat.eqb (List.length (filter (field_exists r) l)) 1 then OfOne else OfMany
  | Named _ _ => OfMany
  end.
Definition variant_methods (k : vshape) (b : string) : list string :=
  ("is_" ++ b) :: match k with
  | OfUnit => ["into_" ++ b; "decode_" ++ b]
  | OfOne => ["into_" ++ b; "decode_" ++ b; b ++ "_view"]
  | OfMany => [b ++ "_view"]
  end.
(** 1172-1500, and 274-298 [revision], [discriminant]. *)
Definition enum_methods (r : N) (vs : list svariant) : list string :=
  "revision" :: "discriminant" ::
  flat_map (fun v => variant_methods (shape r (sv_fields v)) (snake_case (sv_name v))) (filter (variant_exists r) vs).
(** 61-345: what ends up in [impl TWalker]. *)
Definition walker_methods (r : N) (k : skind) : option (list string) :=
  mk_idents match k with SkStruct fs => struct_methods r fs | SkEnum vs _ => enum_methods r vs end.

(** ** Items beside the type: walk.rs:87-88, ast/mod.rs:86-95 and expand/de.rs:28-73, without [fields_name] options. *)
Definition item_names (i : sitem) : list string :=
  si_name i :: (si_name i ++ "Walker") :: (si_name i ++ "WalkerRepr") ::
  match si_kind i with
  | SkStruct _ => []
  | SkEnum vs _ => map (fun v => si_name i ++ sv_name v ++ "Fields") vs
  end.

(** ** Local variables *)

Inductive stmt := Binds (x : string) | Uses (x : string).
(** ast/mod.rs:206-214 [to_binding]; the index counts all fields. *)
Fixpoint bindings (i : nat) (l : list sfield) : list (string * sfield) :=
  match l with [] => [] | f :: l' => (field_method_base f i, f) :: bindings (S i) l' end.
Definition alive_bindings (r : N) (fs : sfields) : list string :=
  map fst (filter (fun p => field_exists r (snd p)) (bindings 0%nat (fields_in fs))).
(** expand/ser.rs:28-72, 120-151: all fields of the current revision are bound, then each is written;
    optimised/struct_codegen.rs:28-130: bound, written to a buffer, then the buffer's length and the buffer. *)
Definition ser_struct (opt : bool) (r : N) (fs : sfields) : list stmt :=
  let bs := alive_bindings r fs in
  map Binds bs ++ if opt then [Uses "writer"; Uses "writer"] else map (fun _ => Uses "writer") bs.
(** ser.rs:153-235: the pattern binds, then the discriminant and each field is written;
    enum_codegen.rs:73-169: tag, then (none, one, two) times the buffer. *)
Definition ser_variant (opt : option (option vsize)) (r : N) (fs : sfields) : list stmt :=
  let bs := alive_bindings r fs in
  map Binds bs ++ Uses "writer" ::
  match opt with
  | None => map (fun _ => Uses "writer") bs
  | Some (Some (SFixed _)) => [Uses "writer"]
  | Some (Some SVarlen) => [Uses "writer"; Uses "writer"]
  | Some _ => []
  end.
(** de.rs:384-450: from revision [r] to the current one [t]. *)
Definition de_field (r t : N) (p : string * sfield) : list stmt :=
  let '(b, f) := p in
  if field_exists r f then [Uses "reader"; Binds b] else if field_exists t f then [Binds b] else [].
Definition de_fields (r t : N) (fs : sfields) : list stmt := flat_map (de_field r t) (bindings 0%nat (fields_in fs)).
(** struct_codegen.rs:136-268 and enum_codegen.rs:327-441: the payload is read first, the fields from it. *)
Definition de_opt (n : nat) (r t : N) (fs : sfields) : list stmt :=
  repeat (Uses "reader") n ++
  flat_map (fun p => if field_exists r (snd p) || field_exists t (snd p) then [Binds (fst p)] else []) (bindings 0%nat (fields_in fs)).
(** All functions: ser.rs:74-98 and expand/mod.rs:229-272, by the history; revisions count from 1. *)
Definition size_of (v : svariant) : option vsize := match finish_variant (sv_opts v) with Done o => vo_size o | Fail _ => None end.
Definition ser_bodies (h : hent) (t : N) (k : skind) : list (list stmt) :=
  match k with
  | SkStruct fs => [ser_struct (h_opt h) t fs]
  | SkEnum vs _ => map (fun v => ser_variant (if h_opt h then Some (size_of v) else None) t (sv_fields v)) (filter (variant_exists t) vs)
  end.
Definition de_body (h : hent) (r t : N) (k : skind) : list (list stmt) :=
  match k with
  | SkStruct fs => [if h_opt h then de_opt 2 r t fs else de_fields r t fs]
  | SkEnum vs _ =>
      map (fun v => Uses "reader" :: if h_opt h then de_opt (match size_of v with Some (SFixed _) => 1 | Some SVarlen => 2 | _ => 0 end)%nat r r (sv_fields v) else de_fields r t (sv_fields v)) (filter (variant_exists r) vs)
  end.
Fixpoint de_bodies (r : N) (hs : list hent) (t : N) (k : skind) : list (list stmt) :=
  match hs with [] => [] | h :: hs' => (de_body h r t k ++ de_bodies (r + 1) hs' t k)%list end.
