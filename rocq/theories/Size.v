(** How large a value is: specification part. *)

From Verif Require Import Base Ty Typed Users.
From Coq Require Import List NArith ZArith Bool.
Import ListNotations.
Open Scope N_scope.

(** Types whose values take no bytes on the wire. *)
Fixpoint zero_width (t : ty) : bool :=
  match t with
  | TUnit => true
  | TPair a b => zero_width a && zero_width b
  | TArray n t' => (n =? 0)%nat || zero_width t'
  | TWrap t' | TExt _ _ t' => zero_width t'
  | _ => false
  end.

Definition sum (l : list N) : N := fold_right N.add 0 l.

(** The size of the growable parts of a value, in bits: 8 for every byte of a string, path or byte
    vector and for every element or entry of a growable collection at any nesting, except 1 for the
    elements of a [Vec<bool>] (which may be packed) and 0 for elements of zero width. *)
Definition elem_bits (t : ty) : N := if zero_width t then 0 else 8.
Definition vec_bits (t : ty) : N := match t with TBool => 1 | _ => elem_bits t end.

Section Load.
Variable E : env.
Fixpoint load_ty (rec : N -> val -> N) (t : ty) (v : val) {struct t} : N :=
  match t, v with
  | TStr, VBytes b | TPath, VBytes b | TBytes, VBytes b => 8 * len b
  | TPair a b, VPair x y => load_ty rec a x + load_ty rec b y
  | TVec t', VSeq l => vec_bits t' * len l + sum (map (load_ty rec t') l)
  | TImVec t', VSeq l | TSet _ t', VSeq l | THeap t', VSeq l =>
      elem_bits t' * len l + sum (map (load_ty rec t') l)
  | TMap _ a b, VSeq l =>
      elem_bits (TPair a b) * len l +
      sum (map (fun p => match p with VPair x y => load_ty rec a x + load_ty rec b y | _ => 0 end) l)
  | TArray _ t', VSeq l | TOption t', VVar _ l | TBound t', VVar _ l => sum (map (load_ty rec t') l)
  | TResult a b, VVar k l => sum (map (fun x => if k =? 0 then load_ty rec a x else load_ty rec b x) l)
  | TWrap t', _ => load_ty rec t' v
  | TExt _ _ t', _ => load_ty rec t' v
  | TRef n, _ => rec n v
  | _, _ => 0
  end.
(** Field types next to the values of the fields. *)
Fixpoint load_tys (rec : N -> val -> N) (ts : list ty) (l : list val) : N :=
  match ts, l with
  | t :: ts', v :: l' => load_ty rec t v + load_tys rec ts' l'
  | _, _ => 0
  end.
Definition load_fields (rec : N -> val -> N) (r : N) (fs : list field) (l : list val) : N :=
  load_tys rec (map f_ty (filter (falive r) fs)) l.
Definition load_derived (rec : N -> val -> N) (s : schema) (v : val) : N :=
  match s_body s, v with
  | SStruct fs, VSeq l => load_fields rec (scur s) fs l
  | SEnum vs, VVar k l =>
      match find (fun vr => v_name vr =? k) vs with
      | Some vr => load_fields rec (scur s) (v_fields vr) l
      | None => 0
      end
  | _, _ => 0
  end.
(** Counted down to [k] levels of derived types; the theorems hold for every [k]. *)
Fixpoint load_ref (k : nat) (n : N) (v : val) : N :=
  match k with
  | O => 0
  | S k => match e_sch E n with Some s => load_derived (load_ref k) s v | None => 0 end
  end.
Definition load (k : nat) (t : ty) (v : val) : N := load_ty (load_ref k) t v.
End Load.

(** What user supplied functions may add: the default values put into one struct or variant are no
    larger than [G] bytes together, the value a variant's convert function makes up exceeds the
    variant's fields by at most [G] bytes, a field's convert function moves data but adds none, and
    neither does an external constructor. *)
Definition frugal (E : env) (G : N) : Prop :=
  (forall n s r h k, e_sch E n = Some s -> sent s r = Some h ->
     (forall fs, field_list s fs ->
        sum (map (fun f => match f_default f r with Ok v => load E k (f_ty f) v | _ => 0 end)
                 (filter (fun f => negb (falive r f) && falive (scur s) f) fs)) <= 8 * G)
     /\ (forall fs f l v l', field_list s fs -> In f fs -> falive r f = true -> falive (scur s) f = false ->
           f_convert f l r v = Ok l' ->
           load_fields (load_ref E k) (scur s) fs l' <= load_fields (load_ref E k) (scur s) fs l + load E k (f_ty f) v)
     /\ (forall vs vr l v, s_body s = SEnum vs -> In vr vs -> valive r vr = true -> valive (scur s) vr = false ->
           v_convert vr l r = Ok v ->
           load E (S k) (TRef n) v <= load_fields (load_ref E k) (if h_opt h then r else scur s) (v_fields vr) l + 8 * G))
  /\ (forall c t k x y, e_ext E c x = Some y -> load E k t y <= load E k t x).

(** Elements in memory take at most [G] bytes each, and none at all if they take none on the wire. *)
Definition roomy (E : env) (G : N) : Prop :=
  forall t, if zero_width t then e_esize E t = 0 else e_esize E t <= G.
