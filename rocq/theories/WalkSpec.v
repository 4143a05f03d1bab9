(** What a script on a walker should show, stated on values.  Specification part: no readers. *)

From Verif Require Import Base Prog Prim Ty Ser De Typed SliceReader Skip Walk.
From Coq Require Import List NArith ZArith Bool.
Import ListNotations.
Open Scope N_scope.

(** The content bytes of a string or byte container. *)
Definition contents (v : val) : bytes :=
  match v with
  | VBytes b => b
  | VSeq l => map (fun x => match x with VInt z => Z.to_N (z mod 256) | _ => 0 end) l
  | _ => []
  end.

(** What lies under a walker.  [detached]: a walker over a separate buffer (the payload of an indexed struct or
    of an optimised enum, or a value decoded and encoded again), which gives no walkers over its parts. *)
Inductive view :=
| PPos (t : ty) (v : val)
| POpt (t : ty) (x : option val)
| PRes (a b : ty) (x : val + val)
| PSeq (t : ty) (l : list val)
| PMap (a b : ty) (l : list val)
| PFields (detached : bool) (l : list (field * bool * val))    (* true: in the data, false: added later *)
| PEnum (detached : bool) (s : schema) (vs : list variant) (k : N) (l : list val)
| PFail (r : res obs).                                         (* there is no walker: opening it failed *)

(** The bytes of an [indexed_*] field, and of the fields of a variant. *)
Definition field_image (E : env) (f : field) (v : val) (x : bytes) : Prop :=
  exists d, ser_bytes (ser_mode E (ser_ref E d) (mode_opt f) (f_ty f) v) = Ok x.
Definition payload_image (E : env) (fs : list field) (l : list val) (x : bytes) : Prop :=
  exists d bs, length fs = length l
    /\ Forall2 (fun p b => to_vec E d (f_ty (fst p)) (snd p) = Ok b) (combine fs l) bs /\ x = concat bs.

(** Vectors in bulk encoding cannot be walked. *)
Fixpoint refused (E : env) (t : ty) : bool :=
  match t with
  | TVec t' => e_spec E && match bulk_of t' with Some _ => true | None => false end
  | TWrap t' => refused E t'
  | _ => false
  end.
(** The fields a variant has in this program; None: there is no such variant. *)
Definition variant_here (s : schema) (vs : list variant) (k : N) : option (list field) :=
  match find (fun v => (v_name v =? k) && valive (scur s) v) vs with
  | Some v => Some (filter (falive (scur s)) (v_fields v))
  | None => None
  end.
Definition seen (o : obs) (r : res obs) : res obs := rmap (OCons o) r.

Section Expect.
Variable E : env.
Variable D : nat.
(** [opened t v c]: [c] shows the parts of the value [v] of type [t]. *)
Variable opened : ty -> val -> view -> Prop.

(** [expect c a r]: script [a] on a walker over [c] may end with [r]. *)
Fixpoint expect (c : view) (a : act) (r : res obs) {struct a} : Prop :=
  let walked := fun t v w r =>
    if refused E t then r = Err (EDeserialize MBulkVec) else exists c', opened t v c' /\ expect c' w r in
  match c, a with
  | PFail x, _ => r = x
  | PPos t v, Decode => r = Ok (OVal v)
  | PPos t v, Skip => r = Ok ODone
  | PPos t v, Bytes => r = if length_prefixed t then Ok (OBytes (contents v)) else Panic PType
  | PPos t v, Walk w => walked t v w r
  | POpt t x, Decode => r = Ok (OVal (match x with None => VVar 0 [] | Some y => VVar 1 [y] end))
  | POpt t x, Skip => r = Ok ODone
  | POpt t x, Case w0 w1 => match x with None => expect c w0 r | Some _ => expect c w1 r end
  | POpt t x, Into 1 w => match x with None => r = Err (EDeserialize (MOther 4)) | Some y => walked t y w r end
  | PRes _ _ x, Decode => r = Ok (OVal (match x with inl y => VVar 0 [y] | inr y => VVar 1 [y] end))
  | PRes _ _ x, Skip => r = Ok ODone
  | PRes _ _ x, Case w0 w1 => match x with inl _ => expect c w0 r | inr _ => expect c w1 r end
  | PRes t _ x, Into 0 w => match x with inl y => walked t y w r | inr _ => r = Err (EDeserialize (MOther 5)) end
  | PRes _ t x, Into 1 w => match x with inr y => walked t y w r | inl _ => r = Err (EDeserialize (MOther 6)) end
  | PSeq t l, Item x w =>
      match l with
      | [] => r = Ok OEnd
      | y :: l' =>
          exists r1, expect (PPos t y) x r1 /\
          match r1 with
          | Ok o => exists r2, expect (PSeq t l') w r2 /\ r = seen o r2
          | Err e => r = Err e
          | Panic p => r = Panic p
          end
      end
  | PSeq t l, Rest => r = Ok ODone
  | PMap t t' l, Entry x y w =>
      match l with
      | [] => r = Ok OEnd
      | e :: l' =>
          match x with
          | Walk _ => r = Panic PType
          | _ =>
              exists r1, expect (PPos t (pkey e)) x r1 /\
              match r1 with
              | Ok o =>
                  exists r2, expect (PPos t' (pval e)) y r2 /\
                  match r2 with
                  | Ok o' => exists r3, expect (PMap t t' l') w r3 /\ r = seen (OCons o o') r3
                  | Err e => r = Err e
                  | Panic p => r = Panic p
                  end
              | Err e => r = Err e
              | Panic p => r = Panic p
              end
          end
      end
  | PMap _ _ l, Rest => r = Ok ODone
  | PFields _ [], Field _ _ => r = Ok OEnd
  | PFields det ((f, present, v) :: l), Field x w =>
      match x with
      | Decode => exists r2, expect (PFields det l) w r2 /\ r = seen (OVal v) r2
      | Skip => exists r2, expect (PFields det l) w r2 /\ r = seen ODone r2
      | View =>
          if is_idx f then exists b r2, field_image E f v b /\ expect (PFields det l) w r2 /\ r = seen (OBytes b) r2
          else r = Panic PType
      | Walk x' =>
          if is_idx f then r = Panic PType
          else if det then r = Err (EConversion (MOther 7))
          else if negb present then r = Err (EConversion (MOther 1))
          else exists r1, walked (f_ty f) v x' r1 /\
               match r1 with
               | Ok o => exists r2, expect (PFields det l) w r2 /\ r = seen o r2
               | Err e => r = Err e
               | Panic p => r = Panic p
               end
      | _ => r = Panic PType
      end
  | PFields _ l, Rest => r = Ok ODone
  | PEnum det s vs k l, Is k' w0 w1 =>
      match variant_here s vs k' with
      | Some _ => if k =? k' then expect c w0 r else expect c w1 r
      | None => r = Panic PType
      end
  | PEnum det s vs k l, DecodeVar k' =>
      match variant_here s vs k' with
      | Some [] => r = if k =? k' then Ok ODone else Err (EDeserialize (MOther 2))
      | Some [f] => if k =? k' then exists v, l = [v] /\ r = Ok (OVal v) else r = Err (EDeserialize (MOther 2))
      | _ => r = Panic PType
      end
  | PEnum det s vs k l, ViewVar k' =>
      match variant_here s vs k' with
      | Some [] => r = Panic PType
      | Some fs =>
          if negb (k =? k') then r = Err (EDeserialize (MOther 2))
          else if det then exists b, payload_image E fs l b /\ r = Ok (OBytes b)
          else match fs with
               | [f] => exists v, l = [v] /\ r = rmap OBytes (to_vec E D (f_ty f) v)
               | _ => r = Err (EConversion (MOther 3))
               end
      | None => r = Panic PType
      end
  | PEnum det s vs k l, IntoVar k' w =>
      match variant_here s vs k' with
      | Some [f] =>
          if negb (k =? k') then r = Err (EDeserialize (MOther 2))
          else if det then r = Err (EConversion (MOther 8))
          else exists v, l = [v] /\ walked (f_ty f) v w r
      | _ => r = Panic PType
      end
  | _, _ => r = Panic PType
  end.
End Expect.

(** A script on a walker over the value [v] may end with [r]. *)
Definition shows (E : env) (D : nat) (opened : ty -> val -> view -> Prop) (t : ty) (v : val) (a : act) (r : res obs) : Prop :=
  if refused E t then r = Err (EDeserialize MBulkVec) else exists c, opened t v c /\ expect E D opened c a r.
(** A script that succeeds leaves the reader at [rest]. *)
Definition fin (r : res obs) (rest : bytes) (o : N) : res (obs * sreader) :=
  match r with Ok x => Ok (x, mkSR rest o) | Err e => Err e | Panic p => Panic p end.

(** The calls on a map walker and its entries, over the entries [l]; [cur]: the entry held, and whether its key
    has been handled; [last]: how it ends, None if it stops at a call that failed.  Nothing is said about a caller that goes back to the walker while the value of the entry
    it holds is still to be read. *)
Section Session.
Variable E : env.
Variable D : nat.
Variable opened : ty -> val -> view -> Prop.
Variables a b : ty.
Fixpoint session (l : list val) (cur : option bool) (ops : list mop) (rs : list (res obs)) (last : option (list val * option bool)) : Prop :=
  match ops, rs with
  | [], _ => rs = [] /\ last = Some (l, cur)
  | _ :: _, [] => False
  | o :: ops', r :: rs' =>
      match side o, cur, l with
      | OnWalker, Some true, _ => True
      | OnWalker, _, _ =>
          match o, l with
          | NextEntry, [] => r = Ok OEnd /\ session l None ops' rs' last
          | NextEntry, _ => r = Ok ODone /\ session l (Some false) ops' rs' last
          | _, _ => r = Ok (OVal (VInt (Z.of_N (len l)))) /\ session l None ops' rs' last
          end
      | OnKey x, Some false, e :: _ =>
          expect E D opened (PPos a (pkey e)) x r /\ match r with Ok _ => session l (Some true) ops' rs' last | _ => (rs' = [] /\ last = None) end
      | OnKey _, Some true, _ => r = Err (EDeserialize (MOther 9)) /\ session l (Some true) ops' rs' last
      | OnValue x, Some true, e :: l' =>
          expect E D opened (PPos b (pval e)) x r /\ match r with Ok _ => session l' None ops' rs' last | _ => (rs' = [] /\ last = None) end
      | OnValue _, Some false, _ => r = Err (EDeserialize (MOther 9)) /\ session l None ops' rs' last
      | _, _, _ => r = Panic PType /\ (rs' = [] /\ last = None)
      end
  end.
End Session.

(** Going through the fields of a struct, or the items of a sequence, decoding some ([true]) and skipping the
    others, then skipping what is left. *)
Fixpoint visit_fields (cs : list bool) : act :=
  match cs with [] => Rest | c :: cs' => Field (if c then Decode else Skip) (visit_fields cs') end.
Fixpoint visit_items (cs : list bool) : act :=
  match cs with [] => Rest | c :: cs' => Item (if c then Decode else Skip) (visit_items cs') end.
Fixpoint visit_entries (cs : list (bool * bool)) : act :=
  match cs with
  | [] => Rest
  | (c, c') :: cs' => Entry (if c then Decode else Skip) (if c' then Decode else Skip) (visit_entries cs')
  end.
Definition chosen (c : bool) (v : val) : obs := if c then OVal v else ODone.
Fixpoint visited (cs : list bool) (l : list val) : obs :=
  match cs, l with
  | [], _ => ODone
  | _ :: _, [] => OEnd
  | c :: cs', v :: l' => OCons (chosen c v) (visited cs' l')
  end.
Fixpoint visited_entries (cs : list (bool * bool)) (l : list val) : obs :=
  match cs, l with
  | [], _ => ODone
  | _ :: _, [] => OEnd
  | (c, c') :: cs', e :: l' => OCons (OCons (chosen c (pkey e)) (chosen c' (pval e))) (visited_entries cs' l')
  end.

(** The kind of a walker is known from the type. *)
Inductive kind :=
| HPos (t : ty) | HOpt (t : ty) | HRes (a b : ty) | HSeq (t : ty) | HMap (a b : ty)
| HFields (indexed : bool) (fs : list field) | HEnum (s : schema) (vs : list variant).
(** [into_<field>_bytes]: bytes that decode to the field.  Fields newer than the data have none. *)
Definition bytes_shown (E : env) (D : nat) (det : bool) (f : field) (present : bool) (v : val) (r : res obs) : Prop :=
  if negb present then r = Err (EConversion (MOther 1))
  else if is_idx f then exists x, field_image E f v x /\ r = Ok (OBytes x)
  else (exists x d, run (deserialize E d (f_ty f)) x = Ok (v, []) /\ r = Ok (OBytes x))
       \/ (det = true /\ r = rmap OBytes (to_vec E D (f_ty f) v)).
Definition into_shown (E : env) (D : nat) (c : view) (cs : list bool) (r : res obs) : Prop :=
  match c with
  | PFail x => r = x
  | PFields det l => match nth_error l (length cs) with
                     | Some (f, present, v) => bytes_shown E D det f present v r
                     | None => r = Panic PType
                     end
  | _ => r = Panic PType
  end.
(** Which fields are decoded on the way: as for scripts. *)
Fixpoint way_covered (k : kind) (cs : list bool) : Prop :=
  match k, cs with
  | HFields ix (f :: fs), c :: cs' => (c = true -> ix && is_idx f = false) /\ way_covered (HFields ix fs) cs'
  | _, _ => True
  end.

(** Search: the comparisons of the keys with what is sought go from Less to Greater, with at most one Equal. *)
Fixpoint ascending (p : val -> comparison) (l : list val) : Prop :=
  match l with
  | [] => True
  | e :: l' => (p (pkey e) <> Lt -> forall e', In e' l' -> p (pkey e') = Gt) /\ ascending p l'
  end.

Section Opened.
Variable E : env.
Variable D : nat.
(** Data of an older revision of a type with [convert_fn]s is decoded, converted and encoded again, and the
    copy is walked.  Making the copy may fail. *)
Definition copied (s : schema) (rev : N) : bool := has_convert s && negb (rev =? scur s).
Definition copy_fails (n : N) (v : val) (x : res obs) : Prop :=
  match to_vec E (S D) (TRef n) v with
  | Ok b => 2 ^ e_ub E <= len b /\ x = Panic PMem
  | Err e => x = Err e
  | Panic p => x = Panic p
  end.
(** Of a value decoded from any bytes.  The entries of a set or map are in the order of the bytes: putting them
    together gives the value. *)
Fixpoint opened (t : ty) (v : val) (c : view) : Prop :=
  match t with
  | TOption t' => (v = VVar 0 [] /\ c = POpt t' None) \/ exists x, v = VVar 1 [x] /\ c = POpt t' (Some x)
  | TResult a b => exists x, (v = VVar 0 [x] /\ c = PRes a b (inl x)) \/ (v = VVar 1 [x] /\ c = PRes a b (inr x))
  | TVec t' | TImVec t' => exists l, v = VSeq l /\ c = PSeq t' l
  | TSet k t' => exists l, v = VSeq (build_set E k t' l) /\ c = PSeq t' l
  | THeap t' => exists l, v = VSeq (ssort vcmp l) /\ c = PSeq t' l
  | TMap k a b => exists l, v = VSeq (build_map E k a l) /\ c = PMap a b l
  | TWrap t' => opened t' v c
  | TExt x false TF32 => exists y, e_ext E x y = Some v /\ c = PPos TF32 y
  | TExt x false TF64 => exists y, e_ext E x y = Some v /\ c = PPos TF64 y
  | TRef n =>
      exists s rev, e_sch E n = Some s /\ 1 <= rev <= scur s /\
      if copied s rev then
        (exists x, copy_fails n v x /\ c = PFail x) \/
        match s_body s with
        | SStruct fs => exists l, v = VSeq l /\ length l = length (filter (falive (scur s)) fs)
                      /\ c = PFields true (combine (map (fun f => (f, true)) (filter (falive (scur s)) fs)) l)
        | SEnum vs => exists k l, v = VVar k l /\ c = PEnum true s vs k l
        end
      else match s_body s with
      (* the fields of the program; those newer than the data come from their [default_fn] *)
      | SStruct fs => exists l, v = VSeq l
                      /\ Forall2 (fun f x => rev < f_start f -> f_default f rev = Ok x) (filter (falive (scur s)) fs) l
                      /\ c = PFields false (combine (map (fun f => (f, f_start f <=? rev)) (filter (falive (scur s)) fs)) l)
      | SEnum vs => exists k l, v = VVar k l /\ c = PEnum false s vs k l
      end
  | _ => c = PPos t v
  end.
(** Of a value this program encoded: the entries in iteration order, all fields there. *)
Fixpoint opened_enc (t : ty) (v : val) (c : view) : Prop :=
  match t with
  | TOption t' => (v = VVar 0 [] /\ c = POpt t' None) \/ exists x, v = VVar 1 [x] /\ c = POpt t' (Some x)
  | TResult a b => exists x, (v = VVar 0 [x] /\ c = PRes a b (inl x)) \/ (v = VVar 1 [x] /\ c = PRes a b (inr x))
  | TVec t' | TImVec t' => exists l, v = VSeq l /\ c = PSeq t' l
  | TSet KOrd t' => exists l, v = VSeq l /\ c = PSeq t' l
  | TSet KHash t' => exists l, v = VSeq l /\ c = PSeq t' (e_iter E t l)
  | THeap t' => exists l, v = VSeq l /\ c = PSeq t' (e_iter E t l)
  | TMap KOrd a b => exists l, v = VSeq l /\ c = PMap a b l
  | TMap KHash a b => exists l, v = VSeq l /\ c = PMap a b (e_iter E t l)
  | TWrap t' => opened_enc t' v c
  | TExt x false TF32 => c = PPos TF32 v
  | TExt x false TF64 => c = PPos TF64 v
  | TRef n =>
      exists s h, e_sch E n = Some s /\ sent s (scur s) = Some h /\
      match s_body s with
      | SStruct fs => exists l, v = VSeq l
                      /\ c = PFields (h_opt h && h_idx h) (combine (map (fun f => (f, true)) (filter (falive (scur s)) fs)) l)
      | SEnum vs => exists k l, v = VVar k l /\ c = PEnum (h_opt h) s vs k l
      end
  | _ => c = PPos t v
  end.
End Opened.

(** Derived types whose walkers agree with their decoders on whatever decodes: no revision optimised, no
    [fixed] and no [indexed_*] field and, without [convert_fn]s, no field added to an existing variant. *)
Definition plain_field (f : field) : Prop := f_fixed f = false /\ f_idx f = INone.
Definition walkable (s : schema) : Prop :=
  Forall (fun h => h_opt h = false) (s_hist s) /\
  match s_body s with
  | SStruct fs => Forall plain_field fs
  | SEnum vs => Forall (fun v => Forall (fun f => plain_field f /\ (has_convert s = true \/ f_start f <= v_start v)) (v_fields v)) vs
  end.
(** The same without [convert_fn]s, that is with nothing removed. *)
Definition simple_schema (s : schema) : Prop := walkable s /\ has_convert s = false.
(** Those whose walkers agree on what this program encodes: if the current revision is not optimised, the fields
    have no [fixed] and (in structs) no [indexed_*]. *)
Definition plain_now (s : schema) : Prop :=
  forall h, sent s (scur s) = Some h -> h_opt h = false ->
  match s_body s with
  | SStruct fs => Forall (fun f => falive (scur s) f = true -> plain_field f) fs
  | SEnum vs => Forall (fun v => Forall (fun f => falive (scur s) f = true -> f_fixed f = false) (v_fields v)) vs
  end.

(** The scripts that open only walkers [may] allows, and that do not decode [indexed_*] fields of an indexed
    struct. *)
Section Covered.
Variable E : env.
Variable may : schema -> Prop.
Definition indexed_now (s : schema) : bool :=
  match sent s (scur s) with Some h => h_opt h && h_idx h | None => false end.
Fixpoint kind_of (t : ty) : kind :=
  match t with
  | TOption t' => HOpt t'
  | TResult a b => HRes a b
  | TVec t' | TImVec t' | TSet _ t' | THeap t' => HSeq t'
  | TMap _ a b => HMap a b
  | TWrap t' => kind_of t'
  | TExt _ false TF32 => HPos TF32
  | TExt _ false TF64 => HPos TF64
  | TRef n => match e_sch E n with
              | Some s => match s_body s with
                          | SStruct fs => HFields (indexed_now s) (filter (falive (scur s)) fs)
                          | SEnum vs => HEnum s vs
                          end
              | None => HPos t
              end
  | _ => HPos t
  end.
Fixpoint opens (t : ty) : Prop :=
  match t with
  | TWrap t' => opens t'
  | TRef n => forall s, e_sch E n = Some s -> may s
  | _ => True
  end.
Fixpoint covered (c : kind) (a : act) : Prop :=
  let into := fun t w => opens t /\ covered (kind_of t) w in
  match c, a with
  | HPos t, Walk w => into t w
  | HOpt t, Case w0 w1 => covered c w0 /\ covered c w1
  | HOpt t, Into _ w => into t w
  | HRes _ _, Case w0 w1 => covered c w0 /\ covered c w1
  | HRes t t', Into k w => if k =? 0 then into t w else into t' w
  | HSeq t, Item x w => covered (HPos t) x /\ covered c w
  | HMap t t', Entry x y w => covered (HPos t) x /\ covered (HPos t') y /\ covered c w
  | HFields ix (f :: fs), Field x w =>
      match x with
      | Walk x' => if is_idx f || ix then True else into (f_ty f) x'
      | Decode => ix && is_idx f = false
      | _ => True
      end /\ covered (HFields ix fs) w
  | HEnum s vs, Is _ w0 w1 => covered c w0 /\ covered c w1
  | HEnum s vs, IntoVar k w => match variant_here s vs k with Some [f] => into (f_ty f) w | _ => True end
  | _, _ => True
  end.
End Covered.
