(** What reading old data is supposed to mean, on values: specification part.

    [migrate E E' d t v] is the value a program [E'] should see where the program [E] had [v].  It
    follows the documentation (README.md, lib.rs: fields present in both programs keep their
    value, added fields get their default for the old revision, removed fields are passed to their
    convert function after construction, in declaration order; removed variants go through their
    convert function).  It works on values, not on bytes; encodings only matter for the order in
    which the entries of hash tables and indexed maps are visited. *)

From Verif Require Import Base Prog Prim Utf8 Tag Ty Ser Typed.
From Coq Require Import List NArith ZArith Bool.
Import ListNotations.
Open Scope N_scope.

(** Errors below a [Result] or [Bound] are reported as [Error::Deserialize] with the inner
    error's text (result.rs:28-31, bound.rs:31-38). *)
Definition rewrap {A} (r : res A) : res A :=
  match r with Err _ => Err (EDeserialize MInner) | x => x end.

Section Mig.
(** [E]: the writing program, [E']: the reading program, [se]: how [E] encodes values. *)
Variables (E E' : env).

(** Entries in ascending order of their encoded keys. *)
Definition by_bytes (enc : val -> res bytes) (l : list val) : res (list val) :=
  rbind (rmapM enc l) (fun bs =>
  Ok (map snd (ssort (fun a b => bcmp (fst a) (fst b)) (combine bs l)))).

Section Rec.
Variable rec : N -> val -> res val.
Variable se : ty -> val -> ser.

Definition mig_entry (mk mv : val -> res val) (p : val) : res val :=
  match p with
  | VPair k v => rbind (mk k) (fun k' => rbind (mv v) (fun v' => Ok (VPair k' v')))
  | _ => ty_err
  end.

Fixpoint mig_ty (t : ty) (v : val) {struct t} : res val :=
  match t, v with
  | TDecimal, VBytes b => Ok (VBytes (e_dec E' b))
  | TPair a b, VPair x y => rbind (mig_ty a x) (fun x' => rbind (mig_ty b y) (fun y' => Ok (VPair x' y')))
  | TVec t', VSeq l | TImVec t', VSeq l | TArray _ t', VSeq l =>
      rbind (rmapM (mig_ty t') l) (fun l' => Ok (VSeq l'))
  | TOption t', VVar k l => rbind (rmapM (mig_ty t') l) (fun l' => Ok (VVar k l'))
  | TResult a b, VVar k l =>
      rbind (rewrap (rmapM (fun x => if k =? 0 then mig_ty a x else mig_ty b x) l))
            (fun l' => Ok (VVar k l'))
  | TBound t', VVar k l => rbind (rewrap (rmapM (mig_ty t') l)) (fun l' => Ok (VVar k l'))
  (* the entries are visited in the writer's iteration order *)
  | TMap k a b, VSeq l =>
      rbind (rmapM (mig_entry (mig_ty a) (mig_ty b)) (citer E k t l)) (fun l' =>
      Ok (VSeq (cbuild (e_cmp E' a) pkey (match k with KHash => upd_insert | KOrd => upd_last end) l')))
  | TSet k t', VSeq l =>
      rbind (rmapM (mig_ty t') (citer E k t l)) (fun l' =>
      Ok (VSeq (cbuild (e_cmp E' t') vid (match k with KHash => upd_first | KOrd => upd_last end) l')))
  | THeap t', VSeq l =>
      rbind (rmapM (mig_ty t') (e_iter E t l)) (fun l' => Ok (VSeq (ssort vcmp l')))
  | TWrap t', _ => mig_ty t' v
  | TSystemTime, VPair (VInt s) n => if (s <=? e_time E')%Z then Ok v else Panic PTime
  | TExt c _ t', _ =>
      rbind (mig_ty t' v) (fun x =>
      match e_ext E' c x with Some y => Ok y | None => Err (EDeserialize (MExternal c)) end)
  | TRef n, _ => rec n v
  | _, _ => Ok v
  end.

Definition mig_mode (m : fmode) (t : ty) (v : val) : res val :=
  match m, t, v with
  | MIdxMap, TMap k a b, VSeq l =>
      rbind (by_bytes (fun p => ser_bytes (se a (pkey p))) (citer E k t l)) (fun es =>
      rbind (if len l <? OFFSET_TABLE_MIN_LEN then rmapM (mig_entry (mig_ty a) (mig_ty b)) es
             else rbind (rmapM (fun p => mig_ty a (pkey p)) es) (fun ks =>
                  rbind (rmapM (fun p => mig_ty b (pval p)) es) (fun vs =>
                  Ok (map (fun p => VPair (fst p) (snd p)) (combine ks vs))))) (fun es' =>
      Ok (VSeq (cbuild (e_cmp E' a) pkey upd_insert es'))))
  | MIdxSet, TSet k t', VSeq l =>
      rbind (by_bytes (fun x => ser_bytes (se t' x)) (citer E k t l)) (fun es =>
      rbind (rmapM (mig_ty t') es) (fun es' =>
      Ok (VSeq (cbuild (e_cmp E' t') vid (match k with KHash => upd_first | KOrd => upd_last end) es'))))
  | _, _, _ => mig_ty t v
  end.

(** [vs]: the values of the fields alive at the old revision [cur].  Result: the fields of the
    target revision, and the removed fields with their values. *)
Fixpoint mig_fields (opt : bool) (cur tgt : N) (fs : list field) (vs : list val)
  : res (list val * list (field * val)) :=
  match fs with
  | [] => match vs with [] => Ok ([], []) | _ => ty_err end
  | f :: fs' =>
      if falive cur f then
        match vs with
        | [] => ty_err
        | v :: vs' =>
            rbind (mig_mode (mode_of opt f) (f_ty f) v) (fun v' =>
            rbind (mig_fields opt cur tgt fs' vs') (fun p =>
            if falive tgt f then Ok (v' :: fst p, snd p) else Ok (fst p, (f, v') :: snd p)))
        end
      else if falive tgt f then
        rbind (f_default f cur) (fun v' =>
        rbind (mig_fields opt cur tgt fs' vs) (fun p => Ok (v' :: fst p, snd p)))
      else mig_fields opt cur tgt fs' vs
  end.

(** The convert functions of the removed fields, in declaration order. *)
Fixpoint mig_converts (cur : N) (this : list val) (rem : list (field * val)) : res (list val) :=
  match rem with
  | [] => Ok this
  | (f, v) :: rem' => rbind (f_convert f this cur v) (fun this' => mig_converts cur this' rem')
  end.
Definition mig_body (opt : bool) (cur tgt : N) (fs : list field) (vs : list val) : res (list val) :=
  rbind (mig_fields opt cur tgt fs vs) (fun p => mig_converts cur (fst p) (snd p)).

(** [s']: the type in the reading program; [cur]: the revision of the writing program. *)
Definition mig_derived (s' : schema) (cur : N) (opt : bool) (v : val) : res val :=
  match s_body s', v with
  | SStruct fs, VSeq l => rbind (mig_body opt cur (scur s') fs l) (fun l' => Ok (VSeq l'))
  | SEnum vs, VVar k l =>
      match find (fun vr => v_name vr =? k) vs with
      | None => ty_err
      | Some vr =>
          rbind (mig_body false cur (scur s') (v_fields vr) l) (fun l' =>
          if valive (scur s') vr then Ok (VVar k l') else v_convert vr l' cur)
      end
  | _, _ => ty_err
  end.
End Rec.

Fixpoint mig_ref (depth : nat) (n : N) (v : val) : res val :=
  match depth with
  | O => Panic PStack
  | S d =>
      match e_sch E n, e_sch E' n with
      | Some s, Some s' =>
          match sent s (scur s) with
          | Some h => mig_derived (mig_ref d) (ser_ty E (ser_ref E d)) s' (scur s) (h_opt h) v
          | None => ty_err
          end
      | _, _ => ty_err
      end
  end.
Definition migrate (depth : nat) (t : ty) (v : val) : res val := mig_ty (mig_ref depth) t v.
End Mig.

(** ** Which programs can read each other's data *)

(** A revision of a type as seen on the wire. *)
Definition wire_field (opt : bool) (f : field) : ty * fmode := (f_ty f, mode_of opt f).
Definition wire_fields (opt : bool) (r : N) (fs : list field) : list (ty * fmode) :=
  map (wire_field opt) (filter (falive r) fs).
Definition wire_variant (opt : bool) (r : N) (p : variant * N)
  : N * N * option vsize * list (ty * fmode) :=
  (v_name (fst p), snd p, if opt then v_size (fst p) else None,
   if opt then map (fun f => (f_ty f, MPlain)) (filter (falive r) (v_fields (fst p)))
   else wire_fields false r (v_fields (fst p))).

Definition same_wire (opt : bool) (r : N) (b b' : body) : Prop :=
  match b, b' with
  | SStruct fs, SStruct fs' => wire_fields opt r fs = wire_fields opt r fs'
  | SEnum vs, SEnum vs' =>
      exists ds ds', calc_disc r vs = Some ds /\ calc_disc r vs' = Some ds'
                     /\ map (wire_variant opt r) ds = map (wire_variant opt r) ds'
  | _, _ => False
  end.

(** Two restrictions the code has on optimised revisions (see MigRef.v for what happens without
    them): a removed field must not be indexed, and the fields of an enum variant must not change
    between the old and the current revision. *)
Definition opt_restricted (r : N) (s' : schema) : Prop :=
  match s_body s' with
  | SStruct fs' => forall f, In f fs' -> falive r f = true -> falive (scur s') f = false -> f_idx f = INone
  | SEnum vs' => forall vr f, In vr vs' -> valive r vr = true -> In f (v_fields vr) ->
                 falive r f = falive (scur s') f
  end.

(** [s'] is a later version of [s]: its history continues the one of [s], and what it declares for
    the last revision of [s] is what [s] declares. *)
Definition evolves (s s' : schema) : Prop :=
  scur s <= scur s' /\
  exists h, sent s (scur s) = Some h /\ sent s' (scur s) = Some h
            /\ same_wire (h_opt h) (scur s) (s_body s) (s_body s')
            /\ (h_opt h = true -> opt_restricted (scur s) s').

Definition compatible (E E' : env) : Prop :=
  e_fw E = e_fw E' /\ e_spec E = e_spec E' /\ e_ub E = e_ub E' /\
  forall n s, e_sch E n = Some s -> exists s', e_sch E' n = Some s' /\ evolves s s'.

(** [bs] are the encodings of the field values [l]. *)
Inductive Forall3_enc (E : env) (d : nat) : list field -> list val -> list bytes -> Prop :=
| enc_nil : Forall3_enc E d [] [] []
| enc_cons : forall f fs v l b bs, to_vec E d (f_ty f) v = Ok b -> Forall3_enc E d fs l bs ->
             Forall3_enc E d (f :: fs) (v :: l) (b :: bs).
(** The sizes declared with [size = "fixed(N)"] are the encoded sizes.  Debug builds check this at
    run time (enum_codegen.rs:133-139), release builds do not (see PropIdx.v). *)
Definition sizes_honest (E : env) : Prop :=
  e_dbg E = true \/
  forall n s vs vr k d l bs,
    e_sch E n = Some s -> s_body s = SEnum vs -> In vr vs -> v_size vr = Some (SFixed k) ->
    wt_fields E (wt_ref E d) (scur s) (v_fields vr) l ->
    Forall3_enc E d (filter (falive (scur s)) (v_fields vr)) l bs ->
    len (concat bs) = k.
