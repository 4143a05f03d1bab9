(** What reaches the writer when serialisation stops half way.  Model part.

    Ser.v keeps only the error of a [serialize_revisioned] call that fails.  Here the write calls made before the failure are
    kept too: the same code as in Ser.v, read as a sequence of calls on the writer.  Code that first fills a scratch [Vec]
    (payloads of optimised revisions, indexed fields) has written nothing if it fails while filling it. *)

From Verif Require Import Base Prog Prim Utf8 Tag Ty Ser.
From Coq Require Import List NArith ZArith Bool.
Import ListNotations.
Open Scope N_scope.

(** The write calls made, and how it ended. *)
Definition pw := (list wop * res unit)%type.
Definition pdone : pw := ([], Ok tt).
(** Code that fails before its first write call, if it fails. *)
Definition pdo (s : ser) : pw :=
  match s with Ok l => (l, Ok tt) | Err e => ([], Err e) | Panic x => ([], Panic x) end.
(** [a?; b] *)
Definition pthen (a b : pw) : pw := match snd a with Ok _ => (fst a ++ fst b, snd b) | _ => a end.
Notation "a >>> b" := (pthen a b) (at level 60, right associativity).
Definition pconcat (l : list pw) : pw := fold_right pthen pdone l.

Section Pw.
Variable E : env.

(** specialised.rs:47-83, 137-143, 171-189, 223-250; uuid.rs:37-65; decimal.rs:37-61: the length is written before the
    check of the byte length. *)
Definition pw_bulk (k : bk) (l : list val) : pw :=
  let n := len l in
  pdo (sall (ser_len E n)) >>>
  (if n =? 0 then pdone
   else pdo match k with
        | BBool => rbind (rmapM as_bool l) (fun bs => sall (pack bs))
        | BFix _ w => rbind (rmapM as_int l) (fun zs => sall (flat_map (ser_fixed w) zs))
        | BRaw _ => if n * 16 <? 2 ^ e_ub E
                    then rbind (rmapM as_bytes l) (fun bs => sall (concat bs))
                    else Err EOverflow
        end).

Section Rec.
(** [rec n v]: [serialize_revisioned] of the derived type [n] on the writer, [srec n v]: the same on a scratch [Vec]. *)
Variable rec : N -> val -> pw.
Variable srec : N -> val -> ser.

Definition pw_entry (sk sv : val -> pw) (p : val) : pw :=
  match p with VPair k v => sk k >>> sv v | _ => pdo ty_err end.

Fixpoint pw_ty (t : ty) (v : val) {struct t} : pw :=
  match t, v with
  (* tuple.rs:10-22 *)
  | TPair a b, VPair x y => pw_ty a x >>> pw_ty b y
  (* vecs.rs:15-73 *)
  | TVec t', VSeq l =>
      match (if e_spec E then bulk_of t' else None) with
      | Some k => pw_bulk k l
      | None => pdo (sall (ser_len E (len l))) >>> pconcat (map (pw_ty t') l)
      end
  (* imbl.rs:116-133 *)
  | TImVec t', VSeq l => pdo (sall (ser_len E (len l))) >>> pconcat (map (pw_ty t') l)
  (* arrays.rs:8-17 *)
  | TArray n t', VSeq l => if Nat.eqb (length l) n then pconcat (map (pw_ty t') l) else pdo ty_err
  (* option.rs:7-20 *)
  | TOption t', VVar k l =>
      match k, l with
      | 0, [] => pdo (sall [0])
      | 1, [x] => pdo (sall [1]) >>> pw_ty t' x
      | _, _ => pdo ty_err
      end
  (* result.rs:7-20 *)
  | TResult a b, VVar k l =>
      match k, l with
      | 0, [x] => pdo (sall (ser_u32 (e_fw E) 0)) >>> pw_ty a x
      | 1, [x] => pdo (sall (ser_u32 (e_fw E) 1)) >>> pw_ty b x
      | _, _ => pdo ty_err
      end
  (* bound.rs:8-22 *)
  | TBound t', VVar k l =>
      match k, l with
      | 0, [] => pdo (sall (ser_u32 (e_fw E) 0))
      | 1, [x] => pdo (sall (ser_u32 (e_fw E) 1)) >>> pw_ty t' x
      | 2, [x] => pdo (sall (ser_u32 (e_fw E) 2)) >>> pw_ty t' x
      | _, _ => pdo ty_err
      end
  (* collections.rs:14-34, 64-82; imbl.rs:167-187, 276-296 *)
  | TMap k a b, VSeq l =>
      pdo (sall (ser_len E (len l))) >>> pconcat (map (pw_entry (pw_ty a) (pw_ty b)) (citer E k (TMap k a b) l))
  (* collections.rs:115-130, 161-177; imbl.rs:225-242, 333-350 *)
  | TSet k t', VSeq l =>
      pdo (sall (ser_len E (len l))) >>> pconcat (map (pw_ty t') (citer E k (TSet k t') l))
  (* collections.rs:208-222 *)
  | THeap t', VSeq l =>
      pdo (sall (ser_len E (len l))) >>> pconcat (map (pw_ty t') (e_iter E (THeap t') l))
  (* boxes.rs:7-14, arc.rs:8-15, cow.rs:5-20, wrapping.rs:8-14, reverse.rs:8-14 *)
  | TWrap t', _ => pw_ty t' v
  | TExt _ _ t', _ => pw_ty t' v
  | TRef n, _ => rec n v
  (* the others fail, if at all, before their first write (path.rs:10-15, system_time.rs:8-16) *)
  | TPair _ _, _ | TVec _, _ | TImVec _, _ | TArray _ _, _ | TOption _, _ | TResult _ _, _ | TBound _, _ | TMap _ _ _, _
  | TSet _ _, _ | THeap _, _ => pdo ty_err
  | _, _ => pdo (ser_ty E srec t v)
  end.

(** One field of a revision that is not optimised (ser.rs:127-147, common.rs). *)
Definition pw_mode (m : fmode) (t : ty) (v : val) : pw :=
  match m, t, v with
  | MPlain, _, _ => pw_ty t v
  | MBulk, TVec t', VSeq l => match bulk_of t' with Some k => pw_bulk k l | None => pdo ty_err end
  | _, _, _ => pdo (ser_mode E srec m t v)
  end.
Fixpoint pw_fields (r : N) (fs : list field) (vs : list val) : list pw :=
  match fs with
  | [] => match vs with [] => [] | _ => [pdo ty_err] end
  | f :: fs' =>
      if falive r f then
        match vs with
        | v :: vs' => pw_mode (mode_of false f) (f_ty f) v :: pw_fields r fs' vs'
        | [] => [pdo ty_err]
        end
      else pw_fields r fs' vs
  end.
(** ser.rs:29-73; struct_codegen.rs:28-129: an optimised payload is built in a scratch [Vec] before its length is written. *)
Definition pw_struct (h : hent) (r : N) (fs : list field) (v : val) : pw :=
  match v with
  | VSeq vs => if h_opt h then pdo (ser_struct_opt E srec (h_idx h) r fs vs) else pconcat (pw_fields r fs vs)
  | _ => pdo ty_err
  end.
(** enum_codegen.rs:85-173: the tag is written before the payload is built. *)
Definition pw_variant_opt (r : N) (vr : variant) (d : N) (vs : list val) : pw :=
  match v_size vr with
  | None => pdo ty_err
  | Some SInline => pdo (rbind (tag_new_checked (e_dbg E) d CInline) write_tag)
  | Some (SFixed n) =>
      pdo (rbind (tag_new_checked (e_dbg E) d CFixed) write_tag) >>>
      pdo (rbind (rmapM ser_bytes (ser_vfields E srec r (v_fields vr) vs)) (fun bs =>
             let b := concat bs in
             if e_dbg E && negb (len b =? n) then Panic PAssert else sall b))
  | Some SVarlen =>
      pdo (rbind (tag_new_checked (e_dbg E) d CVarlen) write_tag) >>>
      pdo (rbind (rmapM ser_bytes (ser_vfields E srec r (v_fields vr) vs)) (fun bs => ser_payload (concat bs)))
  end.
(** ser.rs:75-99, 150-236; enum_codegen.rs:73-180. *)
Definition pw_enum (h : hent) (r : N) (vs : list variant) (v : val) : pw :=
  match v with
  | VVar k l =>
      match calc_disc r vs with
      | None => pdo ty_err
      | Some ds =>
          match find_name k ds with
          | None => pdo ty_err
          | Some (vr, d) =>
              if h_opt h then pw_variant_opt r vr d l
              else pdo (sall (ser_u32 (e_fw E) d)) >>> pconcat (pw_fields r (v_fields vr) l)
          end
      end
  | _ => pdo ty_err
  end.
(** derive expand/mod.rs:221-232. *)
Definition pw_derived (s : schema) (v : val) : pw :=
  match sent s (scur s) with
  | None => pdo ty_err
  | Some h =>
      pdo (sall (ser_u16 (e_fw E) (scur s))) >>>
      match s_body s with
      | SStruct fs => pw_struct h (scur s) fs v
      | SEnum vs => pw_enum h (scur s) vs v
      end
  end.
End Rec.

Fixpoint pw_ref (depth : nat) (n : N) (v : val) : pw :=
  match depth with
  | O => pdo (Panic PStack)
  | S d => match e_sch E n with
           | Some s => pw_derived (pw_ref d) (ser_ref E d) s v
           | None => pdo ty_err
           end
  end.
(** lib.rs:185-195 [to_writer]. *)
Definition writes (depth : nat) (t : ty) (v : val) : pw := pw_ty (pw_ref depth) (ser_ref E depth) t v.
End Pw.
