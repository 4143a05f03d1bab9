(** Types whose implementations are written by hand: [SerializeRevisioned], [DeserializeRevisioned] and [SkipRevisioned]
    (lib.rs:32-44, 140-162) implemented in the program itself rather than derived, and the bitmaps of the [roaring] crate
    (src/implementations/roaring.rs), which hand over to that crate's own format. *)

From Verif Require Import Base Prog Ty Ser De Skip Typed Mig.
From Coq Require Import List NArith Bool.
Import ListNotations.
Open Scope N_scope.

(** The three functions of a hand-written implementation.  Each may call the implementations of other types, derived or
    not, so each takes those as arguments: serialize_revisioned, deserialize_revisioned and skip_revisioned by type number.
    [c_ok] says which values the Rust type has. *)
Record codec := mkCodec {
  c_ser : (N -> val -> ser) -> val -> ser;
  c_de : (N -> prog val) -> prog val;
  c_skip : (N -> prog unit) -> (N -> prog val) -> prog unit;
  c_ok : (N -> val -> Prop) -> val -> Prop
}.

Section Custom.
Variable E : env.
(** Which type numbers have hand-written implementations; the others are derived, from [e_sch E]. *)
Variable U : N -> option codec.

(** As [ser_ref] (Ser.v), [de_ref] (De.v), [sk_ref] (Skip.v) and [wt_ref] (Typed.v): the implementation of the trait that
    the compiler picks for the type, lib.rs:32-44, 140-162. *)
Fixpoint user_ser (depth : nat) (n : N) (v : val) : ser :=
  match depth with
  | O => Panic PStack
  | S d =>
      match U n with
      | Some c => c_ser c (user_ser d) v
      | None => match e_sch E n with Some s => ser_derived E (user_ser d) s v | None => ty_err end
      end
  end.
Fixpoint user_de (depth : nat) (n : N) : prog val :=
  match depth with
  | O => Crash PStack
  | S d =>
      match U n with
      | Some c => c_de c (user_de d)
      | None => match e_sch E n with Some s => de_derived E (user_de d) s | None => Crash PType end
      end
  end.
Fixpoint user_skip (depth : nat) (n : N) : prog unit :=
  match depth with
  | O => Crash PStack
  | S d =>
      match U n with
      | Some c => c_skip c (user_skip d) (user_de d)
      | None => match e_sch E n with Some s => sk_derived E (user_skip d) (user_de d) s | None => Crash PType end
      end
  end.
Fixpoint user_ok (depth : nat) (n : N) (v : val) : Prop :=
  match depth with
  | O => False
  | S d =>
      match U n with
      | Some c => c_ok c (user_ok d) v
      | None => match e_sch E n with Some s => wt_derived E (user_ok d) s v | None => False end
      end
  end.

(** lib.rs:195-202 [to_vec], 166-172 [from_reader], 176-181 [from_slice], 50-58 [skip_revisioned], [skip_reader], for a type
    built from these. *)
Definition u_to_vec (d : nat) (t : ty) (v : val) : res bytes := ser_bytes (ser_ty E (user_ser d) t v).
Definition u_read (d : nat) (t : ty) : prog val := de_ty E (user_de d) t.
Definition u_from_slice (d : nat) (t : ty) (b : bytes) : res val := rmap fst (run (u_read d t) b).
Definition u_skip (d : nat) (t : ty) : prog unit := sk_ty E (user_skip d) (user_de d) t.
Definition u_ok (d : nat) (t : ty) (v : val) : Prop := wt_ty E (user_ok d) t v.

(** As [sizes_honest] (Mig.v): a variant declared to have a fixed size has it. *)
Definition u_sizes_honest : Prop :=
  e_dbg E = true \/
  forall n s vs vr k d l bs,
    e_sch E n = Some s -> s_body s = SEnum vs -> In vr vs -> v_size vr = Some (SFixed k) ->
    wt_fields E (user_ok d) (scur s) (v_fields vr) l ->
    rmapM ser_bytes (ser_vfields E (user_ser d) (scur s) (v_fields vr) l) = Ok bs -> len (concat bs) = k.
End Custom.

(** Reading with a later program: as [mig_ref] (Mig.v); [M n] says what the later hand-written reader makes of a value. *)
Section Later.
Variables (E E' : env) (U : N -> option codec) (M : N -> (N -> val -> res val) -> val -> res val).
Fixpoint user_mig (depth : nat) (n : N) (v : val) : res val :=
  match depth with
  | O => Panic PStack
  | S d =>
      match U n with
      | Some _ => M n (user_mig d) v
      | None =>
          match e_sch E n, e_sch E' n with
          | Some s, Some s' =>
              match sent s (scur s) with
              | Some h => mig_derived E E' (user_mig d) (ser_ty E (user_ser E U d)) s' (scur s) (h_opt h) v
              | None => ty_err
              end
          | _, _ => ty_err
          end
      end
  end.
Definition u_migrate (d : nat) (t : ty) (v : val) : res val := mig_ty E E' (user_mig d) t v.
End Later.

(** implementations/roaring.rs:7-48 [RoaringTreemap], [RoaringBitmap]: [serialize_into] and [deserialize_from] of the
    roaring crate, with every error of [deserialize_from] turned into [Error::Deserialize]; implementations/skip.rs:886-890
    (skip_mirror_both): skipping reads the value and drops it.  The crate's format is a parameter: the calls it writes and
    the program that reads them. *)
Definition foreign (enc : val -> list wop) (dec : prog val) (ok : val -> Prop) : codec :=
  let de := map_err (fun _ => EDeserialize MInner) dec in
  mkCodec (fun _ v => Ok (enc v)) (fun _ => de) (fun _ _ => de ;;; Ret tt) (fun _ v => ok v).
(** The example implementation in the documentation of [Revisioned], lib.rs:101-137: [MyType<T>(T)] writes and reads its
    only field and nothing else. *)
Definition my_type (n : N) : codec := mkCodec (fun s v => s n v) (fun d => d n) (fun k _ => k n) (fun ok v => ok n v).
(** A type written as one field after another, with no revision: the usual hand-written implementation for a tuple of
    types [n] and [m]. *)
Definition two_fields (n m : N) : codec :=
  mkCodec (fun s v => match v with VPair a b => s n a +++ s m b | _ => ty_err end)
          (fun d => a <- d n ;; b <- d m ;; Ret (VPair a b))
          (fun k _ => k n ;;; k m)
          (fun ok v => match v with VPair a b => ok n a /\ ok m b | _ => False end).
