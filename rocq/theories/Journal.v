(** An append-only file of values used by the releases of one program, with crashes.  Specification part.

    This is not code of /repo but the smallest application of it that has a past: each process opens the file, reads all
    values in it one after the other with [deserialize_revisioned], and appends values with [serialize_revisioned]. *)

From Verif Require Import Base Prog Ty Ser De Typed Mig Evol Parts Spec Stream Partial MigL PropMig.
From Coq Require Import List NArith Bool.
Import ListNotations.
Open Scope N_scope.

(** A failure, in the release [E], of the functions that migrate data of [W]: of some value, or of a field that it lacks. *)
Definition part_fails (W E : env) (r : res val) : Prop :=
  (exists k u v, wt W k u v /\ migrate W E k u v = r)
  \/ (exists m s s' f, e_sch W m = Some s /\ e_sch E m = Some s' /\ f_default f (scur s) = r
       /\ match s_body s' with SStruct fs => In f fs | SEnum vs => exists vr, In vr vs /\ In f (v_fields vr) end).

Section Journal.
(** The values are of one derived type, its functions nested at most [d] deep. *)
Variables (d : nat) (n : N).
Local Notation t := (TRef n).

(** Values from the start of [bs] until the end of the file or the first failure. *)
Inductive stop := Clean | Failed (r : res unit).
Fixpoint scan (E : env) (fuel : nat) (bs : bytes) : list val * bytes * stop :=
  match fuel, bs with
  | _, [] | O, _ => ([], bs, Clean)
  | S k, _ =>
      match run (deserialize E d t) bs with
      | Ok (v, rest) => let '(vs, tail, s) := scan E k rest in (v :: vs, tail, s)
      | Err e => ([], bs, Failed (Err e))
      | Panic x => ([], bs, Failed (Panic x))
      end
  end.
(** Opening: the end of input in the middle of a value means that an earlier process was interrupted, what it left of the
    value is dropped; any other failure is reported and the file stays as it is.  Result: the values and the file. *)
Definition open (E : env) (file : bytes) : res (list val * bytes) :=
  let '(vs, tail, s) := scan E (length file) file in
  match s with
  | Clean => Ok (vs, file)
  | Failed (Err EIo) => Ok (vs, firstn (length file - length tail) file)
  | Failed (Err e) => Err e
  | Failed (Panic x) => Panic x
  | Failed (Ok _) => Ok (vs, file)
  end.

(** [E] can follow a process of the program [W]: a later release, or an earlier one (rolling back). *)
Definition forward (W E : env) : Prop := later W E /\ opt_safe W E.
Definition backward (W E : env) : Prop := later E W /\ same_libraries W E.
Definition good (E : env) : Prop :=
  wf_env E /\ sizes_honest E /\ user_panics E (fun x => x <> PStack) /\ user_no_eof E /\ reports E t /\ closed E t.
Definition release (progs : list env) (E : env) : Prop := good E /\ forall W, In W progs -> forward W E \/ backward W E.

(** All that can have happened.  [file]: the file; [p]: the program that is running; [progs]: those that have run;
    [recs]: the values whose append was reported as done, each with the program that wrote it; [torn]: the value that was
    being appended when the last process died. *)
Inductive life : bytes -> option env -> list env -> list (env * val) -> option (env * val) -> Prop :=
| life_new : life [] None [] [] None
| life_start : forall file progs recs torn E vs kept, life file None progs recs torn -> release progs E ->
    open E file = Ok (vs, kept) -> life kept (Some E) (E :: progs) recs None
| life_append : forall file E progs recs v b, life file (Some E) progs recs None -> wt E d t v ->
    to_vec E d t v = Ok b -> life (file ++ b) (Some E) progs (recs ++ [(E, v)]) None
(* any part of the bytes may have reached the file *)
| life_crash : forall file E progs recs v b q, life file (Some E) progs recs None -> wt E d t v ->
    to_vec E d t v = Ok (b ++ q) -> q <> [] -> life (file ++ b) None progs recs (Some (E, v))
(* an append that fails, for example for a path that is not UTF-8, leaves what was written before; the process goes on only
   after taking this away again, so that nothing has changed, and may die before *)
| life_failed : forall file E progs recs v ops x b q, life file (Some E) progs recs None -> wt E d t v ->
    writes E d t v = (ops, x) -> x <> Ok tt -> out ops = b ++ q -> life (file ++ b) None progs recs (Some (E, v))
| life_stop : forall file E progs recs, life file (Some E) progs recs None -> life file None progs recs None
(* all values read and written anew, into a file that replaces the old one *)
| life_rewrite : forall file E progs recs vs bs, life file (Some E) progs recs None ->
    open E file = Ok (vs, file) -> Forall (wt E d t) vs -> rmapM (to_vec E d t) vs = Ok bs ->
    life (concat bs) (Some E) progs (map (fun v => (E, v)) vs) None.

(** What a process of [E] is to see of a value that a process of [W] wrote. *)
Definition seen (E : env) (r : env * val) (x : res val) : Prop :=
  let (W, v) := r in
  (forward W E /\ x = migrate W E d t v)
  \/ (backward W E /\ (every W (same_revision E W) d t v /\ x = Ok v
      \/ ~ every W (same_revision E W) d t v /\ (x = Err (EDeserialize MInvalidRevision) \/ x = Err (EDeserialize MInner)))).
(** What it may make of the beginnings of such a value, other than that they end too early. *)
Definition half_seen (E : env) (r : env * val) (x : res val) : Prop :=
  let (W, v) := r in
  seen E r x
  \/ (exists ops y, writes W d t v = (ops, y) /\ y <> Ok tt)
     /\ (forward W E /\ part_fails W E x
         \/ backward W E /\ (x = Err (EDeserialize MInvalidRevision) \/ x = Err (EDeserialize MInner))).
End Journal.
