(** C83 on machines with a memory limit: types with implementations written by hand, among derived types. *)

From Verif Require Import Base BaseL Prog ProgL Prim Ty Ser De Skip Typed Mig Evol EvolL Agree Cross WalkRef Ex Custom CustomSpec PropMig PropCustom PropLimit.
From Coq Require Import List NArith ZArith Bool Lia.
Import ListNotations.
Open Scope N_scope.

(** ** Specification *)

(** The same outcome, or an allocation was refused. *)
Definition or_refused {A} (r r' : res A) : Prop := r = r' \/ r = Panic PMem.
(** A reader written by hand, on a machine with little memory ([c]) and on one with enough ([c']): it reads the same or is
    refused memory, if the readers of the types inside it do. *)
Definition reads_or_refused (c c' : codec) : Prop := forall de_in de_in',
  (forall n bs, or_refused (run (de_in n) bs) (run (de_in' n) bs)) ->
  forall bs, or_refused (run (c_de c de_in) bs) (run (c_de c' de_in') bs).
Definition all_read_or_refused (U U' : N -> option codec) : Prop :=
  forall n, match U n, U' n with Some c, Some c' => reads_or_refused c c' | None, None => True | _, _ => False end.

(** ** Proofs *)
Lemma refused : forall A (p q : prog A), (forall bs, or_refused (run p bs) (run q bs)) <-> agree (eq PMem) p q.
Proof.
  intros A p q. split; intros H bs; destruct (H bs) as [K|K]; [left; exact K|right; eauto|left; exact K|].
  destruct K as (x & <- & K). right. exact K.
Qed.
Lemma user_refused : forall E U U' d n, all_read_or_refused U U' -> agree (eq PMem) (user_de E U d n) (user_de (set_mem None E) U' d n).
Proof.
  intros E U U' d n H. revert n. induction d as [|d IH]; intros n; cbn [user_de]; [apply agree_refl|]. specialize (H n).
  destruct (U n) as [c|], (U' n) as [c'|]; try contradiction.
  - apply refused, H. intros m. apply refused, IH.
  - change (e_sch (set_mem None E) n) with (e_sch E n). destruct (e_sch E n) as [s|]; [|apply agree_refl].
    apply (agree_derived _ E None (e_dbg E)); [apply alloc_agree|intros; apply agree_refl|exact IH].
Qed.
Lemma read_refused : forall E U U' d t bs, all_read_or_refused U U' -> or_refused (run (u_read E U d t) bs) (run (u_read (set_mem None E) U' d t) bs).
Proof.
  intros E U U' d t bs H. revert bs. apply refused. unfold u_read. apply (agree_ty _ E None (e_dbg E)); [apply alloc_agree|]. intros n. apply user_refused, H.
Qed.
Lemma user_ser_mem : forall E U d, user_ser (set_mem None E) U d = user_ser E U d.
Proof. intros E U. induction d as [|d IH]; [reflexivity|]. cbn [user_ser]. rewrite IH. reflexivity. Qed.
Lemma user_ok_mem : forall E U d, user_ok (set_mem None E) U d = user_ok E U d.
Proof. intros E U. induction d as [|d IH]; [reflexivity|]. cbn [user_ok]. rewrite IH. reflexivity. Qed.
Lemma u_honest_mem : forall E U, u_sizes_honest E U -> u_sizes_honest (set_mem None E) U.
Proof.
  intros E U [H|H]; [left; exact H|right]. intros n s vs vr k d l bs H1 H2 H3 H4 H5 H6. rewrite user_ok_mem in H5. rewrite user_ser_mem in H6.
  exact (H n s vs vr k d l bs H1 H2 H3 H4 H5 H6).
Qed.
Lemma u_to_vec_mem : forall E U d t v, u_to_vec (set_mem None E) U d t v = u_to_vec E U d t v.
Proof. intros E U d t v. unfold u_to_vec. rewrite user_ser_mem. reflexivity. Qed.
Lemma u_ok_mem : forall E U d t v, u_ok (set_mem None E) U d t v = u_ok E U d t v.
Proof. intros E U d t v. unfold u_ok. rewrite user_ok_mem. reflexivity. Qed.
Lemma user_mig_mem : forall E E' U M d, user_mig E (set_mem None E') U M d = user_mig E E' U M d.
Proof. intros E E' U M. induction d as [|d IH]; [reflexivity|]. cbn [user_mig]. rewrite IH. reflexivity. Qed.

(** ** C83 *)
Theorem C83_round_trip_limited : forall E U U' d t v b rest,
  wf_env E -> u_sizes_honest E U' -> (forall n c, U' n = Some c -> reads_back c) -> all_read_or_refused U U' ->
  u_ok E U' d t v -> u_to_vec E U' d t v = Ok b -> or_refused (run (u_read E U d t) (b ++ rest)) (Ok (v, rest)).
Proof.
  intros E U U' d t v b rest W Hh HU HR Hw Hs. pose proof (read_refused E U U' d t (b ++ rest) HR) as K.
  rewrite (C83_round_trip (set_mem None E) U' d t v b rest (wf_set_mem None E W) eq_refl (u_honest_mem E U' Hh) HU) in K; [exact K|rewrite u_ok_mem; exact Hw|rewrite u_to_vec_mem; exact Hs].
Qed.
Theorem C83_no_prefix_limited : forall E U U' d t v b q s y,
  wf_env E -> u_sizes_honest E U' -> (forall n c, U' n = Some c -> reads_back c) -> all_read_or_refused U U' ->
  u_ok E U' d t v -> u_to_vec E U' d t v = Ok b -> b = q ++ s -> s <> [] -> u_from_slice E U d t q <> Ok y.
Proof.
  intros E U U' d t v b q s y W Hh HU HR Hw Hs Hb Hne H.
  apply (C83_no_prefix (set_mem None E) U' d t v b q s y (wf_set_mem None E W) eq_refl (u_honest_mem E U' Hh) HU); [rewrite u_ok_mem; exact Hw|rewrite u_to_vec_mem; exact Hs|exact Hb|exact Hne|].
  unfold u_from_slice in *. destruct (read_refused E U U' d t q HR) as [K|K]; rewrite K in H; [exact H|discriminate].
Qed.
(** No limit plays a part in what the bytes mean. *)
Theorem C83_injective_limited : forall E U d t v w b,
  wf_env E -> u_sizes_honest E U -> (forall n c, U n = Some c -> reads_back c) ->
  u_ok E U d t v -> u_ok E U d t w -> u_to_vec E U d t v = Ok b -> u_to_vec E U d t w = Ok b -> v = w.
Proof.
  intros E U d t v w b W Hh HU Hv Hw Sv Sw.
  apply (C83_injective (set_mem None E) U d t v w b (wf_set_mem None E W) eq_refl (u_honest_mem E U Hh) HU); rewrite ?u_ok_mem, ?u_to_vec_mem; assumption.
Qed.
Theorem C83_later_limited : forall E E' U U' V M d t v b rest,
  wf_env E -> wf_env E' -> later E E' -> opt_safe E E' -> u_sizes_honest E U ->
  (forall n, match U n, U' n with Some c, Some c' => reads_as c c' (M n) | None, None => True | _, _ => False end) -> all_read_or_refused V U' ->
  u_ok E U d t v -> u_to_vec E U d t v = Ok b ->
  or_refused (run (u_read E' V d t) (b ++ rest)) (rmap (fun w => (w, rest)) (u_migrate E E' U M d t v)).
Proof.
  intros E E' U U' V M d t v b rest W W' L O Hh HU HR Hw Hs. pose proof (read_refused E' V U' d t (b ++ rest) HR) as K.
  rewrite (C83_later E (set_mem None E') U U' M d t v b rest W (wf_set_mem None E' W') (later_mem E E' None L) O eq_refl Hh HU Hw Hs) in K.
  unfold u_migrate in *. rewrite user_mig_mem in K. exact K.
Qed.
(** The bitmaps, the documented implementation and the usual one for several fields. *)
Theorem C83_refused : forall n m enc enc' dec dec' (ok ok' : val -> Prop),
  reads_or_refused (my_type n) (my_type n) /\ reads_or_refused (two_fields n m) (two_fields n m)
  /\ ((forall bs, or_refused (run dec bs) (run dec' bs)) -> reads_or_refused (foreign enc dec ok) (foreign enc' dec' ok')).
Proof.
  intros n m enc enc' dec dec' ok ok'. split; [intros di di' H; exact (H n)|]. split.
  - intros di di' H. apply refused. cbn [two_fields c_de]. apply agree_bind; [apply refused, H|]. intros a. apply agree_bind; [apply refused, H|]. intros c. apply agree_refl.
  - intros H di di' _. apply refused. cbn [foreign c_de]. apply agree_map_err, refused, H.
Qed.

(** ** Example: [mixed] (PropCustom.v) with bitmaps that may take no more than one entry. *)
Definition small_dec : prog val := bind bits_dec (fun v => match v with VSeq (_ :: _ :: _) => Crash PMem | _ => Ret v end).
Definition mixed_small (n : N) : option codec := if n =? 2 then Some (foreign bits_enc small_dec bits_ok) else mixed n.
Lemma small_refused : all_read_or_refused mixed_small mixed.
Proof.
  intros n. unfold mixed_small, mixed. destruct (n =? 2).
  - apply (C83_refused 1 2). intros bs. unfold small_dec. rewrite run_bind. destruct (run bits_dec bs) as [[w r]|e|x]; [|left; reflexivity..].
    destruct w as [| | | | |[|? [|]]|]; (left; reflexivity) || (right; reflexivity).
  - destruct (n =? 3); [apply (C83_refused 1 2 bits_enc bits_enc bits_dec bits_dec bits_ok bits_ok)|].
    destruct (n =? 4); [apply (C83_refused 3 2 bits_enc bits_enc bits_dec bits_dec bits_ok bits_ok)|exact I].
Qed.
Example C83_limited_case :
  all_read_or_refused mixed_small mixed
  /\ run (u_read (only row1) mixed_small 4 (TVec (TRef 4))) a_bytes = Panic PMem
  /\ run (u_read (set_mem (Some 1000) (only row1)) mixed 4 (TVec (TRef 4))) a_bytes = Ok (a_list, [])
  /\ run (u_read (set_mem (Some 0) (only row1)) mixed 4 (TVec (TRef 4))) a_bytes = Panic PMem.
Proof. split; [exact small_refused|]. repeat split; vm_compute; reflexivity. Qed.

Print Assumptions C83_round_trip_limited.
Print Assumptions C83_no_prefix_limited.
Print Assumptions C83_injective_limited.
Print Assumptions C83_later_limited.
Print Assumptions C83_refused.
