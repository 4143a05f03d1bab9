(** C72: work is paid for by the input. *)

From Verif Require Import Base BaseL Prog ProgL Prim Tag Ty Ser De SliceReader Skip Ex PropWire Effort EffortL.
From Coq Require Import List NArith ZArith Bool Lia.
Import ListNotations.
Open Scope N_scope.

(** C72.  [calls p bs]: how often [p] asks its reader for data when the reader holds [bs].  Not more than
    twice per byte consumed when decoding succeeds (a [char] asks for its first byte and then for the
    others, of which there may be none), and once more when it fails. *)
Theorem C72_deserialize : forall E d t bs,
  match run (deserialize E d t) bs with
  | Ok (_, rest) => calls (deserialize E d t) bs <= 2 * (len bs - len rest)
  | Err _ | Panic _ => calls (deserialize E d t) bs <= 2 * len bs + 1
  end.
Proof. intros E d t bs. pose proof (eff_deserialize E d t bs) as H. destruct (run _ bs) as [[v rest]|e|p]; lia. Qed.
Theorem C72_skip : forall E d t bs,
  match run (skip E d t) bs with
  | Ok (_, rest) => calls (skip E d t) bs <= 2 * (len bs - len rest)
  | Err _ | Panic _ => calls (skip E d t) bs <= 2 * len bs + 1
  end.
Proof. intros E d t bs. pose proof (eff_skip E d t bs) as H. destruct (run _ bs) as [[v rest]|e|p]; lia. Qed.
Theorem C72_skip_check : forall E d t bs,
  match run (skip_check E d t) bs with
  | Ok (_, rest) => calls (skip_check E d t) bs <= 2 * (len bs - len rest)
  | Err _ | Panic _ => calls (skip_check E d t) bs <= 2 * len bs + 1
  end.
Proof. intros E d t bs. pose proof (eff_skip_check E d t bs) as H. destruct (run _ bs) as [[v rest]|e|p]; lia. Qed.

(** Passing over [n] bytes takes one call per 4096 bytes, the last piece included. *)
Theorem C72_pass_over : forall n bs, n <= len bs -> calls (advance_read n) bs = (n + 4095) / 4096.
Proof.
  intros n bs Hn. unfold advance_read. remember ((n + 4095) / 4096) as k eqn:Hk.
  assert (Hlo : n <= 4096 * k /\ 4096 * k < n + 4096).
  { subst k. pose proof (N.div_mod (n + 4095) 4096 ltac:(discriminate)). pose proof (N.mod_lt (n + 4095) 4096 ltac:(discriminate)). lia. }
  clear Hk. rewrite <- (N2Nat.id k) in Hlo |- * . rewrite N2Nat.id at 1. rewrite N2Nat.id in Hlo. rewrite <- (N2Nat.id k) in Hlo.
  revert n bs Hn Hlo. induction (N.to_nat k) as [|f IH]; intros n bs Hn Hlo; cbn [adv_loop]; [reflexivity|].
  destruct (N.eqb_spec n 0) as [->|Hz]; [lia|]. cbv zeta. rewrite calls_bind. cbn [calls read_n run].
  destruct (split_at (N.min n 4096) bs) as [[x y]|] eqn:Es.
  - apply split_at_some in Es. destruct Es as [-> Hx]. rewrite len_app in Hn. cbn [calls]. rewrite IH; lia.
  - exfalso. apply split_at_none in Es. lia.
Qed.

(** The bounds are reached: an ASCII [char] takes two calls, a missing second one the extra call. *)
Example C72_tight : calls (deserialize new 0 TChar) [65] = 2 * 1 /\ run (deserialize new 0 TChar) [65] = Ok (VInt 65, [])
  /\ calls (deserialize new 0 (TArray 2 TChar)) [65] = 2 * 1 + 1 /\ run (deserialize new 0 (TArray 2 TChar)) [65] = Err EIo.
Proof. vm_compute. repeat split. Qed.
(** A value of the example program, and a length that promises more than there is. *)
Example C72_user : run (deserialize new 2 (TRef 1)) u_new_bytes = Ok (u_new, []) /\ calls (deserialize new 2 (TRef 1)) u_new_bytes = 3
  /\ calls (skip new 2 (TRef 1)) u_new_bytes = 3.
Proof. vm_compute. repeat split. Qed.
Example C72_lying : calls (skip new 0 (TVec TStr)) [250; 1; 97] = 4 /\ run (skip new 0 (TVec TStr)) [250; 1; 97] = Err EIo.
Proof. vm_compute. repeat split. Qed.
Example C72_pass : calls (advance_read 5000) (repeat 0 6000) = 2.
Proof. vm_compute. reflexivity. Qed.

Print Assumptions C72_deserialize.
Print Assumptions C72_skip.
Print Assumptions C72_skip_check.
Print Assumptions C72_pass_over.
