(** C51: the same bytes on every target. *)

From Verif Require Import Base BaseL Prog ProgL Prim PrimL Utf8 Tag Ty Ser De Typed Mig RtL RtId Agree Parts OrderFree SerL Spec EofL Cross Target PortL Endian
  PropWire PropTotal PropIdx PropMig Evol Ex.
From Coq Require Import List NArith ZArith Bool Lia Permutation.
Import ListNotations.
Open Scope N_scope.

(** C51.  [wt E d t v], [wt E' d t v]: the value exists on both targets (lengths fit the pointer width, ...). *)
Theorem C51_same_outcome : forall E E' d t v, wf_env E -> wf_env E' -> same_build E E' -> same_iteration E E' ->
  wt E d t v -> wt E' d t v -> e_dbg E = e_dbg E' -> to_vec E d t v = to_vec E' d t v.
Proof.
  intros E E' d t v W W' SB SI Hw Hw' Hd.
  destruct (near_vec False E E' d t v SB SI (or_introl Hd)) as [H|[[[] _]|[H|H]]]; [exact H| |].
  - destruct (C45_errors_listed E d t v _ W Hw H) as [?|[?|?]]; discriminate.
  - destruct (C45_errors_listed E' d t v _ W' Hw' H) as [?|[?|?]]; discriminate.
Qed.
(** Between debug and release builds the only difference is the assertion on [fixed(N)] sizes. *)
Theorem C51_same_bytes : forall E E' d t v b, wf_env E -> wf_env E' -> same_build E E' -> same_iteration E E' ->
  wt E d t v -> wt E' d t v -> to_vec E d t v = Ok b ->
  to_vec E' d t v = Ok b \/ (to_vec E' d t v = Panic PAssert /\ e_dbg E = false /\ e_dbg E' = true).
Proof.
  intros E E' d t v b W W' SB SI Hw Hw' Hs.
  destruct (Bool.bool_dec (e_dbg E) (e_dbg E')) as [Hd|Hd].
  { left. rewrite <- (C51_same_outcome E E' d t v) by assumption. exact Hs. }
  destruct (near_vec True E E' d t v SB SI (or_intror I)) as [H|[[_ [H|H]]|[H|H]]]; try (rewrite Hs in H; discriminate H).
  - left. rewrite <- H. exact Hs.
  - right. destruct (C45_panics_listed E' d t v _ W' Hw' H) as (_ & He & _). split; [exact H|]. split; [|exact He].
    destruct (e_dbg E); congruence.
  - destruct (C45_errors_listed E' d t v _ W' Hw' H) as [?|[?|?]]; discriminate.
Qed.

(** Whatever the iteration orders, for values without plainly encoded hash tables and heaps. *)
Theorem C51_reproducible : forall E E' d t v b, wf_env E -> wf_env E' -> same_build E E' -> sizes_honest E ->
  order_free E -> ordered t = true ->
  wt E d t v -> wt E' d t v -> to_vec E d t v = Ok b ->
  to_vec E' d t v = Ok b \/ (to_vec E' d t v = Panic PAssert /\ e_dbg E = false /\ e_dbg E' = true).
Proof.
  intros E E' d t v b W W' SB Hh Ho Ht Hw Hw' Hs.
  assert (P : permutes (e_iter E')) by (intros u l; apply (we_iter E' W')).
  pose proof (C27_value_order E (e_iter E') d t v b W Hh Ho P Ht Hw Hs) as H1.
  refine (C51_same_bytes (set_iter (e_iter E') E) E' d t v b _ W' SB (fun _ _ => eq_refl) Hw Hw' H1).
  pose proof W as [W1 W2 W3 W4 W5 W6 W7]. constructor; try assumption.
Qed.

(** ** Reading on another target *)

Lemma wf_lim : forall m g it E, wf_env E -> permutes it -> wf_env (set_lim m g (set_iter it E)).
Proof. intros m g it E [H1 H2 H3 H4 H5 H6 H7] P. constructor; assumption. Qed.
Lemma set_iter_same : forall E, set_iter (e_iter E) E = E.
Proof. intros []; reflexivity. Qed.

Lemma checked : forall E d t v b, wf_env E -> sizes_honest E -> wt E d t v -> to_vec E d t v = Ok b ->
  to_vec (set_lim (e_mem E) true E) d t v = Ok b.
Proof.
  intros E d t v b W Hh Hw Hs. set (E2 := set_lim (e_mem E) true E).
  assert (W2 : wf_env E2) by (pose proof W as [W1 W2 W3 W4 W5 W6 W7]; constructor; assumption).
  destruct Hh as [Hd|Hh].
  - replace E2 with E; [exact Hs|]. unfold E2. rewrite <- Hd. symmetry. apply set_lim_same.
  - assert (SB : forall X Y, X = E \/ X = E2 -> Y = E \/ Y = E2 -> same_build X Y) by (intros X Y [->| ->] [->| ->]; repeat split).
    destruct (C51_same_bytes E E2 d t v b W W2 (SB E E2 (or_introl eq_refl) (or_intror eq_refl)) (fun _ _ => eq_refl) Hw Hw Hs) as [H|[H _]]; [exact H|].
    destruct (C45_panics_listed E2 d t v _ W2 Hw H) as (_ & _ & F). elim F. clear F H.
    intros n s vs vr k d0 l bs Hn Hv Hi Hk Hwf He. apply (Hh n s vs vr k d0 l bs Hn Hv Hi Hk Hwf). clear Hh Hn Hv Hi Hk. unfold wt_fields in Hwf.
    revert Hwf. induction He; intros Hwf; inversion Hwf; subst; constructor; auto.
    destruct (C51_same_bytes E2 E d0 (f_ty f) v0 b0 W2 W (SB E2 E (or_intror eq_refl) (or_introl eq_refl)) (fun _ _ => eq_refl)) as [G|[_ [G _]]]; auto. discriminate.
Qed.

(** What one build writes, every other build of the program reads back, if the value exists there. *)
Theorem C51_read_elsewhere : forall E E' d d' t v b rest, wf_env E -> wf_env E' -> same_build E E' -> sizes_honest E ->
  wt E d t v -> wt E' d t v -> (d <= d')%nat -> to_vec E d t v = Ok b ->
  or_oom E' (run (deserialize E' d' t) (b ++ rest)) (Ok (v, rest)).
Proof.
  intros E E' d d' t v b rest W W' SB Hh Hw Hw' Hd Hs.
  pose proof (checked E d t v b W Hh Hw Hs) as H2.
  assert (P : permutes (e_iter E)) by (intros u l; apply (we_iter E W)).
  set (E2 := set_lim (e_mem E) true E) in *. set (E3 := set_lim (e_mem E') true (set_iter (e_iter E) E')).
  assert (W2 : wf_env E2) by (unfold E2; rewrite <- (set_iter_same E) at 2; apply wf_lim; assumption).
  assert (W3 : wf_env E3) by (apply wf_lim; assumption).
  assert (H3 : to_vec E3 d t v = Ok b) by (rewrite <- H2; symmetry; apply C51_same_outcome; auto; intros u l; reflexivity).
  pose proof (C02_self_delimiting E3 d d' t v b rest W3 (or_introl eq_refl) Hw' Hd H3) as H.
  change (deserialize E3 d' t) with (deserialize (set_lim (e_mem E') true E') d' t) in H.
  unfold or_oom in *. change (e_mem E3) with (e_mem E') in H.
  destruct (e_dbg E') eqn:Ed.
  - rewrite <- Ed, set_lim_same in H. exact H.
  - destruct (dbg_agree E' d' t (b ++ rest)) as [G|(x & <- & G)].
    + rewrite G in H. rewrite <- Ed, set_lim_same in H. exact H.
    + destruct H as [H|[_ H]]; rewrite G in H; discriminate.
Qed.

(** Upgrading and changing target at once: the old program, built with assertions for the new target, is [E1]. *)
Theorem C51_upgrade_elsewhere : forall E E1 E' d d' t v b rest, wf_env E -> wf_env E1 -> wf_env E' -> sizes_honest E ->
  same_build E E1 -> same_iteration E E1 -> e_dbg E1 = true -> later E1 E' -> opt_safe E1 E' -> user_panics E' (fun x => x <> PStack) ->
  wt E d t v -> wt E1 d t v -> (d <= d')%nat -> to_vec E d t v = Ok b ->
  or_oom E' (run (deserialize E' d' t) (b ++ rest)) (rmap (fun v' => (v', rest)) (migrate E1 E' d t v)).
Proof.
  intros E E1 E' d d' t v b rest W W1 W' Hh SB SI Hd1 L O U Hw Hw1 Hd Hs.
  apply C17_later_programs_read; auto; [left; exact Hd1|].
  pose proof (checked E d t v b W Hh Hw Hs) as H2. rewrite <- H2. symmetry. apply C51_same_outcome; auto.
  pose proof W as [? ? ? ? ? ? ?]; constructor; assumption.
Qed.

(** ** Byte order *)

Lemma run_rep_chunks : forall (g : bytes -> val) w k bs,
  run (rep k (x <- read_n w ;; Ret (g x))) bs =
  match split_at (N.of_nat k * w) bs with Some (x, y) => Ok (map g (chunks k w x), y) | None => Err EIo end.
Proof.
  intros g w. induction k as [|k IH]; intros bs.
  - cbn [rep run chunks map]. change (N.of_nat 0 * w) with 0. rewrite split_at_0. reflexivity.
  - rewrite run_rep_S. unfold read_n. cbn [bind run]. replace (N.of_nat (S k) * w) with (w + N.of_nat k * w) by lia.
    destruct (split_at w bs) as [[x y]|] eqn:Ex.
    + apply split_at_some in Ex. destruct Ex as [-> Hx]. fold (read_n w). rewrite IH.
      destruct (split_at (N.of_nat k * w) y) as [[x' y']|] eqn:Ey.
      * apply split_at_some in Ey. destruct Ey as [-> Hy]. rewrite app_assoc, split_at_app_n by (rewrite len_app; lia).
        cbn [chunks]. rewrite split_at_app_n by auto. reflexivity.
      * apply split_at_none in Ey. assert (H : split_at (w + N.of_nat k * w) (x ++ y) = None) by (apply split_at_none; rewrite len_app; lia).
        rewrite H. reflexivity.
    + apply split_at_none in Ex. assert (H : split_at (w + N.of_nat k * w) bs = None) by (apply split_at_none; lia). rewrite H. reflexivity.
Qed.

(** Vectors of numbers are written element by element on big-endian targets: same bytes, same values.  When the
    number of bytes overflows a [usize] the little-endian code has a check of its own. *)
Theorem C51_big_endian_bytes : forall E s w l, rmap out (ser_bulk_be E w l) = rmap out (ser_bulk E (BFix s w) l).
Proof.
  intros E s w l. unfold ser_bulk_be, ser_bulk. cbn zeta. destruct (len l =? 0); [reflexivity|].
  destruct (rmapM as_int l) as [zs|e|x]; cbn [rbind sbind sall rmap]; [|reflexivity|reflexivity]. f_equal. unfold out. rewrite !flat_map_app. f_equal.
  cbn [flat_map wop_bytes]. rewrite app_nil_r. induction zs as [|z zs IH]; cbn [map flat_map wop_bytes]; [reflexivity|]. rewrite IH. reflexivity.
Qed.
Theorem C51_big_endian_read : forall E s w bs,
  run (de_bulk_be E s w) bs = run (de_bulk E (BFix s w)) bs \/ run (de_bulk E (BFix s w)) bs = Err EOverflow.
Proof.
  intros E s w bs. unfold de_bulk_be, de_bulk. rewrite !run_bind. destruct (run (de_len E) bs) as [[n r]|e|x]; auto.
  destruct (n =? 0); auto. destruct (n * N.of_nat w <? 2 ^ e_ub E); [|right; reflexivity]. left.
  rewrite !run_bind. destruct (run (alloc E (n * N.of_nat w)) r) as [[u r']|e|x]; auto.
  pose proof (run_rep_chunks (fun c => VInt (fixed_val s w c)) (N.of_nat w) (N.to_nat n) r') as H. rewrite N2Nat.id in H. rewrite H, run_bind.
  unfold read_n. cbn [run]. destruct (split_at (n * N.of_nat w) r') as [[x y]|]; reflexivity.
Qed.

(** ** The hypotheses are met: a 64-bit debug build and a 32-bit release build with a memory limit, another iteration
    order and other sizes of types *)
Definition wasm (sch : N -> option schema) : env := mkEnv false true false 32 (Some 4000) (fun _ => 4) (fun _ => vcmp) (fun _ l => l) (fun b => b)
  (e_ext new) (2 ^ 62)%Z sch.
Example wf_wasm : wf_env (wasm sch3).
Proof.
  pose proof wf_new as [H1 H2 H3 H4 H5 H6 H7]. constructor; try assumption.
  - left. reflexivity.
  - intros t l. apply Permutation_refl.
Qed.
Example C51_case : same_build new (wasm sch3) /\ wt (wasm sch3) 2 (TRef 1) u_new /\ ordered (TRef 1) = true /\ ~ same_iteration new (wasm sch3).
Proof.
  split; [repeat split|]. split; [apply wtb_ok; vm_compute; reflexivity|]. split; [reflexivity|].
  intros H. specialize (H TUnit [VUnit; VInt 0]). discriminate.
Qed.
Example C51_instance : to_vec (wasm sch3) 2 (TRef 1) u_new = Ok u_new_bytes
  /\ forall rest, or_oom (wasm sch3) (run (deserialize (wasm sch3) 2 (TRef 1)) (u_new_bytes ++ rest)) (Ok (u_new, rest)).
Proof.
  destruct C51_case as (S1 & S2 & S3 & _). assert (Hb : to_vec new 2 (TRef 1) u_new = Ok u_new_bytes) by (vm_compute; reflexivity). split.
  - destruct (C51_reproducible new (wasm sch3) 2 (TRef 1) u_new u_new_bytes wf_new wf_wasm S1 honest_new order_free_new S3 wt_new S2 Hb) as [H|[_ [H _]]]; [exact H|discriminate].
  - intros rest. apply (C51_read_elsewhere new (wasm sch3) 2 2 (TRef 1) u_new u_new_bytes rest wf_new wf_wasm S1 honest_new wt_new S2 (le_n 2) Hb).
Qed.
(** The restriction to values that exist on both targets is needed: see C46_usize_refuted. *)

Print Assumptions C51_same_outcome.
Print Assumptions C51_same_bytes.
Print Assumptions C51_reproducible.
Print Assumptions C51_read_elsewhere.
Print Assumptions C51_upgrade_elsewhere.
Print Assumptions C51_big_endian_bytes.
Print Assumptions C51_big_endian_read.
