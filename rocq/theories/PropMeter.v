(** C73: all the memory requested during one decoding. *)

From Verif Require Import Base BaseL Prog ProgL Prim PrimL Utf8 Tag Ty Ser De Typed RtL Agree Users Size Ex PropWire PropMem Meter MeterL.
From Coq Require Import List NArith ZArith Bool Lia.
Import ListNotations.
Open Scope N_scope.

(** [metered E d t] is [deserialize E d t] together with the sum of the sizes of all its requests. *)
Theorem C73_meter : forall E d t bs,
  rmap (fun x => (fst (fst x), snd x)) (run (metered E d t) bs) = run (deserialize E d t) bs.
Proof. intros E d t bs. apply same_metered. Qed.

(** C73.  The sum leaves no request out: a machine on which no single allocation above the sum succeeds is enough. *)
Theorem C73_every_request : forall E d t bs v c rest m, run (metered E d t) bs = Ok ((v, c), rest) -> c <= m ->
  run (deserialize (set_mem (Some m) E) d t) bs = Ok (v, rest).
Proof. intros E d t bs v c rest m H Hc. rewrite <- C73_meter, (en_metered E m d t bs v c rest H Hc). reflexivity. Qed.

(** C73.  All requests of a successful decoding together: at most [max 9 (2 G)] bytes per byte consumed, and
    one more for every level of nested derived types, where [G] is the size in memory of the largest element. *)
Theorem C73_sum : forall E G d t bs v rest, roomy E G -> run (deserialize E d t) bs = Ok (v, rest) ->
  exists c, run (metered E d t) bs = Ok ((v, c), rest) /\ c <= (N.max 9 (2 * G) + N.of_nat d) * (len bs - len rest).
Proof.
  intros E G d t bs v rest HG H. rewrite <- C73_meter in H. destruct (run (metered E d t) bs) as [[[v' c] r']|e|p] eqn:Er; try discriminate.
  cbn in H. apply Ok_inj in H. inversion H; subst. exists c. split; [reflexivity|]. pose proof (paid_metered E G HG d t _ _ _ _ Er) as HH. lia.
Qed.
(** The levels count only because optimised types copy their payload before decoding it. *)
Theorem C73_sum_not_optimised : forall E G d t bs v rest, roomy E G ->
  (forall n s r h, e_sch E n = Some s -> sent s r = Some h -> h_opt h = false) ->
  run (deserialize E d t) bs = Ok (v, rest) ->
  exists c, run (metered E d t) bs = Ok ((v, c), rest) /\ c <= N.max 9 (2 * G) * (len bs - len rest).
Proof.
  intros E G d t bs v rest HG Hp H. rewrite <- C73_meter in H. destruct (run (metered E d t) bs) as [[[v' c] r']|e|p] eqn:Er; try discriminate.
  cbn in H. apply Ok_inj in H. inversion H; subst. exists c. split; [reflexivity|].
  assert (H9 : 9 <= N.max 9 (2 * G)) by lia. assert (H2 : 2 * G <= N.max 9 (2 * G)) by lia.
  pose proof (paid_plain_metered _ G E H9 H2 HG Hp d t _ _ _ _ Er) as HH. lia.
Qed.

(** ** The factor is real
    [#[revision(1, optimised)] struct Node { next: Option<Box<Node>>, data: Bytes }]: the innermost node of a
    chain carries [m] bytes, and each of the [k] nodes around it copies them once more.  All these copies
    are alive at the same time, when the innermost node is decoded. *)
Definition node : schema := mkSchema [mkHent true false] (SStruct [fld (TOption (TWrap (TRef 0))) 1 None; fld TBytes 1 None]).
Definition nodes : env := ex_env (fun n => if n =? 0 then Some node else None).
Definition pack1 (p : bytes) : bytes := 1 :: le_bytes 4 (len p) ++ p.
Fixpoint chain (k : nat) (m : N) : bytes :=
  match k with
  | O => pack1 (0 :: encode_u64 m ++ repeat 0 (N.to_nat m))
  | S k => pack1 (1 :: chain k m ++ [0])
  end.
Fixpoint chain_val (k : nat) (m : N) : val :=
  match k with
  | O => VSeq [VVar 0 []; VBytes (repeat 0 (N.to_nat m))]
  | S k => VSeq [VVar 1 [chain_val k m]; VBytes []]
  end.
Lemma mrun_bind : forall A B (m : mprog A) (f : A -> mprog B) bs a c y, run m bs = Ok ((a, c), y) ->
  run (mbind m f) bs = match run (f a) y with Ok ((b, c'), z) => Ok ((b, c + c'), z) | Err e => Err e | Panic p => Panic p end.
Proof.
  intros A B m f bs a c y H. unfold mbind. rewrite run_bind, H, run_bind. cbn [fst snd]. destruct (run (f a) y) as [[[b c'] z]|e|p]; reflexivity.
Qed.
Lemma mrun_free : forall A (p : prog A) bs a y, run p bs = Ok (a, y) -> run (free p) bs = Ok ((a, 0), y).
Proof. intros A p bs a y H. unfold free. rewrite run_bind, H. reflexivity. Qed.
Lemma mrun_ask : forall n bs, run (ask nodes n) bs = Ok ((tt, n), bs).
Proof. reflexivity. Qed.
(** One node: its payload is requested once more. *)
Lemma node_run : forall d p rest v c, len p < 2 ^ 32 ->
  run (md_struct nodes (md_ref nodes d) true 1 1 [fld (TOption (TWrap (TRef 0))) 1 None; fld TBytes 1 None]) p = Ok ((v, c), []) ->
  run (md_ref nodes (S d) 0) (pack1 p ++ rest) = Ok ((v, len p + c), rest).
Proof.
  intros d p rest v c Hp H. cbn [md_ref]. change (e_sch nodes 0) with (Some node). cbv iota. unfold md_derived, pack1.
  rewrite (mrun_bind _ _ _ _ _ 1 0 ((le_bytes 4 (len p) ++ p) ++ rest)); [|apply mrun_free; reflexivity].
  change (sent node 1) with (Some (mkHent true false)). cbn [s_body node h_opt h_idx]. change (scur node) with 1. unfold md_struct_opt.
  assert (HL : run (free read_varlen_len) ((le_bytes 4 (len p) ++ p) ++ rest) = Ok ((len p, 0), p ++ rest)).
  { apply mrun_free. unfold read_varlen_len. rewrite run_bind, <- app_assoc, run_read_n_app by (rewrite le_bytes_len; reflexivity). cbn [run]. rewrite le_val_bytes; [reflexivity|exact Hp]. }
  rewrite (mrun_bind _ _ _ _ _ _ _ _ HL). rewrite (mrun_bind _ _ _ _ _ _ _ _ (mrun_ask (len p) (p ++ rest))).
  assert (HR : run (free (read_n (len p))) (p ++ rest) = Ok ((p, 0), rest)) by (apply mrun_free, run_read_n_app; reflexivity).
  rewrite (mrun_bind _ _ _ _ _ _ _ _ HR). unfold in_buf at 1. rewrite run_of_res.
  rewrite (mrun_bind _ _ _ _ p tt 0 p); [|apply mrun_free; reflexivity]. rewrite H. cbn [rmap fst]. do 3 f_equal; lia.
Qed.
Lemma chain_run : forall m k rest, m < 2 ^ 64 -> len (chain k m) < 2 ^ 32 ->
  exists c, run (md_ref nodes (S k) 0) (chain k m ++ rest) = Ok ((chain_val k m, c), rest) /\ (N.of_nat k + 2) * m <= c.
Proof.
  intros m k. induction k as [|k IH]; intros rest Hm Hl.
  - cbn [chain chain_val] in *. set (p := 0 :: encode_u64 m ++ repeat 0 (N.to_nat m)) in *.
    assert (HR : len (repeat 0 (N.to_nat m)) = m) by (unfold len; rewrite repeat_length; apply N2Nat.id).
    assert (HB : run (md_blob nodes) (encode_u64 m ++ repeat 0 (N.to_nat m)) = Ok ((repeat 0 (N.to_nat m), m), [])).
    { unfold md_blob. assert (HL : run (free (de_len nodes)) (encode_u64 m ++ repeat 0 (N.to_nat m)) = Ok ((m, 0), repeat 0 (N.to_nat m))).
      { apply mrun_free. change (de_len nodes) with (x <- decode_u64 ;; Ret (x mod 2 ^ 64)). rewrite run_bind, decode_encode_u64 by exact Hm. cbn [run]. rewrite N.mod_small by exact Hm. reflexivity. }
      rewrite (mrun_bind _ _ _ _ _ _ _ _ HL). destruct (N.eqb_spec m 0) as [->|Hz]; [reflexivity|].
      rewrite (mrun_bind _ _ _ _ _ _ _ _ (mrun_ask m _)). rewrite (mrun_free _ _ _ (repeat 0 (N.to_nat m)) []); [do 3 f_equal; lia|].
      rewrite <- (app_nil_r (repeat 0 (N.to_nat m))) at 1. apply run_read_n_app. symmetry. exact HR. }
    exists (len p + m). split.
    + apply node_run.
      * unfold pack1 in Hl. rewrite len_cons, len_app in Hl. lia.
      * unfold md_struct. unfold p.
        assert (HF : run (md_fields nodes (md_ref nodes 0) true 1 1 [fld (TOption (TWrap (TRef 0))) 1 None; fld TBytes 1 None]) p
                     = Ok ((([VVar 0 []; VBytes (repeat 0 (N.to_nat m))], []), m), [])).
        { unfold p. cbn [md_fields]. change (falive 1 (fld (TOption (TWrap (TRef 0))) 1 None)) with true. change (falive 1 (fld TBytes 1 None)) with true. cbv iota.
          rewrite (mrun_bind _ _ _ _ _ (VVar 0 []) 0 (encode_u64 m ++ repeat 0 (N.to_nat m))).
          - rewrite (mrun_bind _ _ _ _ _ ([VBytes (repeat 0 (N.to_nat m))], []) m []); [cbn [mret run fst snd]; do 3 f_equal; lia|].
            rewrite (mrun_bind _ _ _ _ _ (VBytes (repeat 0 (N.to_nat m))) m []); [cbn [mbind mret bind run fst snd]; do 3 f_equal; lia|].
            change (md_mode nodes (md_ref nodes 0) (mode_of true (fld TBytes 1 None)) (f_ty (fld TBytes 1 None))) with (mmap VBytes (md_blob nodes)).
            unfold mmap. rewrite (mrun_bind _ _ _ _ _ _ _ _ HB). cbn [mret run]. do 3 f_equal; lia.
          - change (md_mode nodes (md_ref nodes 0) (mode_of true (fld (TOption (TWrap (TRef 0))) 1 None)) (f_ty (fld (TOption (TWrap (TRef 0))) 1 None)))
              with (mbind (free read_byte) (fun b => if b =? 0 then mret (VVar 0 []) else if b =? 1 then mmap (fun x => VVar 1 [x]) (md_ref nodes 0 0) else Fail (EDeserialize MBadOption))).
            rewrite (mrun_bind _ _ _ _ _ 0 0 (encode_u64 m ++ repeat 0 (N.to_nat m))); [|apply mrun_free, run_read_byte_cons]. reflexivity. }
        rewrite (mrun_bind _ _ _ _ _ _ _ _ HF). cbn [fst snd converts]. cbn [of_res free bind mbind mret run fst snd]. do 3 f_equal; lia.
    + assert (Hp : m <= len p) by (unfold p; rewrite len_cons, len_app, HR; lia). lia.
  - cbn [chain chain_val] in *. set (p := 1 :: chain k m ++ [0]) in *.
    assert (Hk : len (chain k m) < len p) by (unfold p; rewrite len_cons, len_app; lia).
    assert (Hl' : len p < 2 ^ 32) by (unfold pack1 in Hl; rewrite len_cons, len_app in Hl; lia).
    destruct (IH [0] Hm) as (c & Hc & Hle); [lia|].
    exists (len p + c). split.
    + apply node_run; [exact Hl'|]. unfold md_struct.
      assert (HF : run (md_fields nodes (md_ref nodes (S k)) true 1 1 [fld (TOption (TWrap (TRef 0))) 1 None; fld TBytes 1 None]) p
                   = Ok ((([VVar 1 [chain_val k m]; VBytes []], []), c), [])).
      { unfold p. cbn [md_fields]. change (falive 1 (fld (TOption (TWrap (TRef 0))) 1 None)) with true. change (falive 1 (fld TBytes 1 None)) with true. cbv iota.
        rewrite (mrun_bind _ _ _ _ _ (VVar 1 [chain_val k m]) c [0]).
        - rewrite (mrun_bind _ _ _ _ _ ([VBytes []], []) 0 []); [cbn [mret run fst snd]; do 3 f_equal; lia|reflexivity].
        - change (md_mode nodes (md_ref nodes (S k)) (mode_of true (fld (TOption (TWrap (TRef 0))) 1 None)) (f_ty (fld (TOption (TWrap (TRef 0))) 1 None)))
            with (mbind (free read_byte) (fun b => if b =? 0 then mret (VVar 0 []) else if b =? 1 then mmap (fun x => VVar 1 [x]) (md_ref nodes (S k) 0) else Fail (EDeserialize MBadOption))).
          rewrite (mrun_bind _ _ _ _ _ 1 0 (chain k m ++ [0])); [|apply mrun_free, run_read_byte_cons]. cbn [N.eqb Pos.eqb]. unfold mmap.
          rewrite (mrun_bind _ _ _ _ _ _ _ _ Hc). cbn [mret run]. do 3 f_equal; lia. }
      rewrite (mrun_bind _ _ _ _ _ _ _ _ HF). cbn [fst snd converts]. cbn [of_res free bind mbind mret run fst snd]. do 3 f_equal; lia.
    + assert (HC : m <= len (chain k m)).
      { clear. induction k as [|k IH]; cbn [chain]; unfold pack1; rewrite !len_cons, !len_app, ?len_cons, ?len_app; [|lia].
        assert (HR : len (repeat 0 (N.to_nat m)) = m) by (unfold len; rewrite repeat_length; apply N2Nat.id). rewrite HR. lia. }
      rewrite Nat2N.inj_succ. lia.
Qed.
Lemma encode_u64_len : forall x, len (encode_u64 x) <= 9.
Proof.
  intros x. unfold encode_u64. repeat (match goal with |- context [if ?c then _ else _] => destruct c end); rewrite ?len_cons, ?len_nil, ?le_bytes_len; cbn; lia.
Qed.
Lemma chain_len : forall k m, len (chain k m) <= m + 15 + 7 * N.of_nat k.
Proof.
  induction k as [|k IH]; intros m; cbn [chain]; unfold pack1; rewrite !len_cons, !len_app, !le_bytes_len, ?len_cons, ?len_app.
  - assert (HR : len (repeat 0 (N.to_nat m)) = m) by (unfold len; rewrite repeat_length; apply N2Nat.id). rewrite HR. pose proof (encode_u64_len m). cbn [N.of_nat]. lia.
  - specialize (IH m). change (len [0]) with 1. lia.
Qed.
(** [m] bytes inside [k] nodes: [m + 15 + 7 k] bytes on the wire, [(k + 2) m] bytes of memory. *)
Theorem C73_nesting_multiplies : forall k m, m + 15 + 7 * N.of_nat k < 2 ^ 32 ->
  exists bs v c, len bs <= m + 15 + 7 * N.of_nat k
    /\ run (deserialize nodes (S k) (TRef 0)) bs = Ok (v, [])
    /\ run (metered nodes (S k) (TRef 0)) bs = Ok ((v, c), []) /\ (N.of_nat k + 2) * m <= c.
Proof.
  intros k m H. pose proof (chain_len k m) as HL.
  assert (Hm : m < 2 ^ 64) by (eapply N.lt_trans; [apply N.le_lt_trans with (2 := H); lia|reflexivity]).
  destruct (chain_run m k [] Hm) as (c & Hc & Hle); [eapply N.le_lt_trans; [exact HL|exact H]|]. rewrite app_nil_r in Hc.
  exists (chain k m), (chain_val k m), c. split; [exact HL|]. split; [|split; [exact Hc|exact Hle]].
  rewrite <- C73_meter. unfold metered. cbn [md_ty]. rewrite Hc. reflexivity.
Qed.
(** So no bound linear in the input holds, whatever the factor [f] (within what 32 bit lengths allow). *)
Theorem C73_linear_refuted : forall f, f < 100000000 ->
  exists d bs v c, run (metered nodes d (TRef 0)) bs = Ok ((v, c), []) /\ f * len bs < c.
Proof.
  intros f Hf. destruct (C73_nesting_multiplies (N.to_nat (2 * f)) (7 * (2 * f) + 16)) as (bs & v & c & Hl & _ & Hr & Hc).
  - rewrite N2Nat.id. apply N.le_lt_trans with (28 * 100000000 + 31); [lia|reflexivity].
  - rewrite N2Nat.id in *. exists (S (N.to_nat (2 * f))), bs, v, c. split; [exact Hr|].
    eapply N.lt_le_trans; [|exact Hc]. apply N.le_lt_trans with (f * (7 * (2 * f) + 16 + 15 + 7 * (2 * f))); [apply N.mul_le_mono_l, Hl|]. lia.
Qed.

(** ** Examples *)
(** 4000 bytes inside 100 nodes. *)
Example C73_chain : len (chain 100 4000) = 4709
  /\ rmap (fun x => snd (fst x)) (run (metered nodes 101 (TRef 0)) (chain 100 4000)) = Ok 443754.
Proof. vm_compute. split; reflexivity. Qed.
(** A value of the example program; the limit C73_sum gives is (max 9 (2 * 16) + 2) * 180. *)
Example C73_user : roomy (small 1000000) 16 /\ run (deserialize (small 1000000) 2 (TRef 1)) u_new_bytes = Ok (u_new, [])
  /\ len u_new_bytes = 180 /\ run (metered (small 1000000) 2 (TRef 1)) u_new_bytes = Ok ((u_new, 655), []).
Proof. split; [apply roomy_small|]. vm_compute. repeat split. Qed.
(** The same nodes without [optimised]. *)
Definition legacy_node : schema := mkSchema [mkHent false false; mkHent false false] (SStruct [fld (TOption (TWrap (TRef 0))) 1 None; fld TBytes 2 None]).
Definition legacy_nodes : env :=
  mkEnv false true true 64 None (fun t => if zero_width t then 0 else 16) (e_cmp nodes) (e_iter nodes) (e_dec nodes) (e_ext nodes) (e_time nodes)
        (fun n => if n =? 0 then Some legacy_node else None).
Example C73_legacy : (forall n s r h, e_sch legacy_nodes n = Some s -> sent s r = Some h -> h_opt h = false) /\ roomy legacy_nodes 16
  /\ run (metered legacy_nodes 2 (TMap KHash (TInt U8) (TVec (TRef 0)))) [2; 7; 2; 2; 0; 1; 5; 2; 1; 2; 0; 2; 7; 7; 1; 9; 9; 0]
      = Ok ((VSeq [VPair (VInt 7) (VSeq [VSeq [VVar 0 []; VBytes [5]]; VSeq [VVar 1 [VSeq [VVar 0 []; VBytes [7; 7]]]; VBytes [9]]]);
                   VPair (VInt 9) (VSeq [])], 68), []).
Proof.
  split; [|split; [|vm_compute; reflexivity]].
  - intros n s r h H Hr. cbn [legacy_nodes e_sch] in H. destruct (n =? 0); [|discriminate]. injection H as <-. unfold sent in Hr. destruct (r =? 0); [discriminate|].
    cbn [legacy_node s_hist] in Hr. destruct (N.to_nat (r - 1)) as [|[|k]]; cbn in Hr; try (injection Hr as <-; reflexivity). destruct k; discriminate.
  - intros t. cbn [legacy_nodes e_esize]. destruct (zero_width t); [reflexivity|apply N.le_refl].
Qed.

Print Assumptions C73_meter.
Print Assumptions C73_every_request.
Print Assumptions C73_sum.
Print Assumptions C73_sum_not_optimised.
Print Assumptions C73_nesting_multiplies.
Print Assumptions C73_linear_refuted.
