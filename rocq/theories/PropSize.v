(** C52: decoded values are no larger than the input. *)

From Verif Require Import Base BaseL Prog ProgL Prim PrimL Utf8 Tag Ty Ser De Typed Mig RtL RtTy RtId Users Yield Size SizeL PropVal Ex.
From Coq Require Import List NArith ZArith Bool Lia.
Import ListNotations.
Open Scope N_scope.

(** C52.  [load] counts the bits in strings and the elements of growable collections at every nesting (see
    Size.v); [G] bounds what user supplied default and convert functions add to one value. *)
Theorem C52_bounded : forall E G d k t bs v rest, wf_env E -> frugal E G -> opt_stable E ->
  run (deserialize E d t) bs = Ok (v, rest) -> load E k t v <= 8 * (1 + G) * (len bs - len rest).
Proof.
  intros E G d k t bs v rest W HG HO H. pose proof (run_len _ _ _ _ _ H) as Hl.
  apply (pays_deserialize G E W HG HO d k t) in H. unfold F in H. nia.
Qed.

(** Without user functions that add data: one element, entry or byte of a string per byte read ... *)
Theorem C52_no_defaults : forall E d k t bs v rest, wf_env E -> frugal E 0 -> opt_stable E ->
  run (deserialize E d t) bs = Ok (v, rest) -> load E k t v <= 8 * (len bs - len rest).
Proof. intros E d k t bs v rest W HG HO H. pose proof (C52_bounded E 0 d k t bs v rest W HG HO H). lia. Qed.
(** ... in particular for one collection. *)
Theorem C52_lengths : forall E d t bs l rest, wf_env E -> frugal E 0 -> opt_stable E ->
  run (deserialize E d t) bs = Ok (VSeq l, rest) ->
  match t with
  | TVec TBool => len l <= 8 * (len bs - len rest)
  | TVec t' | TImVec t' | TSet _ t' | THeap t' => zero_width t' = false -> len l <= len bs - len rest
  | TMap _ a b => zero_width (TPair a b) = false -> len l <= len bs - len rest
  | _ => True
  end.
Proof.
  intros E d t bs l rest W HG HO H. pose proof (C52_no_defaults E d 0 t bs _ rest W HG HO H) as HL. unfold load in HL.
  destruct t; try exact I; cbn [load_ty] in HL.
  - destruct t; cbn [vec_bits] in HL; unfold elem_bits in HL; intros; try (match goal with Z : _ = false |- _ => rewrite Z in HL end); lia.
  - intros Z. unfold elem_bits in HL. rewrite Z in HL. lia.
  - intros Z. unfold elem_bits in HL. rewrite Z in HL. lia.
  - intros Z. unfold elem_bits in HL. rewrite Z in HL. lia.
  - intros Z. unfold elem_bits in HL. rewrite Z in HL. lia.
Qed.

(** A type whose values take no bytes is exactly one whose decoder never looks at the input; so every other
    type's decoder, if it succeeds, has read at least one byte. *)
Theorem C52_zero_width : forall E d t bs v rest, wf_env E ->
  run (deserialize E d t) bs = Ok (v, rest) -> (zero_width t = true <-> rest = bs).
Proof.
  intros E d t bs v rest W H. unfold deserialize in H.
  assert (Z : forall t bs v rest, zero_width t = true -> run (de_ty E (de_ref E d) t) bs = Ok (v, rest) -> rest = bs).
  { clear. induction t; intros bs v rest Hz H; try discriminate Hz; cbn [zero_width] in Hz; cbn [de_ty] in H.
    - apply Ok_inj in H. inversion H. reflexivity.
    - apply andb_prop in Hz. destruct Hz as [Z1 Z2]. rewrite run_bind in H.
      destruct (run (de_ty E (de_ref E d) t1) bs) as [[x y]|e|p] eqn:E1; try discriminate.
      rewrite run_bind in H. destruct (run (de_ty E (de_ref E d) t2) y) as [[x' y']|e|p] eqn:E2; try discriminate.
      apply Ok_inj in H. inversion H; subst. rewrite (IHt2 _ _ _ Z2 E2). exact (IHt1 _ _ _ Z1 E1).
    - rewrite run_bind in H. destruct (run (rep n (de_ty E (de_ref E d) t)) bs) as [[x y]|e|p] eqn:E1; try discriminate.
      apply Ok_inj in H. inversion H; subst. clear H. apply orb_prop in Hz. destruct Hz as [Hz|Hz].
      + apply Nat.eqb_eq in Hz. subst n. cbn [rep] in E1. apply Ok_inj in E1. inversion E1. reflexivity.
      + revert bs x rest E1. induction n as [|n IH]; intros bs x rest E1; cbn [rep] in E1.
        * apply Ok_inj in E1. inversion E1. reflexivity.
        * rewrite run_bind in E1. destruct (run (de_ty E (de_ref E d) t) bs) as [[a y]|e|p] eqn:E2; try discriminate.
          rewrite run_bind in E1. destruct (run (rep n (de_ty E (de_ref E d) t)) y) as [[l y']|e|p] eqn:E3; try discriminate.
          apply Ok_inj in E1. inversion E1; subst. rewrite (IH _ _ _ E3). exact (IHt _ _ _ Hz E2).
    - exact (IHt _ _ _ Hz H).
    - rewrite run_bind in H. destruct (run (de_ty E (de_ref E d) t) bs) as [[x y]|e|p] eqn:E1; try discriminate.
      destruct (e_ext E c x); [|discriminate]. apply Ok_inj in H. inversion H; subst. exact (IHt _ _ _ Hz E1). }
  split; [intros Hz; exact (Z t bs v rest Hz H)|].
  intros ->. destruct (zero_width t) eqn:Hz; [reflexivity|exfalso].
  assert (ER : forall d n, eats (de_ref E d n)).
  { intros [|d'] n bs' a r Hr; cbn [de_ref] in Hr; [discriminate|]. destruct (e_sch E n) as [s|]; [|discriminate].
    unfold de_derived in Hr. apply (eats_bind _ _ _ _ (eats_u16 _)) in Hr. exact Hr. }
  assert (P : forall t, zero_width t = false -> eats (de_ty E (de_ref E d) t)).
  { clear - ER. induction t; intros Hz; try discriminate Hz; cbn [zero_width] in Hz; cbn [de_ty];
      try (apply eats_bind; first [apply eats_read_byte|apply eats_int|apply eats_read_n; reflexivity|apply eats_char|apply eats_u32]).
    - unfold de_str. apply eats_bind, eats_len.
    - unfold de_str. apply eats_bind, eats_len.
    - unfold de_blob. apply eats_bind, eats_bind, eats_len.
    - apply andb_false_iff in Hz. destruct (zero_width t1) eqn:Z1; [|apply eats_bind, IHt1; reflexivity].
      destruct Hz as [Hz|Hz]; [discriminate|]. intros bs a r H. rewrite run_bind in H.
      destruct (run (de_ty E (de_ref E d) t1) bs) as [[x y]|e|p] eqn:E1; try discriminate. apply run_len in E1.
      apply (eats_bind _ _ _ _ (IHt2 Hz)) in H. lia.
    - assert (HS : eats (l <- de_seq E (e_esize E t) (de_ty E (de_ref E d) t) ;; Ret (VSeq l))) by (unfold de_seq; apply eats_bind, eats_bind, eats_len).
      destruct (e_spec E); [|exact HS]. destruct (bulk_of t); [|exact HS]. unfold de_bulk. apply eats_bind, eats_bind, eats_len.
    - unfold de_seq. apply eats_bind, eats_bind, eats_len.
    - apply orb_false_iff in Hz. destruct Hz as [Hn Hz]. destruct n as [|n]; [discriminate|]. cbn [rep]. apply eats_bind, eats_bind, IHt, Hz.
    - unfold de_seq. apply eats_bind, eats_bind, eats_len.
    - unfold de_seq. apply eats_bind, eats_bind, eats_len.
    - unfold de_seq. apply eats_bind, eats_bind, eats_len.
    - exact (IHt Hz).
    - apply eats_bind, IHt, Hz.
    - apply ER. }
  apply (P t Hz) in H. lia.
Qed.

(** The restriction to elements of non-zero width is needed: nine bytes decode to a vector of any length
    there is. *)
Theorem C52_units_refuted : forall E d n, wf_env E -> e_mem E = None -> n < 2 ^ e_ub E ->
  exists bs, len bs <= 9 /\ from_slice E d (TVec TUnit) bs = Ok (VSeq (repeat VUnit (N.to_nat n))).
Proof.
  intros E d n W Hm Hn. exists (ser_len E n). split.
  - unfold ser_len, ser_usize, ser_u64. destruct (e_fw E).
    + rewrite le_bytes_len. discriminate.
    + unfold encode_u64. repeat (match goal with |- context [if ?c then _ else _] => destruct c end); rewrite ?len_cons, ?len_nil, ?le_bytes_len; cbn; lia.
  - pose proof (run_len_prefix E E eq_refl eq_refl (we_ub E W) n [] Hn) as H. rewrite app_nil_r in H.
    unfold from_slice, deserialize. cbn [de_ty bulk_of]. replace (if e_spec E then None else None) with (@None bk) by (destruct (e_spec E); reflexivity).
    unfold de_seq. rewrite !run_bind, H. destruct (n =? 0) eqn:E0; [apply N.eqb_eq in E0; subst n; reflexivity|].
    unfold alloc. rewrite Hm. cbn [bind].
    assert (R : forall m bs, run (rep m (Ret VUnit)) bs = Ok (repeat VUnit m, bs)).
    { induction m as [|m IH]; intros bs; cbn [rep repeat]; [reflexivity|]. cbn [bind]. rewrite run_bind, IH. reflexivity. }
    rewrite R. reflexivity.
Qed.

(** ** The hypotheses are satisfiable *)
Example frugal_new : frugal new 0.
Proof.
  split.
  - intros n s r h k Es Er. cbn [new ex_env e_sch] in Es. unfold sch3 in Es.
    assert (Hr : r = 1 \/ r = 2 \/ r = 3).
    { unfold sent in Er. destruct (r =? 0) eqn:E0; [discriminate|].
      assert (L : (N.to_nat (r - 1) < length (s_hist s))%nat) by (apply nth_error_Some; congruence).
      destruct (n =? 1); [|destruct (n =? 2); [|discriminate]]; inversion Es; subst s; cbn in L; lia. }
    destruct (n =? 1) eqn:E1; [|destruct (n =? 2) eqn:E2; [|discriminate]]; inversion Es; subst s; clear Es; apply N.eqb_eq in E1 || apply N.eqb_eq in E2; subst n.
    + split; [|split].
      * intros fs ->. destruct Hr as [-> | [-> | ->]]; cbn; lia.
      * intros fs f l v l' -> Hf. cbn in Hf. repeat (destruct Hf as [<-|Hf]); try (destruct Hf); intros Ha Hc; try (destruct Hr as [-> | [-> | ->]]; discriminate).
        cbn [f_convert with_convert fixedf fld f_ty]. unfold age_to_birth. intros H.
        destruct l as [|x1 [|x2 [|x3 [|x4 [|x5 [|]]]]]]; try discriminate. destruct v; try discriminate. apply Ok_inj in H. subst l'.
        unfold load_fields. set (ts := map f_ty _).
        change ts with [TStr; TVec (TInt U16); TMap KHash TStr (TInt U64); TInt I64; TOption (TWrap (TRef 1))].
        cbn [load_tys]. assert (Z : forall v, load_ty (load_ref new k) (TInt I64) v = 0) by (intros []; reflexivity). rewrite !Z. lia.
      * intros vs vr l v Hb. discriminate.
    + split; [|split].
      * intros fs (vr & Hi & ->). cbn in Hi. destruct Hi as [<-|[<-|[<-|[<-|[]]]]]; destruct Hr as [-> | [-> | ->]]; cbn; lia.
      * intros fs f l v l' (vr & Hi & ->) Hf Ha Hc. exfalso. cbn in Hi.
        destruct Hi as [<-|[<-|[<-|[<-|[]]]]]; cbn in Hf; repeat (destruct Hf as [<-|Hf]); try (destruct Hf); destruct Hr as [-> | [-> | ->]]; discriminate.
      * intros vs vr l v Hb Hi Ha Hc Hv. cbn in Hb. inversion Hb; subst vs. clear Hb. cbn in Hi.
        destruct Hi as [<-|[<-|[<-|[<-|[]]]]]; try discriminate. inversion Hv; subst v. apply N.le_0_l.
  - intros c t k x y. cbn [new ex_env e_ext]. destruct x as [|[]| | | | |]; try (destruct (c =? 0)); intros H; inversion H; subst; apply N.le_refl.
Qed.
(** A one-byte name, no tags, nine scores with one byte keys, and the boss. *)
Example C52_case : exists b, to_vec new 3 (TRef 1) u_new = Ok b /\ run (deserialize new 3 (TRef 1)) b = Ok (u_new, [])
  /\ frugal new 0 /\ wf_env new /\ opt_stable new /\ 0 < load new 3 (TRef 1) u_new <= 8 * len b.
Proof.
  eexists. split; [vm_compute; reflexivity|]. split; [vm_compute; reflexivity|]. split; [exact frugal_new|]. split; [exact wf_new|]. split; [exact opt_stable_new|].
  split; vm_compute; [reflexivity|discriminate].
Qed.
Example C52_sharp : exists b v, run (deserialize new 0 (TVec TBool)) b = Ok (v, []) /\ len b = 2 /\ v = VSeq (repeat (VBool false) 8) /\ load new 0 (TVec TBool) v = 8.
Proof. exists [8; 0]. eexists. split; [vm_compute; reflexivity|]. repeat split. Qed.

Print Assumptions C52_bounded.
Print Assumptions C52_no_defaults.
Print Assumptions C52_lengths.
Print Assumptions C52_zero_width.
Print Assumptions C52_units_refuted.
