(** C83: types with implementations written by hand, among derived types and in every container. *)

From Verif Require Import Base BaseL Prog ProgL Prim PrimL Ty Ser De Skip Typed Mig Evol EvolL RtL RtTy RtSch RtId SkipL PropMig PropSkip WalkRef Ex Custom CustomSpec.
From Coq Require Import List NArith ZArith Bool Lia Relations.
Import ListNotations.
Open Scope N_scope.

(** With no such types this is the model that the other properties are about. *)

Section Pair.
Variables (E E' : env) (U U' : N -> option codec) (M : N -> (N -> val -> res val) -> val -> res val).
Hypothesis W : wf_env E.
Hypothesis W' : wf_env E'.
Hypothesis C : compatible E E'.
Hypothesis Hmem : e_mem E' = None.
Hypothesis Hh : u_sizes_honest E U.
Hypothesis HU : forall n, match U n, U' n with Some c, Some c' => reads_as c c' (M n) | None, None => True | _, _ => False end.

Lemma urt_ref : forall d n v, user_ok E U d n v -> rt (user_ser E U d n v) (user_de E' U' d n) (user_mig E E' U M d n v).
Proof.
  destruct C as (Hfw & Hspec & Hub & Hcomp). destruct W as [W1 W2 W3 W4 W5 W6 W7]. destruct W' as [V1 V2 V3 V4 V5 V6 V7].
  induction d as [|d IH]; intros n v Hw; cbn [user_ok] in Hw; [contradiction|].
  cbn [user_ser user_de user_mig]. specialize (HU n). destruct (U n) as [c|] eqn:Eu, (U' n) as [c'|]; try contradiction.
  - intros ops rest Ho. apply (HU (user_ser E U d) (user_de E' U' d) (user_mig E E' U M d) (user_ok E U d)); auto.
    intros n0 v0 ops0 rest0 H0 S0. apply (IH n0 v0 H0 ops0 rest0 S0).
  - destruct (e_sch E n) as [s|] eqn:Es; [|contradiction].
    destruct (Hcomp n s Es) as (s' & Es' & Hev). rewrite Es'.
    assert (Hh0 : exists h, sent s (scur s) = Some h) by (destruct Hev as (_ & h & Hh0 & _); eauto).
    destruct Hh0 as (h & Hh0). rewrite Hh0.
    apply (rt_derived E E' (eq_sym Hfw) (eq_sym Hspec) (eq_sym Hub) W1 Hmem W3 (proj2 W6) (user_ser E U d) (user_de E' U' d) (user_mig E E' U M d) (user_ok E U d) IH); eauto.
    intros vs Hvs. destruct Hh as [Hd|Hd]; [left; assumption|right].
    intros vr k l bs Hin Hsz Hwl Hbs. eapply Hd; eauto.
Qed.
End Pair.

Lemma back_ref : forall E U, wf_env E -> e_mem E = None -> u_sizes_honest E U -> (forall n c, U n = Some c -> reads_back c) ->
  forall d n v, user_ok E U d n v -> rt (user_ser E U d n v) (user_de E U d n) (Ok v).
Proof.
  intros E U W Hm Hh HU. pose proof (compatible_refl E W) as (_ & _ & _ & Hcomp). pose proof W as [W1 W2 W3 W4 W5 W6 W7].
  induction d as [|d IH]; intros n v Hw; cbn [user_ok] in Hw; [contradiction|].
  cbn [user_ser user_de]. destruct (U n) as [c|] eqn:Eu.
  - intros ops rest Ho. cbn [rmap]. apply (HU n c Eu (user_ser E U d) (user_de E U d) (user_ok E U d)); auto.
    intros n0 v0 ops0 rest0 H0 S0. apply (IH n0 v0 H0 ops0 rest0 S0).
  - destruct (e_sch E n) as [s|] eqn:Es; [|contradiction].
    destruct (Hcomp n s Es) as (s' & Es' & Hev). assert (s' = s) by congruence. subst s'. clear Es'.
    assert (Hh0 : exists h, sent s (scur s) = Some h) by (destruct Hev as (_ & h & Hh0 & _); eauto).
    destruct Hh0 as (h & Hh0). intros ops rest Ho.
    pose proof (rt_derived E E eq_refl eq_refl eq_refl W1 Hm W3 (proj2 W6) (user_ser E U d) (user_de E U d) (fun _ x => Ok x) (user_ok E U d) IH
      s s v h (W7 n s Es) (W7 n s Es) Hev Hh0) as R.
    rewrite (R (fun vs Hvs => match Hh with or_introl Hd => or_introl Hd
                              | or_intror Hd => or_intror (fun vr k l bs Hin Hsz Hwl Hbs => Hd n s vs vr k d l bs Es Hvs Hin Hsz Hwl Hbs) end) Hw ops rest Ho).
    rewrite (mig_derived_id E W (user_ser E U d) (fun _ x => Ok x) (user_ok E U d) (fun _ _ _ _ _ => eq_refl) s v h ops (W7 n s Es) Hh0 Hw Ho).
    reflexivity.
Qed.

(** C83.  If every hand-written implementation reads back what it writes, then so does every type built from them and from
    derived types, in every container, and it leaves what follows. *)
Theorem C83_round_trip : forall E U d t v b rest,
  wf_env E -> e_mem E = None -> u_sizes_honest E U -> (forall n c, U n = Some c -> reads_back c) ->
  u_ok E U d t v -> u_to_vec E U d t v = Ok b -> run (u_read E U d t) (b ++ rest) = Ok (v, rest).
Proof.
  intros E U d t v b rest W Hm Hh HU Hw Hs. unfold u_to_vec in Hs. apply ser_bytes_ok in Hs. destruct Hs as (ops & Ho & ->).
  pose proof W as [W1 W2 W3 W4 W5 W6 W7]. unfold u_read, u_ok in *.
  rewrite (rt_ty E E eq_refl eq_refl eq_refl W1 Hm W3 (proj2 W6) (user_ser E U d) (user_de E U d) (fun _ x => Ok x) (user_ok E U d)
    (back_ref E U W Hm Hh HU d) t v Hw ops rest Ho).
  rewrite (mig_ty_id E W (user_ser E U d) (fun _ x => Ok x) (user_ok E U d) (fun _ _ _ _ _ => eq_refl) t v ops Hw Ho). reflexivity.
Qed.

(** C83.  No strict prefix of what was written reads as a value. *)
Theorem C83_no_prefix : forall E U d t v b q s y,
  wf_env E -> e_mem E = None -> u_sizes_honest E U -> (forall n c, U n = Some c -> reads_back c) ->
  u_ok E U d t v -> u_to_vec E U d t v = Ok b -> b = q ++ s -> s <> [] -> u_from_slice E U d t q <> Ok y.
Proof.
  intros E U d t v b q s y W Hm Hh HU Hw Hs -> Hne H. unfold u_from_slice in H. apply rmap_ok in H. destruct H as ([w r] & Hr & _).
  pose proof (C83_round_trip E U d t v (q ++ s) [] W Hm Hh HU Hw Hs) as R. rewrite app_nil_r in R.
  apply run_app with (x := s) in Hr. rewrite Hr in R. inversion R as [[H0 H1]]. apply app_eq_nil in H1. destruct H1; auto.
Qed.

(** C83.  Two values with the same bytes are the same value. *)
Theorem C83_injective : forall E U d t v w b,
  wf_env E -> e_mem E = None -> u_sizes_honest E U -> (forall n c, U n = Some c -> reads_back c) ->
  u_ok E U d t v -> u_ok E U d t w -> u_to_vec E U d t v = Ok b -> u_to_vec E U d t w = Ok b -> v = w.
Proof.
  intros E U d t v w b W Hm Hh HU Hv Hw Sv Sw.
  pose proof (C83_round_trip E U d t v b [] W Hm Hh HU Hv Sv) as R1. pose proof (C83_round_trip E U d t w b [] W Hm Hh HU Hw Sw) as R2.
  rewrite R1 in R2. inversion R2. reflexivity.
Qed.

(** C83.  A later program, whose derived types have been edited within the rules and whose hand-written readers read the
    old bytes as [M] says, reads the migrated value and leaves what follows. *)
Theorem C83_later : forall E E' U U' M d t v b rest,
  wf_env E -> wf_env E' -> later E E' -> opt_safe E E' -> e_mem E' = None -> u_sizes_honest E U ->
  (forall n, match U n, U' n with Some c, Some c' => reads_as c c' (M n) | None, None => True | _, _ => False end) ->
  u_ok E U d t v -> u_to_vec E U d t v = Ok b ->
  run (u_read E' U' d t) (b ++ rest) = rmap (fun w => (w, rest)) (u_migrate E E' U M d t v).
Proof.
  intros E E' U U' M d t v b rest W W' L O Hm Hh HU Hw Hs. pose proof (later_compatible E E' W L O) as C.
  unfold u_to_vec in Hs. apply ser_bytes_ok in Hs. destruct Hs as (ops & Ho & ->).
  pose proof (urt_ref E E' U U' M W W' C Hm Hh HU d) as R. destruct C as (Hfw & Hspec & Hub & _). pose proof W as [W1 W2 W3 W4 W5 W6 W7].
  exact (rt_ty E E' (eq_sym Hfw) (eq_sym Hspec) (eq_sym Hub) W1 Hm W3 (proj2 W6) (user_ser E U d) (user_de E' U' d) (user_mig E E' U M d) (user_ok E U d)
    R t v Hw ops rest Ho).
Qed.

(** C83.  If every hand-written [skip_revisioned] skips what its reader reads, then skipping stops where reading does, for
    every type built from them. *)
Theorem C83_skip : forall E U d t bs v rest, spec_built E -> (forall n c, U n = Some c -> skips_alike (2 ^ e_ub E) c) ->
  len bs < 2 ^ e_ub E -> run (u_read E U d t) bs = Ok (v, rest) -> run (u_skip E U d t) bs = Ok (tt, rest).
Proof.
  intros E U d t bs v rest Hs HU Hb. revert bs v rest Hb. change (covers (2 ^ e_ub E) (u_read E U d t) (u_skip E U d t)).
  unfold u_read, u_skip. apply cov_ty; [reflexivity|]. induction d as [|d IH]; intros n; cbn [user_de user_skip].
  - apply cov_crash.
  - destruct (U n) as [c|] eqn:Eu.
    + intros bs v rest Hb Hr. apply (HU n c Eu (user_de E U d) (user_skip E U d) IH bs v rest Hb Hr).
    + destruct (e_sch E n) as [s|] eqn:Es; [|apply cov_crash]. apply cov_derived; [reflexivity|exact IH|]. intros f Hf. eapply Hs; eassumption.
Qed.

(** ** Implementations that meet these conditions *)

(** C83.  The bitmaps of the roaring crate, or any other type that hands over to a foreign format: it is enough that the
    format reads back what it wrote and leaves what follows. *)
Theorem C83_bitmaps : forall enc dec (ok : val -> Prop),
  (forall v rest, ok v -> run dec (out (enc v) ++ rest) = Ok (v, rest)) ->
  reads_back (foreign enc dec ok) /\ forall M, skips_alike M (foreign enc dec ok).
Proof.
  intros enc dec ok H. split.
  - intros si di oki _ v ops rest Hv Ho. cbn [foreign c_ok c_ser c_de] in *. inversion Ho; subst ops. rewrite run_map_err, (H v rest Hv). reflexivity.
  - intros M di ki _ bs v rest _ Hr. cbn [foreign c_de c_skip] in *. rewrite run_bind, Hr. reflexivity.
Qed.
(** C83.  But an error of the format, the end of the input included, is always reported as [Error::Deserialize]: data cut
    off inside a bitmap cannot be told from data that is wrong. *)
Theorem C83_bitmap_errors : forall E U d n enc dec (ok : val -> Prop) q e, U n = Some (foreign enc dec ok) ->
  run (u_read E U (S d) (TRef n)) q = Err e -> e = EDeserialize MInner.
Proof.
  intros E U d n enc dec ok q e Hu. unfold u_read. cbn [de_ty user_de]. rewrite Hu. cbn [foreign c_de]. rewrite run_map_err.
  destruct (run dec q) as [p|e0|x]; cbn [rmap_err]; intros H; inversion H; reflexivity.
Qed.
(** C83.  The implementation given as an example in the documentation, and the usual one for several fields. *)
Theorem C83_documented : forall n m,
  (reads_back (my_type n) /\ forall M, skips_alike M (my_type n)) /\ (reads_back (two_fields n m) /\ forall M, skips_alike M (two_fields n m)).
Proof.
  intros n m. repeat split.
  - intros si di oki H v ops rest Hv Ho. exact (H n v ops rest Hv Ho).
  - intros M di ki H bs v rest Hb Hr. exact (H n bs v rest Hb Hr).
  - intros si di oki H v ops rest Hv Ho. cbn [two_fields c_ok c_ser c_de] in *. destruct v as [| | | |a b| |]; try contradiction.
    destruct Hv as [Ha Hb]. apply sbind_ok in Ho. destruct Ho as (la & lb & H1 & H2 & ->).
    rewrite out_app, <- app_assoc, run_bind, (H n a la _ Ha H1). cbn [rmap]. rewrite run_bind, (H m b lb _ Hb H2). reflexivity.
  - intros M di ki H bs v rest Hb Hr. cbn [two_fields c_de c_skip] in *. rewrite run_bind in *.
    destruct (run (di n) bs) as [[a r1]|e|x] eqn:E1; try discriminate. rewrite (H n bs a r1 Hb E1).
    assert (len r1 <= len bs) by (apply run_len in E1; exact E1).
    rewrite run_bind in Hr. destruct (run (di m) r1) as [[b r2]|e|x] eqn:E2; try discriminate. cbn [run] in Hr. inversion Hr; subst.
    apply (H m r1 b rest); [lia|exact E2].
Qed.

(** The condition that what follows is left alone cannot be dropped: an implementation whose values all read back from
    their own bytes, but whose values in a list do not. *)
Definition padded : codec :=
  mkCodec (fun _ v => match v with VInt z => Ok [WAll [Z.to_N z; 0]] | _ => ty_err end)
          (fun _ => Read 1 EIo (fun b => Ret (VInt (Z.of_N (hd 0 b)))))
          (fun _ _ => Read 2 EIo (fun _ => Ret tt))
          (fun _ v => match v with VInt z => (0 <= z < 256)%Z | _ => False end).
Theorem C83_alone_refuted :
  (forall E U d v b, U 1 = Some padded -> u_ok E U (S d) (TRef 1) v -> u_to_vec E U (S d) (TRef 1) v = Ok b -> u_from_slice E U (S d) (TRef 1) b = Ok v)
  /\ exists E U v b w, wf_env E /\ e_mem E = None /\ u_sizes_honest E U /\ U 1 = Some padded /\ u_ok E U 1 (TVec (TRef 1)) v
     /\ u_to_vec E U 1 (TVec (TRef 1)) v = Ok b /\ u_from_slice E U 1 (TVec (TRef 1)) b = Ok w /\ w <> v.
Proof.
  split.
  - intros E U d v b Hu Hv Hs. unfold u_ok, u_to_vec, u_from_slice, u_read in *. cbn [wt_ty ser_ty de_ty user_ok user_ser user_de] in *. rewrite Hu in *.
    cbn [padded c_ok c_ser c_de] in *. destruct v as [|z| | | | |]; try contradiction. cbn in Hs. inversion Hs; subst b. cbn [run].
    unfold split_at. cbn. rewrite Z2N.id by lia. reflexivity.
  - exists (ex_env (fun _ => None)), (fun n => if n =? 1 then Some padded else None), (VSeq [VInt 5; VInt 6]), [2; 5; 0; 6; 0], (VSeq [VInt 5; VInt 0]).
    split; [apply wf_ex; discriminate|]. split; [reflexivity|]. split; [left; reflexivity|]. split; [reflexivity|].
    split; [|split; [vm_compute; reflexivity|split; [vm_compute; reflexivity|discriminate]]].
    unfold u_ok. cbn [wt_ty]. repeat (split || constructor); cbn; try lia; reflexivity.
Qed.

(** With no hand-written types this is the model that the other properties are about. *)
Theorem C83_derived_only : forall E d t,
  (forall v, u_to_vec E (fun _ => None) d t v = to_vec E d t v) /\ u_read E (fun _ => None) d t = deserialize E d t
  /\ u_skip E (fun _ => None) d t = skip E d t /\ (forall v, u_ok E (fun _ => None) d t v = wt E d t v).
Proof.
  intros E d t.
  assert (H1 : user_ser E (fun _ => None) d = ser_ref E d) by (induction d as [|d IH]; [reflexivity|cbn [user_ser ser_ref]; rewrite IH; reflexivity]).
  assert (H2 : user_de E (fun _ => None) d = de_ref E d) by (clear; induction d as [|d IH]; [reflexivity|cbn [user_de de_ref]; rewrite IH; reflexivity]).
  assert (H3 : user_skip E (fun _ => None) d = sk_ref E d).
  { clear H1 H2. induction d as [|d IH]; [reflexivity|]. cbn [user_skip sk_ref]. rewrite IH.
    assert (H2 : user_de E (fun _ => None) d = de_ref E d) by (clear; induction d as [|d IH]; [reflexivity|cbn [user_de de_ref]; rewrite IH; reflexivity]).
    rewrite H2. reflexivity. }
  assert (H4 : user_ok E (fun _ => None) d = wt_ref E d) by (clear; induction d as [|d IH]; [reflexivity|cbn [user_ok wt_ref]; rewrite IH; reflexivity]).
  unfold u_to_vec, to_vec, to_writer, u_read, deserialize, u_skip, skip, u_ok, wt. rewrite H1, H2, H3, H4. auto.
Qed.

(** ** A program with all of these *)
(** A bitmap format in outline: eight bytes with the number of entries, then four bytes for each. *)
Definition bits_enc (v : val) : list wop :=
  match v with VSeq l => WAll (le_bytes 8 (len l)) :: map (fun x => match x with VInt z => WAll (le_bytes 4 (Z.to_N z)) | _ => WAll [] end) l | _ => [] end.
Definition bits_dec : prog val :=
  Read 8 EIo (fun b => l <- rep (N.to_nat (le_val b)) (Read 4 EIo (fun x => Ret (VInt (Z.of_N (le_val x))))) ;; Ret (VSeq l)).
Definition bits_ok (v : val) : Prop :=
  match v with VSeq l => len l < 2 ^ 64 /\ Forall (fun x => match x with VInt z => (0 <= z < 2 ^ 32)%Z | _ => False end) l | _ => False end.
Lemma run_read_app : forall A n e (k : bytes -> prog A) x rest, len x = n -> run (Read n e k) (x ++ rest) = run (k x) rest.
Proof. intros A n e k x rest <-. cbn [run]. rewrite split_at_app. reflexivity. Qed.
Lemma bits_rt : forall v rest, bits_ok v -> run bits_dec (out (bits_enc v) ++ rest) = Ok (v, rest).
Proof.
  intros [| | | | |l|] rest H; try contradiction. destruct H as [Hl Hf]. unfold bits_enc, bits_dec.
  cbn [out flat_map wop_bytes]. rewrite <- app_assoc, run_read_app by apply le_bytes_len.
  rewrite le_val_bytes by exact Hl. unfold len. rewrite Nat2N.id. clear Hl.
  assert (R : run (rep (length l) (Read 4 EIo (fun x => Ret (VInt (Z.of_N (le_val x))))))
    (flat_map wop_bytes (map (fun x => match x with VInt z => WAll (le_bytes 4 (Z.to_N z)) | _ => WAll [] end) l) ++ rest) = Ok (l, rest)).
  { induction Hf as [|x l Hx Hf IH]; [reflexivity|]. destruct x as [|z| | | | |]; try contradiction.
    cbn [length rep map flat_map wop_bytes]. rewrite <- app_assoc, run_bind, run_read_app by apply le_bytes_len.
    rewrite le_val_bytes; [|change (256 ^ N.of_nat 4) with (2 ^ 32); clear - Hx; lia].
    cbn [run]. rewrite Z2N.id by (clear - Hx; lia). rewrite run_bind, IH. reflexivity. }
  rewrite run_bind, R. reflexivity.
Qed.
(** C83.  Implementations that stay as they are from one program to the next read old data whose inner types have been
    edited: the inner values are migrated. *)
Theorem C83_kept : forall n m enc dec (ok : val -> Prop),
  reads_as (my_type n) (my_type n) (fun mig v => mig n v)
  /\ reads_as (two_fields n m) (two_fields n m)
       (fun mig v => match v with VPair a b => rbind (mig n a) (fun a' => rmap (fun b' => VPair a' b') (mig m b)) | _ => ty_err end)
  /\ ((forall v rest, ok v -> run dec (out (enc v) ++ rest) = Ok (v, rest)) ->
      reads_as (foreign enc dec ok) (foreign enc dec ok) (fun _ v => Ok v)).
Proof.
  intros n m enc dec ok. repeat split.
  - intros si di mi oki H v ops rest Hv Ho. exact (H n v ops rest Hv Ho).
  - intros si di mi oki H v ops rest Hv Ho. cbn [two_fields c_ok c_ser c_de] in *. destruct v as [| | | |a b| |]; try contradiction.
    destruct Hv as [Ha Hb]. apply sbind_ok in Ho. destruct Ho as (la & lb & H1 & H2 & ->).
    rewrite out_app, <- app_assoc, run_bind, (H n a la _ Ha H1). destruct (mi n a) as [a'|e|x]; cbn [rmap rbind]; try reflexivity.
    rewrite run_bind, (H m b lb _ Hb H2). destruct (mi m b) as [b'|e|x]; reflexivity.
  - intros H si di mi oki _ v ops rest Hv Ho. cbn [foreign c_ok c_ser c_de] in *. inversion Ho; subst ops. rewrite run_map_err, (H v rest Hv). reflexivity.
Qed.

(** Type 1 is a derived struct of a bitmap and a byte, type 2 the bitmap, type 3 a pair of a struct and a bitmap written by
    hand, type 4 the documented wrapper around it.  In the second program the struct has a third field. *)
Definition row1 : schema := mkSchema [leg] (SStruct [fld (TRef 2) 1 None; fld (TInt U8) 1 None]).
Definition row2 : schema := mkSchema [leg; leg]
  (SStruct [fld (TRef 2) 1 None; fld (TInt U8) 1 None; mkField TBool 2 None (dflt (VBool true)) keep false false INone]).
Definition mixed (n : N) : option codec :=
  if n =? 2 then Some (foreign bits_enc bits_dec bits_ok) else if n =? 3 then Some (two_fields 1 2) else if n =? 4 then Some (my_type 3) else None.
Definition mixed_m (n : N) (mig : N -> val -> res val) (v : val) : res val :=
  if n =? 3 then match v with VPair a b => rbind (mig 1 a) (fun a' => rmap (fun b' => VPair a' b') (mig 2 b)) | _ => ty_err end
  else if n =? 4 then mig 3 v else Ok v.
Lemma mixed_fits : (forall n c, mixed n = Some c -> reads_back c /\ (forall M, skips_alike M c) /\ reads_as c c (mixed_m n)).
Proof.
  intros n c H. unfold mixed in H. unfold mixed_m.
  destruct (N.eqb_spec n 2) as [->|]; [inversion H; subst c|].
  { destruct (C83_bitmaps bits_enc bits_dec bits_ok bits_rt) as [A B]. repeat split; auto. exact (proj2 (proj2 (C83_kept 0 0 bits_enc bits_dec bits_ok)) bits_rt). }
  destruct (n =? 3); [inversion H; subst c|].
  { destruct (C83_documented 1 2) as [_ [A B]]. repeat split; auto. exact (proj1 (proj2 (C83_kept 1 2 bits_enc bits_dec bits_ok))). }
  destruct (n =? 4); [inversion H; subst c|discriminate].
  destruct (C83_documented 3 2) as [[A B] _]. repeat split; auto. exact (proj1 (C83_kept 3 2 bits_enc bits_dec bits_ok)).
Qed.
Definition a_bits (l : list N) : val := VSeq (map (fun x => VInt (Z.of_N x)) l).
Definition a_list : val := VSeq [VPair (VSeq [a_bits [7; 300]; VInt 9]) (a_bits []); VPair (VSeq [a_bits []; VInt 255]) (a_bits [1])].
Definition a_bytes : bytes :=
  [2; 1; 2; 0; 0; 0; 0; 0; 0; 0; 7; 0; 0; 0; 44; 1; 0; 0; 9; 0; 0; 0; 0; 0; 0; 0; 0;
   1; 0; 0; 0; 0; 0; 0; 0; 0; 255; 1; 0; 0; 0; 0; 0; 0; 0; 1; 0; 0; 0].
Example C83_case :
  wf_env (only row1) /\ wf_env (only row2) /\ later (only row1) (only row2) /\ opt_safe (only row1) (only row2)
  /\ e_mem (only row2) = None /\ u_sizes_honest (only row1) mixed
  /\ u_ok (only row1) mixed 4 (TVec (TRef 4)) a_list /\ u_to_vec (only row1) mixed 4 (TVec (TRef 4)) a_list = Ok a_bytes
  /\ u_from_slice (only row1) mixed 4 (TVec (TRef 4)) a_bytes = Ok a_list
  /\ run (u_skip (only row1) mixed 4 (TVec (TRef 4))) (a_bytes ++ [5]) = Ok (tt, [5])
  /\ u_migrate (only row1) (only row2) mixed mixed_m 4 (TVec (TRef 4)) a_list
     = Ok (VSeq [VPair (VSeq [a_bits [7; 300]; VInt 9; VBool true]) (a_bits []); VPair (VSeq [a_bits []; VInt 255; VBool true]) (a_bits [1])]).
Proof.
  split; [apply wf_only; vm_compute; reflexivity|]. split; [apply wf_only; vm_compute; reflexivity|].
  split.
  { apply rt_step. repeat split. intros n t Hn. cbn in Hn |- *. destruct (n =? 1); [|discriminate]. inversion Hn; subst. eexists. split; [reflexivity|].
    split; [exists [leg]; reflexivity|]. repeat (apply ef_keep; [repeat split; left; reflexivity|]). apply ef_add; [vm_compute; reflexivity|constructor]. }
  split.
  { intros n s s' h Hn Hn' Hs Ho. cbn in Hn. destruct (n =? 1); [|discriminate]. inversion Hn; subst. cbn in Hs. inversion Hs; subst. discriminate. }
  split; [reflexivity|]. split; [left; reflexivity|].
  split.
  { unfold u_ok. cbn [wt_ty a_list]. split; [vm_compute; reflexivity|]. split; [exact I|].
    repeat (apply Forall_cons || apply Forall_nil); cbn [wt_ty];
      cbn -[len N.lt Z.lt Z.le]; (split; [constructor; [|constructor; [|constructor]]|]); cbn -[len N.lt Z.lt Z.le];
      try (split; [vm_compute; reflexivity|repeat (apply Forall_cons || apply Forall_nil); vm_compute; split; congruence]);
      vm_compute; split; congruence. }
  repeat split; vm_compute; reflexivity.
Qed.
(** A bitmap cut off in the middle, alone: the error is not [Io]. *)
Example C83_case_cut : u_from_slice (only row1) mixed 1 (TRef 2) [1; 0; 0; 0] = Err (EDeserialize MInner).
Proof. vm_compute. reflexivity. Qed.

Print Assumptions C83_round_trip.
Print Assumptions C83_no_prefix.
Print Assumptions C83_injective.
Print Assumptions C83_later.
Print Assumptions C83_skip.
Print Assumptions C83_bitmaps.
Print Assumptions C83_bitmap_errors.
Print Assumptions C83_documented.
Print Assumptions C83_kept.
Print Assumptions C83_alone_refuted.
Print Assumptions C83_derived_only.
