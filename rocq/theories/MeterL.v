(** The metered decoders: same results, and a bound on the sum.  Proofs. *)

From Verif Require Import Base BaseL Prog ProgL Prim PrimL Utf8 Tag Ty Ser De Typed RtL Agree Users Size Yield SizeL MemL Meter.
From Coq Require Import List NArith ZArith Bool Lia.
Import ListNotations.
Open Scope N_scope.

(** ** The meter does not change what is decoded *)
Definition unmeter {A} (r : res (A * N * bytes)) : res (A * bytes) := rmap (fun x => (fst (fst x), snd x)) r.
Definition same {A} (m : mprog A) (p : prog A) : Prop := forall bs, unmeter (run m bs) = run p bs.

Lemma same_bind : forall A B (m : mprog A) p (f : A -> mprog B) g, same m p -> (forall a, same (f a) (g a)) -> same (mbind m f) (bind p g).
Proof.
  intros A B m p f g Hm Hf bs. unfold mbind. rewrite !run_bind. specialize (Hm bs). destruct (run m bs) as [[[a c] r]|e|x]; cbn in Hm; rewrite <- Hm; try reflexivity.
  rewrite run_bind. specialize (Hf a r). cbn [fst snd]. destruct (run (f a) r) as [[[b c'] r']|e|x]; cbn in Hf; rewrite <- Hf; reflexivity.
Qed.
Lemma same_ret : forall A (a : A), same (mret a) (Ret a).
Proof. intros A a bs. reflexivity. Qed.
Lemma same_free : forall A (p : prog A), same (free p) p.
Proof. intros A p bs. unfold free. rewrite run_bind. destruct (run p bs) as [[a r]|e|x]; reflexivity. Qed.
Lemma same_fail : forall A e, same (Fail e : mprog A) (Fail e).
Proof. intros A e bs. reflexivity. Qed.
Lemma same_crash : forall A x, same (Crash x : mprog A) (Crash x).
Proof. intros A x bs. reflexivity. Qed.
Lemma same_ask : forall E n, same (ask E n) (alloc E n).
Proof. intros E n bs. unfold ask, alloc. destruct (e_mem E) as [m|]; [destruct (n <=? m)|]; reflexivity. Qed.
Lemma same_rep : forall A n (m : mprog A) p, same m p -> same (mrep n m) (rep n p).
Proof.
  intros A n m p H. induction n as [|n IH]; cbn [mrep rep]; [apply same_ret|]. apply same_bind; [exact H|]. intros a. apply same_bind; [exact IH|]. intros l. apply same_ret.
Qed.
Lemma same_map : forall A B (g : A -> B) (m : mprog A) p, same m p -> same (mmap g m) (x <- p ;; Ret (g x)).
Proof. intros A B g m p H. apply same_bind; [exact H|]. intros a. apply same_ret. Qed.
Lemma same_map_err : forall A h (m : mprog A) p, same m p -> same (map_err h m) (map_err h p).
Proof. intros A h m p H bs. rewrite !run_map_err. specialize (H bs). destruct (run m bs) as [[[a c] r]|e|x]; cbn in H; rewrite <- H; reflexivity. Qed.
Lemma same_in_buf : forall A (m : mprog A) p buf, same m p -> same (in_buf m buf) (in_buf p buf).
Proof. intros A m p buf H bs. unfold in_buf. rewrite !run_of_res. specialize (H buf). destruct (run m buf) as [[[a c] r]|e|x]; cbn in H; rewrite <- H; reflexivity. Qed.

Ltac sm := repeat first
  [ apply same_free | apply same_ret | apply same_fail | apply same_crash | apply same_ask | assumption
  | apply same_map | apply same_map_err | apply same_rep | apply same_in_buf
  | match goal with |- same (if ?c then _ else _) (if ?c then _ else _) => destruct c end
  | apply same_bind; [|intros ?] ].
Section De.
Variable E : env.
Lemma same_str : same (md_str E) (de_str E).
Proof. unfold md_str, de_str. sm. Qed.
Lemma same_blob : same (md_blob E) (de_blob E).
Proof. unfold md_blob, de_blob. sm. Qed.
Lemma same_bulk : forall k, same (md_bulk E k) (de_bulk E k).
Proof. intros k. unfold md_bulk, de_bulk. apply same_bind; [apply same_free|intros n]. destruct (n =? 0); [apply same_ret|]. destruct k as [| |[]]; sm. Qed.
Lemma same_seq : forall sz m p, same m p -> same (md_seq E sz m) (de_seq E sz p).
Proof. intros sz m p H. unfold md_seq, de_seq. sm. Qed.
Lemma same_entry : forall m p m' p', same m p -> same m' p' -> same (md_entry m m') (de_entry p p').
Proof. intros. unfold md_entry, de_entry. sm. Qed.
Section Rec.
Variables (mrec : N -> mprog val) (rec : N -> prog val).
Hypothesis Hrec : forall n, same (mrec n) (rec n).
Lemma same_ty : forall t, same (md_ty E mrec t) (de_ty E rec t).
Proof.
  induction t as [|i| | | | | | | | | |a IHa b IHb|t IH|t IH|n t IH|t IH|a IHa b IHb|t IH|k a IHa b IHb|k t IH|t IH|t IH| | |c m t IH|n]; cbn [md_ty de_ty];
    try (apply same_free); try apply same_str; try (apply same_map, same_blob); try (apply same_entry; assumption); try (apply same_map, same_seq; assumption); try exact IH; try apply Hrec.
  - destruct (if e_spec E then bulk_of t else None) as [k|]; apply same_map; [apply same_bulk|apply same_seq, IH].
  - sm.
  - sm.
  - sm.
  - sm.
  - apply same_map, same_seq, same_entry; assumption.
  - apply same_bind; [exact IH|]. intros x. destruct (e_ext E c x); sm.
Qed.
Lemma same_idx_seq : forall a, same (md_idx_seq E a (md_ty E mrec a)) (de_idx_seq E a (de_ty E rec a)).
Proof. intros a. pose proof (same_ty a). unfold md_idx_seq, de_idx_seq. sm. Qed.
Lemma same_idx_map : forall k a b, same (md_idx_map E k a b (md_ty E mrec a) (md_ty E mrec b)) (de_idx_map E k a b (de_ty E rec a) (de_ty E rec b)).
Proof.
  intros k a b. pose proof (same_ty a). pose proof (same_ty b). unfold md_idx_map, de_idx_map.
  apply same_bind; [sm|intros fl]. apply same_bind; [sm|intros n]. apply same_bind; [destruct k; sm|intros _].
  destruct (_ =? _); [apply same_map, same_rep, same_entry; assumption|]. sm.
Qed.
Lemma same_mode : forall m t, same (md_mode E mrec m t) (de_mode E rec m t).
Proof.
  intros m t. destruct m; cbn [md_mode de_mode]; try apply same_ty.
  - destruct (fixed_of t) as [[s w]|]; sm.
  - destruct t; try apply same_crash. destruct (bulk_of t); [apply same_map, same_bulk|apply same_crash].
  - destruct t; try apply same_crash. apply same_map, same_idx_map.
  - destruct t; try apply same_crash; apply same_map, same_idx_seq.
  - destruct t; try apply same_crash. apply same_map, same_idx_seq.
Qed.
Lemma same_fields : forall opt cur tgt fs, same (md_fields E mrec opt cur tgt fs) (de_fields E rec opt cur tgt fs).
Proof.
  intros opt cur tgt fs. induction fs as [|f fs IH]; cbn [md_fields de_fields]; [apply same_ret|].
  destruct (falive cur f), (falive tgt f); try exact IH; (apply same_bind; [first [apply same_mode|apply same_free]|intros v; sm]).
Qed.
Lemma same_vfields : forall cur fs, same (md_vfields E mrec cur fs) (de_vfields E rec cur fs).
Proof.
  intros cur fs. induction fs as [|f fs IH]; cbn [md_vfields de_vfields]; [apply same_ret|].
  destruct (falive cur f); [|exact IH]. apply same_bind; [apply same_ty|intros v; sm].
Qed.
Lemma same_derived : forall s, same (md_derived E mrec s) (de_derived E rec s).
Proof.
  intros s. unfold md_derived, de_derived. apply same_bind; [sm|intros r]. unfold de_body. destruct (sent s r) as [h|]; [|sm].
  destruct (s_body s) as [fs|vs]; destruct (h_opt h).
  - unfold md_struct_opt, de_struct_opt, struct_payload, md_struct. sm; apply same_fields.
  - apply same_bind; [apply same_fields|intros p; sm].
  - unfold md_enum_opt, de_enum_opt, de_variant_opt. destruct (calc_disc r vs) as [ds|]; [|sm]. apply same_bind; [sm|intros ts].
    destruct (find_tag _ _ _) as [[vr d]|]; [|sm]. apply same_bind.
    + unfold md_buf, variant_buf. destruct (v_size vr) as [[]|]; sm.
    + intros buf. apply same_bind; [apply same_in_buf, same_vfields|intros l; sm].
  - unfold md_enum_legacy, de_enum_legacy, de_variant_legacy. destruct (calc_disc r vs) as [ds|]; [|sm]. apply same_bind; [sm|intros ts].
    destruct (find_disc _ _) as [[vr d]|]; [|sm]. apply same_bind; [apply same_fields|intros p]. apply same_bind; [sm|intros l; sm].
Qed.
End Rec.
Lemma same_ref : forall d n, same (md_ref E d n) (de_ref E d n).
Proof.
  induction d as [|d IH]; intros n; cbn [md_ref de_ref]; [apply same_crash|]. destruct (e_sch E n); [apply same_derived, IH|apply same_crash].
Qed.
Lemma same_metered : forall d t, same (metered E d t) (deserialize E d t).
Proof. intros d t. apply same_ty, same_ref. Qed.
End De.

(** ** The sum of all requests *)
Section Paid0.
Variable B : N.
(** Requests and a reserve [r], paid for by the bytes consumed. *)
Definition paid {A} (r : N) (m : mprog A) : Prop :=
  forall bs a c rest, run m bs = Ok ((a, c), rest) -> c + r <= B * (len bs - len rest).

Lemma mbind_inv : forall A C (m : mprog A) (f : A -> mprog C) bs b c rest, run (mbind m f) bs = Ok ((b, c), rest) ->
  exists a c1 y c2, run m bs = Ok ((a, c1), y) /\ run (f a) y = Ok ((b, c2), rest) /\ c = c1 + c2.
Proof.
  intros A C m f bs b c rest H. unfold mbind in H. rewrite run_bind in H. destruct (run m bs) as [[[a c1] y]|e|x]; try discriminate. cbn [fst snd] in H.
  rewrite run_bind in H. destruct (run (f a) y) as [[[b' c2] y']|e|x] eqn:E2; try discriminate. cbn [run fst snd] in H. apply Ok_inj in H. inversion H; subst.
  exists a, c1, y, c2. auto.
Qed.
Lemma run_le : forall A (p : prog A) bs a rest, run p bs = Ok (a, rest) -> len rest <= len bs.
Proof. intros A p bs a rest H. apply run_len in H. exact H. Qed.
Lemma spent : forall a b c, c <= b -> b <= a -> B * (a - b) + B * (b - c) = B * (a - c).
Proof. intros a b c H1 H3. rewrite <- N.mul_add_distr_l. f_equal. lia. Qed.
Lemma paid_bind : forall A C r1 r2 (m : mprog A) (f : A -> mprog C), paid r1 m -> (forall a, paid r2 (f a)) -> paid (r1 + r2) (mbind m f).
Proof.
  intros A C r1 r2 m f Hm Hf bs b c rest H. apply mbind_inv in H. destruct H as (a & c1 & y & c2 & E1 & E2 & ->).
  specialize (Hm _ _ _ _ E1). specialize (Hf _ _ _ _ _ E2). pose proof (spent _ _ _ (run_le _ _ _ _ _ E2) (run_le _ _ _ _ _ E1)). lia.
Qed.
Lemma paid_less : forall A r r' (m : mprog A), paid r m -> r' <= r -> paid r' m.
Proof. intros A r r' m H Hr bs a c rest E. specialize (H _ _ _ _ E). lia. Qed.
Lemma paid_then : forall A C r (m : mprog A) (f : A -> mprog C), paid 0 m -> (forall a, paid r (f a)) -> paid r (mbind m f).
Proof. intros A C r m f Hm Hf. apply (paid_less _ (0 + r)); [apply paid_bind; assumption|lia]. Qed.
Lemma paid_first : forall A C r (m : mprog A) (f : A -> mprog C), paid r m -> (forall a, paid 0 (f a)) -> paid r (mbind m f).
Proof. intros A C r m f Hm Hf. apply (paid_less _ (r + 0)); [apply paid_bind; assumption|lia]. Qed.
Lemma paid_ret : forall A (a : A), paid 0 (mret a).
Proof. intros A a bs b c rest H. apply Ok_inj in H. inversion H; subst. lia. Qed.
Lemma paid_fail : forall A r e, paid r (Fail e : mprog A).
Proof. intros A r e bs b c rest H. discriminate. Qed.
Lemma paid_crash : forall A r x, paid r (Crash x : mprog A).
Proof. intros A r x bs b c rest H. discriminate. Qed.
Lemma free_inv : forall A (p : prog A) bs a c rest, run (free p) bs = Ok ((a, c), rest) -> run p bs = Ok (a, rest) /\ c = 0.
Proof.
  intros A p bs a c rest H. unfold free in H. rewrite run_bind in H. destruct (run p bs) as [[x y]|e|x]; try discriminate. apply Ok_inj in H. inversion H; subst. auto.
Qed.
Lemma paid_free : forall A (p : prog A), paid 0 (free p).
Proof. intros A p bs a c rest H. apply free_inv in H. destruct H as [_ ->]. apply N.le_0_l. Qed.
(** A part that consumes something pays a full reserve. *)
Lemma paid_eats : forall A r (p : prog A), eats p -> r <= B -> paid r (free p).
Proof.
  intros A r p He Hr bs a c rest H. apply free_inv in H. destruct H as [H ->]. apply He in H. etransitivity; [|apply (N.mul_le_mono_l 1 (len bs - len rest) B); lia]. lia.
Qed.
Lemma paid_map : forall A C r (g : A -> C) (m : mprog A), paid r m -> paid r (mmap g m).
Proof. intros A C r g m H. apply paid_first; [exact H|]. intros a. apply paid_ret. Qed.
Lemma paid_map_err : forall A r h (m : mprog A), paid r m -> paid r (map_err h m).
Proof.
  intros A r h m H bs a c rest E. rewrite run_map_err in E. destruct (run m bs) as [[x y]|e|x] eqn:E1; try discriminate. cbn in E. apply Ok_inj in E. inversion E; subst.
  exact (H _ _ _ _ E1).
Qed.
Lemma paid_rep : forall A n r (m : mprog A), paid r m -> paid (N.of_nat n * r) (mrep n m).
Proof.
  intros A n r m H. induction n as [|n IH]; cbn [mrep]; [apply paid_ret|]. apply (paid_less _ (r + N.of_nat n * r)); [|lia].
  apply paid_bind; [exact H|]. intros a. apply (paid_first _ _ _ _ (fun l => mret (a :: l)) IH). intros l. apply paid_ret.
Qed.
Lemma paid_rep0 : forall A n (m : mprog A), paid 0 m -> paid 0 (mrep n m).
Proof. intros A n m H. apply (paid_less _ (N.of_nat n * 0)); [apply paid_rep, H|lia]. Qed.
(** A request, with what follows having put aside as much. *)
Lemma paid_ask : forall E A n r (m : mprog A), paid (n + r) m -> paid r (mbind (ask E n) (fun _ => m)).
Proof.
  intros E A n r m H bs a c rest E1. apply mbind_inv in E1. destruct E1 as (u & c1 & y & c2 & E1 & E2 & ->).
  assert (Hy : y = bs /\ c1 = n).
  { unfold ask, alloc in E1. destruct (e_mem E) as [q|]; [destruct (n <=? q); [|discriminate]|]; apply Ok_inj in E1; inversion E1; auto. }
  destruct Hy as [-> ->]. specialize (H _ _ _ _ E2). lia.
Qed.
Lemma paid_any : forall A r (m : mprog A), paid r m -> paid 0 m.
Proof. intros A r m H. apply (paid_less _ r); [exact H|lia]. Qed.
End Paid0.

Section Paid.
Variables (B G : N).
Hypothesis H9 : 9 <= B.
Hypothesis H2 : 2 * G <= B.
Notation paid := (paid B) (only parsing).
Lemma paid_read : forall n r, r <= 9 * n -> paid r (free (read_n n)).
Proof.
  intros n r Hr bs a c rest H. apply free_inv in H. destruct H as [H ->]. apply run_read_n_ok in H. destruct H as [-> Hn]. rewrite len_app.
  replace (len a + len rest - len rest) with n by lia. etransitivity; [|apply N.mul_le_mono_r, H9]. lia.
Qed.

Variable E : env.
Hypothesis Hroom : roomy E G.
Definition reserve (t : ty) : N := if zero_width t then 0 else 2 * G.
Lemma reserve_le : forall t, reserve t <= B.
Proof. intros t. unfold reserve. destruct (zero_width t); lia. Qed.
Lemma size_le : forall t, e_esize E t <= reserve t.
Proof. intros t. unfold reserve. pose proof (Hroom t) as H. destruct (zero_width t); lia. Qed.

Lemma paid_str : paid (2 * G) (md_str E).
Proof.
  unfold md_str. apply paid_first; [apply paid_eats; [apply eats_len|exact H2]|]. intros n. destruct (n =? 0); [apply paid_ret|].
  apply paid_ask. apply paid_first; [apply paid_read; lia|]. intros x. destruct (utf8_ok x); [apply paid_ret|apply paid_fail].
Qed.
Lemma paid_blob : paid (2 * G) (md_blob E).
Proof.
  unfold md_blob. apply paid_first; [apply paid_eats; [apply eats_len|exact H2]|]. intros n. destruct (n =? 0); [apply paid_ret|].
  apply paid_ask. apply paid_read; lia.
Qed.
Lemma paid_raw : forall n g, paid (n * 16) (free (rep (N.to_nat n) (x <- read_n 16 ;; Ret (VBytes (g x))))).
Proof.
  intros n g bs a c rest H. apply free_inv in H. destruct H as [H ->].
  assert (HH : forall m bs a r, run (rep m (x <- read_n 16 ;; Ret (VBytes (g x)))) bs = Ok (a, r) -> N.of_nat m * 16 + len r <= len bs).
  { clear. induction m as [|m IH]; intros bs a r H; [cbn in H; apply Ok_inj in H; inversion H; subst; lia|].
    cbn [rep] in H. rewrite run_bind in H. destruct (run (x <- read_n 16 ;; Ret (VBytes (g x))) bs) as [[x y]|e|p] eqn:E1; try discriminate.
    rewrite run_bind in H. destruct (run (rep m (x0 <- read_n 16;; Ret (VBytes (g x0)))) y) as [[x' y']|e|p] eqn:E2; try discriminate.
    apply Ok_inj in H. inversion H; subst. apply IH in E2. rewrite run_bind in E1.
    destruct (run (read_n 16) bs) as [[b z]|e|p] eqn:E4; try discriminate. apply Ok_inj in E1. inversion E1; subst.
    apply run_read_n_ok in E4. destruct E4 as [-> El]. rewrite len_app, El. lia. }
  apply HH in H. rewrite N2Nat.id in H. etransitivity; [|apply N.mul_le_mono_r, H9]. lia.
Qed.
Lemma ceil8_le : forall n, n <= 8 * div_ceil8 n.
Proof. clear. intros n. unfold div_ceil8. pose proof (N.div_mod (n + 7) 8). pose proof (N.mod_lt (n + 7) 8). lia. Qed.
Lemma paid_bulk : forall k, paid (2 * G) (md_bulk E k).
Proof.
  intros k. unfold md_bulk. apply paid_first; [apply paid_eats; [apply eats_len|exact H2]|]. intros n. destruct (n =? 0); [apply paid_ret|]. destruct k as [|s w|[]].
  - pose proof (ceil8_le n) as Hc. set (q := div_ceil8 n) in *. clearbody q. apply paid_ask. intros bs a c rest H. apply mbind_inv in H. destruct H as (x & c1 & y & c2 & E1 & E2 & ->).
    apply mbind_inv in E2. destruct E2 as (u & c3 & z & c4 & E3 & E4 & ->). apply Ok_inj in E4. inversion E4; subst.
    assert (Hz : rest = y /\ c3 = n).
    { unfold ask, alloc in E3. destruct (e_mem E) as [q'|]; [destruct (n <=? q'); [|discriminate]|]; apply Ok_inj in E3; inversion E3; auto. }
    destruct Hz as [-> ->]. assert (HL : q + n <= 9 * q) by lia. pose proof (paid_read q (q + n) HL _ _ _ _ E1) as HR. lia.
  - destruct (_ <? _); [|apply paid_fail]. apply paid_ask. apply paid_first; [apply paid_read; lia|]. intros x. apply paid_ret.
  - apply paid_ask. rewrite N.add_0_r. apply paid_raw.
  - destruct (_ <? _); [|apply paid_fail]. apply paid_ask. apply paid_first; [apply paid_read; lia|]. intros x. apply paid_ret.
Qed.
Lemma paid_elems : forall A t n (m : mprog A), paid (reserve t) m -> paid (n * e_esize E t) (mrep (N.to_nat n) m).
Proof.
  intros A t n m H. apply (paid_less B _ (N.of_nat (N.to_nat n) * reserve t)); [apply paid_rep, H|]. rewrite N2Nat.id. apply N.mul_le_mono_l, size_le.
Qed.
Lemma paid_seq : forall t m, paid (reserve t) m -> paid (2 * G) (md_seq E (e_esize E t) m).
Proof.
  intros t m H. unfold md_seq. apply paid_first; [apply paid_eats; [apply eats_len|exact H2]|]. intros n. destruct (n =? 0); [apply paid_ret|].
  apply paid_ask. rewrite N.add_0_r. apply paid_elems, H.
Qed.
Lemma paid_entry : forall a b da db, paid (reserve a) da -> paid (reserve b) db -> paid (reserve a + reserve b) (md_entry da db).
Proof.
  intros a b da db Ha Hb. unfold md_entry. apply paid_bind; [exact Ha|]. intros k. apply (paid_first B _ _ _ _ (fun v => mret (VPair k v)) Hb). intros v. apply paid_ret.
Qed.
Lemma reserve_pair : forall a b, reserve (TPair a b) <= reserve a + reserve b.
Proof. intros a b. unfold reserve. cbn [zero_width]. destruct (zero_width a), (zero_width b); cbn [andb]; lia. Qed.
Lemma paid_pair : forall a b da db, paid (reserve a) da -> paid (reserve b) db -> paid (reserve (TPair a b)) (md_entry da db).
Proof. intros a b da db Ha Hb. apply (paid_less B _ (reserve a + reserve b)); [apply paid_entry; assumption|apply reserve_pair]. Qed.

Section Rec.
Variable rec : N -> mprog val.
Hypothesis Hrec : forall n, paid (2 * G) (rec n).
Lemma paid_2G : forall A t (m : mprog A), paid (2 * G) m -> paid (reserve t) m.
Proof. intros A t m H. apply (paid_less B _ (2 * G)); [exact H|]. unfold reserve. destruct (zero_width t); lia. Qed.
Lemma paid_ty : forall t, paid (reserve t) (md_ty E rec t).
Proof.
  induction t as [|i| | | | | | | | | |a IHa b IHb|t IH|t IH|n t IH|t IH|a IHa b IHb|t IH|k a IHa b IHb|k t IH|t IH|t IH| | |c m t IH|n]; cbn [md_ty];
    try (apply paid_2G, paid_eats; [|exact H2]; cbn [de_ty]; first [apply eats_bind, eats_read_byte|apply eats_bind, eats_int|apply eats_bind, eats_char|apply eats_bind, eats_read_n; reflexivity]).
  - apply paid_2G, paid_str.
  - apply paid_2G, paid_str.
  - apply paid_2G, paid_map, paid_blob.
  - apply paid_free.
  - apply paid_pair; assumption.
  - apply paid_2G. destruct (if e_spec E then bulk_of t else None) as [k|]; apply paid_map; [apply paid_bulk|apply paid_seq, IH].
  - apply paid_2G, paid_map, paid_seq, IH.
  - apply paid_map. unfold reserve. cbn [zero_width]. destruct n as [|n]; [apply paid_ret|]. cbn [Nat.eqb orb].
    apply (paid_less B _ (N.of_nat (S n) * reserve t)); [apply paid_rep, IH|]. unfold reserve. destruct (zero_width t); lia.
  - apply paid_2G, paid_first; [apply paid_eats; [apply eats_read_byte|exact H2]|]. intros b. destruct (b =? 0); [apply paid_ret|].
    destruct (b =? 1); [|apply paid_fail]. apply (paid_less B _ (reserve t)); [apply paid_map, IH|lia].
  - apply paid_2G, paid_first; [apply paid_eats; [apply eats_u32|exact H2]|]. intros d. destruct (d =? 0); [|destruct (d =? 1); [|apply paid_fail]].
    + apply (paid_less B _ (reserve a)); [apply paid_map, paid_map_err, IHa|lia].
    + apply (paid_less B _ (reserve b)); [apply paid_map, paid_map_err, IHb|lia].
  - apply paid_2G, paid_first; [apply paid_eats; [apply eats_u32|exact H2]|]. intros d. destruct (d =? 0); [apply paid_ret|].
    destruct (d =? 1); [|destruct (d =? 2); [|apply paid_fail]]; (apply (paid_less B _ (reserve t)); [apply paid_map, paid_map_err, IH|lia]).
  - apply paid_2G, paid_map, (paid_seq (TPair a b)), paid_pair; assumption.
  - apply paid_2G, paid_map, paid_seq, IH.
  - apply paid_2G, paid_map, paid_seq, IH.
  - exact IH.
  - change (reserve (TExt c m t)) with (reserve t). apply paid_first; [exact IH|]. intros x. destruct (e_ext E c x); [apply paid_ret|apply paid_fail].
  - apply paid_2G, Hrec.
Qed.
Lemma paid_idx_seq : forall a, paid 0 (md_idx_seq E a (md_ty E rec a)).
Proof.
  intros a. unfold md_idx_seq. apply paid_then; [apply paid_free|intros fl]. apply paid_then; [apply paid_free|intros n].
  assert (H : paid 0 (mbind (ask E (n * e_esize E a)) (fun _ => mrep (N.to_nat n) (md_ty E rec a)))).
  { apply paid_ask. rewrite N.add_0_r. apply paid_elems, paid_ty. }
  destruct (_ =? _); [exact H|]. destruct (_ <? _); [|apply paid_fail]. apply paid_then; [apply paid_free|intros _]. exact H.
Qed.
Lemma paid_idx_map : forall k a b, paid 0 (md_idx_map E k a b (md_ty E rec a) (md_ty E rec b)).
Proof.
  intros k a b. unfold md_idx_map. apply paid_then; [apply paid_free|intros fl]. apply paid_then; [apply paid_free|intros n].
  match goal with |- paid 0 (mbind _ (fun _ => ?x)) => assert (H : paid (n * e_esize E (TPair a b)) x) end.
  - destruct (_ =? _).
    + apply paid_map, paid_elems, paid_pair; apply paid_ty.
    + destruct (_ <? _); [|apply paid_fail]. apply paid_then; [apply paid_free|intros m]. apply paid_then; [apply paid_free|intros _].
      apply paid_ask. apply (paid_less B _ (N.of_nat (N.to_nat n) * reserve a + (N.of_nat (N.to_nat n) * reserve b - n * e_esize E b))).
      * apply paid_bind; [apply paid_rep, paid_ty|]. intros ks. apply paid_ask. apply paid_first; [|intros vs; apply paid_ret].
        apply (paid_less B _ (N.of_nat (N.to_nat n) * reserve b)); [apply paid_rep, paid_ty|]. rewrite N2Nat.id. pose proof (N.mul_le_mono_l _ _ n (size_le b)). lia.
      * rewrite N2Nat.id. pose proof (Hroom (TPair a b)) as HP. pose proof (Hroom a) as HA. pose proof (Hroom b) as HB. unfold reserve. cbn [zero_width] in HP.
        destruct (zero_width a), (zero_width b); cbn [andb] in HP; rewrite ?HP, ?HA, ?HB, ?N.mul_0_r; try lia.
        -- pose proof (N.mul_le_mono_l _ _ n HP). pose proof (N.mul_le_mono_l _ _ n HB). replace (n * (2 * G)) with (n * G + n * G) by lia. lia.
        -- pose proof (N.mul_le_mono_l _ _ n HP). pose proof (N.mul_le_mono_l _ _ n HA). replace (n * (2 * G)) with (n * G + n * G) by lia. lia.
        -- pose proof (N.mul_le_mono_l _ _ n HP). pose proof (N.mul_le_mono_l _ _ n HA). pose proof (N.mul_le_mono_l _ _ n HB). replace (n * (2 * G)) with (n * G + n * G) by lia. lia.
  - destruct k.
    + apply paid_ask. rewrite N.add_0_r. exact H.
    + apply paid_then; [apply paid_ret|intros _]. exact (paid_any B _ _ _ H).
Qed.
Lemma paid_mode : forall m t, paid 0 (md_mode E rec m t).
Proof.
  intros m t. destruct m; cbn [md_mode]; try (apply (paid_any B _ (reserve t)), paid_ty).
  - destruct (fixed_of t) as [[s w]|]; [apply paid_free|apply paid_crash].
  - destruct t; try apply paid_crash. destruct (bulk_of t); [apply paid_map, (paid_any B _ (2 * G)), paid_bulk|apply paid_crash].
  - destruct t; try apply paid_crash. apply paid_map, paid_idx_map.
  - destruct t; try apply paid_crash; apply paid_map, paid_idx_seq.
  - destruct t; try apply paid_crash. apply paid_map, paid_idx_seq.
Qed.
Lemma paid_fields : forall opt cur tgt fs, paid 0 (md_fields E rec opt cur tgt fs).
Proof.
  intros opt cur tgt fs. induction fs as [|f fs IH]; cbn [md_fields]; [apply paid_ret|].
  destruct (falive cur f), (falive tgt f); try exact IH;
    (apply paid_then; [first [apply paid_mode|apply paid_free]|intros v; apply paid_then; [exact IH|intros p; apply paid_ret]]).
Qed.
Lemma paid_vfields : forall cur fs, paid 0 (md_vfields E rec cur fs).
Proof.
  intros cur fs. induction fs as [|f fs IH]; cbn [md_vfields]; [apply paid_ret|]. destruct (falive cur f); [|exact IH].
  apply paid_then; [apply (paid_any B _ (reserve (f_ty f))), paid_ty|intros v; apply paid_then; [exact IH|intros p; apply paid_ret]].
Qed.
Lemma paid_struct : forall opt cur tgt fs, paid 0 (md_struct E rec opt cur tgt fs).
Proof. intros opt cur tgt fs. apply paid_then; [apply paid_fields|intros p]. apply paid_then; [apply paid_free|intros l]. apply paid_ret. Qed.
End Rec.
End Paid.

(** A buffer costs its length once more at every level of optimised types. *)
Lemma paid_up : forall B B' A r (m : mprog A), paid B r m -> B <= B' -> paid B' r m.
Proof. intros B B' A r m H HB bs a c rest E. specialize (H _ _ _ _ E). etransitivity; [exact H|]. apply N.mul_le_mono_r, HB. Qed.
Lemma in_buf_inv : forall B A (m : mprog A) buf bs a c rest, paid B 0 m -> run (in_buf m buf) bs = Ok ((a, c), rest) -> rest = bs /\ c <= B * len buf.
Proof.
  intros B A m buf bs a c rest H E. unfold in_buf in E. rewrite run_of_res in E. destruct (run m buf) as [[[a' c'] r]|e|x] eqn:E1; try discriminate. cbn in E.
  apply Ok_inj in E. inversion E; subst. split; [reflexivity|]. pose proof (H _ _ _ _ E1) as HH. rewrite N.add_0_r in HH. etransitivity; [exact HH|]. apply N.mul_le_mono_l. lia.
Qed.
Lemma buf_inv : forall E n bs buf c rest, run (mbind (ask E n) (fun _ => free (read_n n))) bs = Ok ((buf, c), rest) ->
  c = len buf /\ len buf + len rest = len bs.
Proof.
  intros E n bs buf c rest H. apply mbind_inv in H. destruct H as (u & c1 & y & c2 & E1 & E2 & ->). apply free_inv in E2. destruct E2 as [E2 ->].
  apply run_read_n_ok in E2. destruct E2 as [-> Hn].
  unfold ask, alloc in E1. destruct (e_mem E) as [q|]; [destruct (n <=? q); [|discriminate]|]; apply Ok_inj in E1; inversion E1; subst; rewrite len_app; lia.
Qed.

Section Derived.
Variables (B G : N) (E : env) (rec : N -> mprog val).
Hypothesis H9 : 9 <= B.
Hypothesis H2 : 2 * G <= B.
Hypothesis Hroom : roomy E G.
Hypothesis Hrec : forall n, paid B (2 * G) (rec n).
Lemma paid_struct_opt : forall ix cur tgt fs, paid (B + 1) 0 (md_struct_opt E rec ix cur tgt fs).
Proof.
  intros ix cur tgt fs. unfold md_struct_opt. apply paid_then; [apply paid_free|intros n]. intros bs a c rest H.
  apply mbind_inv in H. destruct H as (u & c1 & y & c2 & E1 & E2 & ->). apply mbind_inv in E2. destruct E2 as (buf & c3 & z & c4 & E3 & E4 & ->).
  apply (in_buf_inv B) in E4.
  - destruct E4 as [-> Hc]. apply free_inv in E3. destruct E3 as [E3 ->]. apply run_read_n_ok in E3. destruct E3 as [-> Hn].
    unfold ask, alloc in E1. destruct (e_mem E) as [q|]; [destruct (n <=? q); [|discriminate]|]; apply Ok_inj in E1; inversion E1; subst; rewrite len_app;
      (replace (len buf + len z - len z) with (len buf) by lia); rewrite N.mul_add_distr_r; lia.
  - apply paid_then; [apply paid_free|]. intros _. apply (paid_struct B G H9 H2 E Hroom rec Hrec).
Qed.
Lemma paid_enum_opt : forall cur tgt vs, paid (B + 1) 0 (md_enum_opt E rec cur tgt vs).
Proof.
  intros cur tgt vs. unfold md_enum_opt. destruct (calc_disc cur vs) as [ds|]; [|apply paid_crash]. apply paid_then; [apply paid_free|intros ts].
  destruct (find_tag _ _ _) as [[vr d]|]; [|apply paid_fail]. intros bs a c rest H.
  apply mbind_inv in H. destruct H as (buf & c1 & y & c2 & E1 & E2 & ->). apply mbind_inv in E2. destruct E2 as (l & c3 & z & c4 & E3 & E4 & ->).
  apply (in_buf_inv B) in E3; [|apply (paid_vfields B G H9 H2 E Hroom rec Hrec)]. destruct E3 as [-> Hc]. pose proof (run_le _ _ _ _ _ E4) as Hl. apply free_inv in E4. destruct E4 as [E4 ->].
  assert (HB : c1 <= len buf /\ len buf + len y <= len bs).
  { unfold md_buf in E1. destruct (v_size vr) as [[|n|]|]; [| | |discriminate].
    - apply Ok_inj in E1. inversion E1; subst. rewrite len_nil. lia.
    - apply buf_inv in E1. lia.
    - apply mbind_inv in E1. destruct E1 as (n & c5 & w & c6 & E5 & E6 & ->). pose proof (run_le _ _ _ _ _ E5). apply free_inv in E5. destruct E5 as [_ ->]. apply buf_inv in E6. lia. }
  apply N.le_trans with ((B + 1) * len buf); [rewrite N.mul_add_distr_r; lia|]. apply N.mul_le_mono_l. lia.
Qed.
Lemma paid_enum_legacy : forall cur tgt vs, paid B 0 (md_enum_legacy E rec cur tgt vs).
Proof.
  intros cur tgt vs. unfold md_enum_legacy. destruct (calc_disc cur vs) as [ds|]; [|apply paid_crash]. apply paid_then; [apply paid_free|intros d].
  destruct (find_disc _ _) as [[vr x]|]; [|apply paid_fail]. apply paid_then; [apply (paid_fields B G H9 H2 E Hroom rec Hrec)|intros p].
  apply paid_then; [apply paid_free|intros l]. apply paid_free.
Qed.
Lemma paid_derived : forall s, paid (B + 1) (2 * G) (md_derived E rec s).
Proof.
  intros s. unfold md_derived. apply paid_first; [apply paid_eats; [apply eats_u16|lia]|]. intros r. destruct (sent s r) as [h|]; [|apply paid_fail].
  destruct (s_body s) as [fs|vs]; destruct (h_opt h).
  - apply paid_struct_opt.
  - apply (paid_up B); [apply (paid_struct B G H9 H2 E Hroom rec Hrec)|lia].
  - apply paid_enum_opt.
  - apply (paid_up B); [apply paid_enum_legacy|lia].
Qed.
End Derived.
Lemma paid_ref : forall E G, roomy E G -> forall d n, paid (N.max 9 (2 * G) + N.of_nat d) (2 * G) (md_ref E d n).
Proof.
  intros E G Hr. induction d as [|d IH]; intros n; cbn [md_ref]; [apply paid_crash|]. destruct (e_sch E n) as [s|]; [|apply paid_crash].
  apply (paid_up (N.max 9 (2 * G) + N.of_nat d + 1)); [|lia]. apply paid_derived; [lia|lia|exact Hr|exact IH].
Qed.
Lemma paid_metered : forall E G, roomy E G -> forall d t, paid (N.max 9 (2 * G) + N.of_nat d) 0 (metered E d t).
Proof.
  intros E G Hr d t. apply (paid_any _ _ (reserve G t)). unfold metered.
  apply (paid_ty (N.max 9 (2 * G) + N.of_nat d) G); [lia|lia|exact Hr|]. apply paid_ref, Hr.
Qed.

(** Without optimised revisions there are no buffers. *)
Section Plain.
Variables (B G : N) (E : env).
Hypothesis H9 : 9 <= B.
Hypothesis H2 : 2 * G <= B.
Hypothesis Hroom : roomy E G.
Hypothesis Hplain : forall n s r h, e_sch E n = Some s -> sent s r = Some h -> h_opt h = false.
Lemma paid_plain : forall d n, paid B (2 * G) (md_ref E d n).
Proof.
  induction d as [|d IH]; intros n; cbn [md_ref]; [apply paid_crash|]. destruct (e_sch E n) as [s|] eqn:Es; [|apply paid_crash].
  unfold md_derived. apply paid_first; [apply paid_eats; [apply eats_u16|lia]|]. intros r. destruct (sent s r) as [h|] eqn:Eh; [|apply paid_fail].
  rewrite (Hplain n s r h Es Eh). destruct (s_body s) as [fs|vs].
  - apply (paid_struct B G H9 H2 E Hroom _ IH).
  - apply (paid_enum_legacy B G E _ H9 H2 Hroom IH).
Qed.
Lemma paid_plain_metered : forall d t, paid B 0 (metered E d t).
Proof. intros d t. apply (paid_any _ _ (reserve G t)). apply (paid_ty B G H9 H2 E Hroom _ (paid_plain d)). Qed.
End Plain.

(** ** The sum covers every single request *)
Section Enough.
Variables (E : env) (m : N).
Let E' := set_mem (Some m) E.
(** What [p] decodes while requesting at most [m] bytes in all, [q] decodes with no single request above [m]. *)
Definition enough {A} (p q : mprog A) : Prop := forall bs a c r, run p bs = Ok ((a, c), r) -> c <= m -> run q bs = Ok ((a, c), r).
Lemma en_refl : forall A (p : mprog A), enough p p.
Proof. intros A p bs a c r H _. exact H. Qed.
Lemma en_bind : forall A B (p q : mprog A) (f g : A -> mprog B), enough p q -> (forall a, enough (f a) (g a)) -> enough (mbind p f) (mbind q g).
Proof.
  intros A B p q f g Hp Hf bs b c r H Hc. apply mbind_inv in H. destruct H as (a & c1 & y & c2 & E1 & E2 & ->).
  unfold mbind. rewrite run_bind, (Hp _ _ _ _ E1) by lia. cbn [fst snd]. rewrite run_bind, (Hf _ _ _ _ _ E2) by lia. reflexivity.
Qed.
Lemma en_ask : forall n, enough (ask E n) (ask E' n).
Proof.
  intros n bs a c r H Hc. unfold ask in *. rewrite run_bind in *. unfold alloc in H. destruct (e_mem E) as [x|]; [destruct (n <=? x)|]; cbn [run] in H; try discriminate;
    apply Ok_inj in H; inversion H; subst; unfold alloc, E', set_mem; cbn [e_mem]; (destruct (N.leb_spec c m); [reflexivity|lia]).
Qed.
Lemma en_rep : forall A n (p q : mprog A), enough p q -> enough (mrep n p) (mrep n q).
Proof. intros A n p q H. induction n as [|n IH]; cbn [mrep]; [apply en_refl|]. apply en_bind; [exact H|]. intros a. apply en_bind; [exact IH|]. intros l. apply en_refl. Qed.
Lemma en_map : forall A B (g : A -> B) (p q : mprog A), enough p q -> enough (mmap g p) (mmap g q).
Proof. intros A B g p q H. apply en_bind; [exact H|]. intros a. apply en_refl. Qed.
Lemma en_map_err : forall A h (p q : mprog A), enough p q -> enough (map_err h p) (map_err h q).
Proof.
  intros A h p q H bs a c r Hr Hc. rewrite run_map_err in *. destruct (run p bs) as [[[a0 c0] r0]|e|x] eqn:Ep; try discriminate.
  cbn in Hr. apply Ok_inj in Hr. inversion Hr; subst. rewrite (H _ _ _ _ Ep Hc). reflexivity.
Qed.
Lemma en_in_buf : forall A (p q : mprog A) buf, enough p q -> enough (in_buf p buf) (in_buf q buf).
Proof.
  intros A p q buf H bs a c r Hr Hc. unfold in_buf in *. rewrite run_of_res in *. destruct (run p buf) as [[[a0 c0] r0]|e|x] eqn:Ep; try discriminate.
  cbn in Hr. apply Ok_inj in Hr. inversion Hr; subst. rewrite (H _ _ _ _ Ep Hc). reflexivity.
Qed.
Ltac en := repeat first
  [ apply en_refl | apply en_ask | assumption | apply en_map | apply en_map_err | apply en_rep | apply en_in_buf
  | match goal with |- enough (if ?c then _ else _) (if ?c then _ else _) => destruct c end
  | apply en_bind; [|intros ?] ].
Lemma en_str : enough (md_str E) (md_str E').
Proof. unfold md_str. apply en_bind; [apply en_refl|intros n]. en. Qed.
Lemma en_blob : enough (md_blob E) (md_blob E').
Proof. unfold md_blob. apply en_bind; [apply en_refl|intros n]. en. Qed.
Lemma en_bulk : forall k, enough (md_bulk E k) (md_bulk E' k).
Proof.
  intros k. unfold md_bulk. apply en_bind; [apply en_refl|intros n]. destruct (n =? 0); [apply en_refl|]. change (e_ub E') with (e_ub E).
  destruct k as [| |[]]; en.
Qed.
Lemma en_seq : forall sz p q, enough p q -> enough (md_seq E sz p) (md_seq E' sz q).
Proof. intros sz p q H. unfold md_seq. apply en_bind; [apply en_refl|intros n]. en. Qed.
Lemma en_entry : forall p q p' q', enough p q -> enough p' q' -> enough (md_entry p p') (md_entry q q').
Proof. intros. unfold md_entry. en. Qed.
Section Rec.
Variables (rec rec' : N -> mprog val).
Hypothesis Hrec : forall n, enough (rec n) (rec' n).
Lemma en_ty : forall t, enough (md_ty E rec t) (md_ty E' rec' t).
Proof.
  induction t as [|i| | | | | | | | | |a IHa b IHb|t IH|t IH|n t IH|t IH|a IHa b IHb|t IH|k a IHa b IHb|k t IH|t IH|t IH| | |c w t IH|n]; cbn [md_ty];
    try (apply en_refl); try apply en_str; try (apply en_map, en_blob); try (apply en_entry; assumption); try (apply en_map, en_seq; assumption); try exact IH; try apply Hrec.
  - change (e_spec E') with (e_spec E). destruct (if e_spec E then bulk_of t else None) as [k|]; apply en_map; [apply en_bulk|apply en_seq, IH].
  - en.
  - en.
  - apply en_bind; [apply en_refl|intros d]. en.
  - apply en_bind; [apply en_refl|intros d]. en.
  - apply en_map, en_seq, en_entry; assumption.
  - apply en_bind; [exact IH|]. intros x. change (e_ext E') with (e_ext E). destruct (e_ext E c x); en.
Qed.
Lemma en_idx_seq : forall a, enough (md_idx_seq E a (md_ty E rec a)) (md_idx_seq E' a (md_ty E' rec' a)).
Proof.
  intros a. pose proof (en_ty a). unfold md_idx_seq. apply en_bind; [apply en_refl|intros fl]. apply en_bind; [apply en_refl|intros n].
  change (e_ub E') with (e_ub E). change (e_esize E') with (e_esize E). en.
Qed.
Lemma en_idx_map : forall k a b, enough (md_idx_map E k a b (md_ty E rec a) (md_ty E rec b)) (md_idx_map E' k a b (md_ty E' rec' a) (md_ty E' rec' b)).
Proof.
  intros k a b. pose proof (en_ty a). pose proof (en_ty b). unfold md_idx_map. change (e_ub E') with (e_ub E). change (e_esize E') with (e_esize E).
  apply en_bind; [apply en_refl|intros fl]. apply en_bind; [apply en_refl|intros n]. apply en_bind; [destruct k; en|intros _].
  destruct (_ =? _); [apply en_map, en_rep, en_entry; assumption|]. destruct (_ <? _); [|apply en_refl].
  apply en_bind; [apply en_refl|intros z]. en.
Qed.
Lemma en_mode : forall w t, enough (md_mode E rec w t) (md_mode E' rec' w t).
Proof.
  intros w t. destruct w; cbn [md_mode]; try apply en_ty.
  - apply en_refl.
  - destruct t; try apply en_refl. destruct (bulk_of t); [apply en_map, en_bulk|apply en_refl].
  - destruct t; try apply en_refl. apply en_map, en_idx_map.
  - destruct t; try apply en_refl; apply en_map, en_idx_seq.
  - destruct t; try apply en_refl. apply en_map, en_idx_seq.
Qed.
Lemma en_fields : forall opt cur tgt fs, enough (md_fields E rec opt cur tgt fs) (md_fields E' rec' opt cur tgt fs).
Proof.
  intros opt cur tgt fs. induction fs as [|f fs IH]; cbn [md_fields]; [apply en_refl|].
  destruct (falive cur f), (falive tgt f); try exact IH; (apply en_bind; [first [apply en_mode|apply en_refl]|intros v; en]).
Qed.
Lemma en_vfields : forall cur fs, enough (md_vfields E rec cur fs) (md_vfields E' rec' cur fs).
Proof.
  intros cur fs. induction fs as [|f fs IH]; cbn [md_vfields]; [apply en_refl|].
  destruct (falive cur f); [|exact IH]. apply en_bind; [apply en_ty|intros v; en].
Qed.
Lemma en_derived : forall s, enough (md_derived E rec s) (md_derived E' rec' s).
Proof.
  intros s. unfold md_derived. apply en_bind; [apply en_refl|intros r]. destruct (sent s r) as [h|]; [|apply en_refl].
  destruct (s_body s) as [fs|vs]; destruct (h_opt h).
  - unfold md_struct_opt, md_struct. apply en_bind; [apply en_refl|intros n]. apply en_bind; [apply en_ask|intros _]. apply en_bind; [apply en_refl|intros buf].
    apply en_in_buf, en_bind; [apply en_refl|intros _]. apply en_bind; [apply en_fields|intros p; en].
  - apply en_bind; [apply en_fields|intros p; en].
  - unfold md_enum_opt. destruct (calc_disc r vs) as [ds|]; [|apply en_refl]. apply en_bind; [apply en_refl|intros ts].
    destruct (find_tag _ _ _) as [[vr d]|]; [|apply en_refl]. apply en_bind.
    + unfold md_buf. destruct (v_size vr) as [[]|]; en.
    + intros buf. apply en_bind; [apply en_in_buf, en_vfields|intros l; en].
  - unfold md_enum_legacy. destruct (calc_disc r vs) as [ds|]; [|apply en_refl]. apply en_bind; [apply en_refl|intros ts].
    destruct (find_disc _ _) as [[vr d]|]; [|apply en_refl]. apply en_bind; [apply en_fields|intros p]. apply en_bind; [en|intros l; en].
Qed.
End Rec.
Lemma en_ref : forall d n, enough (md_ref E d n) (md_ref E' d n).
Proof.
  induction d as [|d IH]; intros n; cbn [md_ref]; [apply en_refl|]. change (e_sch E' n) with (e_sch E n). destruct (e_sch E n); [apply en_derived, IH|apply en_refl].
Qed.
Lemma en_metered : forall d t, enough (metered E d t) (metered E' d t).
Proof. intros d t. apply en_ty, en_ref. Qed.
End Enough.
