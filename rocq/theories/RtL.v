(** Encoder/decoder correspondence: combinators and building blocks.  Proofs. *)

From Verif Require Import Base BaseL Prog ProgL Prim PrimL Utf8 Utf8L Tag Ty Ser De Typed SortL.
From Coq Require Import List NArith ZArith Bool Lia ZifyBool Permutation.
Import ListNotations.
Open Scope N_scope.

(** [rt s p m]: decoding with [p] whatever [s] wrote gives [m] and leaves the rest. *)
Definition rt {A} (s : ser) (p : prog A) (m : res A) : Prop :=
  forall ops rest, s = Ok ops -> run p (out ops ++ rest) = rmap (fun a => (a, rest)) m.

Lemma Ok_inj : forall A (a b : A), Ok a = Ok b -> a = b.
Proof. intros A a b H. inversion H. reflexivity. Qed.

Lemma rt_ret : forall A (a : A), rt snil (Ret a) (Ok a).
Proof. intros A a ops rest H. inversion H; subst. reflexivity. Qed.
Lemma rt_err : forall A s (p : prog A) m, (forall ops, s <> Ok ops) -> rt s p m.
Proof. intros A s p m H ops rest E. exfalso. eapply H; eauto. Qed.
Lemma rt_ty_err : forall A (p : prog A) m, rt ty_err p m.
Proof. intros. apply rt_err. discriminate. Qed.

Lemma rt_bind : forall A B s1 s2 (p : prog A) (k : A -> prog B) m1 m2,
  rt s1 p m1 -> (forall a, m1 = Ok a -> rt s2 (k a) (m2 a)) -> rt (s1 +++ s2) (bind p k) (rbind m1 m2).
Proof.
  intros A B s1 s2 p k m1 m2 H1 H2 ops rest E.
  apply sbind_ok in E. destruct E as (la & lb & -> & -> & ->).
  rewrite out_app, <- app_assoc, run_bind, (H1 la) by reflexivity.
  destruct m1 as [a|e|x]; cbn [rmap rbind]; try reflexivity.
  apply (H2 a eq_refl lb); reflexivity.
Qed.
Lemma rt_then : forall A B s (p : prog A) (k : A -> prog B) m f,
  rt s p m -> (forall a, m = Ok a -> forall bs, run (k a) bs = rmap (fun b => (b, bs)) (f a)) ->
  rt s (bind p k) (rbind m f).
Proof.
  intros A B s p k m f H1 H2 ops rest E. rewrite run_bind, (H1 ops) by assumption.
  destruct m as [a|e|x]; cbn [rmap rbind]; try reflexivity. apply H2. reflexivity.
Qed.
Lemma rt_map : forall A B s (p : prog A) (f : A -> B) m,
  rt s p m -> rt s (x <- p ;; Ret (f x)) (rbind m (fun a => Ok (f a))).
Proof. intros. apply rt_then; [assumption|]. reflexivity. Qed.
Lemma rt_map_err : forall A s g (p : prog A) m, rt s p m -> rt s (map_err g p) (rmap_err g m).
Proof.
  intros A s g p m H ops rest E. rewrite run_map_err, (H ops) by assumption.
  destruct m; reflexivity.
Qed.
(** A writer that only wrote bytes [b], consumed exactly by [p]. *)
Lemma rt_sall : forall A b (p : prog A) m, (forall rest, run p (b ++ rest) = rmap (fun a => (a, rest)) m) ->
  rt (sall b) p m.
Proof.
  intros A b p m H ops rest E. inversion E; subst. unfold out. cbn [flat_map wop_bytes].
  rewrite app_nil_r. apply H.
Qed.
Lemma rt_bytes : forall A s b (p : prog A) m rest, rt s p m -> ser_bytes s = Ok b ->
  run p (b ++ rest) = rmap (fun a => (a, rest)) m.
Proof.
  intros A s b p m rest H E. unfold ser_bytes in E. apply rmap_ok in E. destruct E as (ops & E & ->).
  apply H; assumption.
Qed.

Lemma sconcat_cons : forall s l, sconcat (s :: l) = s +++ sconcat l.
Proof. reflexivity. Qed.

(** A loop. *)
Lemma rt_rep : forall A X (sf : X -> ser) (p : prog A) (mf : X -> res A) l,
  (forall x, In x l -> rt (sf x) p (mf x)) ->
  rt (sconcat (map sf l)) (rep (length l) p) (rmapM mf l).
Proof.
  intros A X sf p mf. induction l as [|x l IH]; intros H.
  - apply rt_ret.
  - cbn [map length rep rmapM]. rewrite sconcat_cons.
    apply rt_bind; [apply H; left; reflexivity|]. intros a _.
    apply rt_map. apply IH. intros; apply H; right; assumption.
Qed.

(** [rmapM] *)
Lemma rmapM_ok : forall A B (f : A -> res B) l r, rmapM f l = Ok r <-> Forall2 (fun x y => f x = Ok y) l r.
Proof.
  intros A B f. induction l as [|x l IH]; intros r; cbn.
  - split; intros H; inversion H; constructor.
  - split; intros H.
    + apply rbind_ok in H. destruct H as (y & Hy & H). apply rbind_ok in H. destruct H as (l' & Hl & H).
      inversion H; subst. constructor; [assumption|]. apply IH; assumption.
    + inversion H as [|? y ? l' Hy Hl]; subst. apply IH in Hl. rewrite Hy, Hl. reflexivity.
Qed.
Lemma rmapM_length : forall A B (f : A -> res B) l r, rmapM f l = Ok r -> length l = length r.
Proof. intros A B f l r H. apply rmapM_ok in H. induction H; cbn; congruence. Qed.
Lemma rmapM_ext : forall A B (f g : A -> res B) l, (forall x, In x l -> f x = g x) -> rmapM f l = rmapM g l.
Proof.
  intros A B f g. induction l as [|x l IH]; intros H; cbn; [reflexivity|].
  rewrite (H x (or_introl eq_refl)), IH; [reflexivity|]. intros; apply H; right; assumption.
Qed.
Lemma rmapM_id : forall A (f : A -> res A) l, (forall x, In x l -> f x = Ok x) -> rmapM f l = Ok l.
Proof.
  intros A f. induction l as [|x l IH]; intros H; cbn; [reflexivity|].
  rewrite (H x (or_introl eq_refl)), IH; [reflexivity|]. intros; apply H; right; assumption.
Qed.

(** A loop over separately encoded pieces. *)
Lemma run_rep_pieces : forall A X (p : prog A) (mf : X -> res A) (l : list X) bs,
  Forall2 (fun x b => forall rest, run p (b ++ rest) = rmap (fun a => (a, rest)) (mf x)) l bs ->
  forall rest, run (rep (length l) p) (concat bs ++ rest) = rmap (fun a => (a, rest)) (rmapM mf l).
Proof.
  intros A X p mf. induction 1 as [|x b l bs H1 H2 IH]; intros rest.
  - reflexivity.
  - cbn [length concat rmapM]. rewrite run_rep_S, <- app_assoc, H1.
    destruct (mf x) as [a|e|q]; cbn [rmap rbind]; try reflexivity.
    rewrite IH. destruct (rmapM mf l); reflexivity.
Qed.

Lemma run_alloc_none : forall e n, e_mem e = None -> alloc e n = Ret tt.
Proof. intros e n H. unfold alloc. rewrite H. reflexivity. Qed.

Lemma Forall2_length : forall A B (P : A -> B -> Prop) l m, Forall2 P l m -> length l = length m.
Proof. induction 1; cbn; congruence. Qed.
Arguments Forall2_length {A B P l m} _.
Lemma Forall2_In_l : forall A B (P : A -> B -> Prop) l m x, Forall2 P l m -> In x l -> exists y, In y m /\ P x y.
Proof.
  intros A B P l m x H. induction H as [|a b l m H1 H2 IH]; intros Hi; [destruct Hi|].
  destruct Hi as [->|Hi]; [exists b; cbn; auto|]. destruct (IH Hi) as (y & Hy & E). exists y; cbn; auto.
Qed.

(** ** Bit packing *)
Lemma byte_of_testbit : forall l i j, i + len l <= j -> N.testbit (byte_of i l) j = false.
Proof.
  induction l as [|b l IH]; intros i j H; cbn [byte_of]; [apply N.bits_0|].
  rewrite len_cons in H. rewrite N.lor_spec, IH by lia. rewrite orb_false_r.
  destruct b; [|apply N.bits_0]. rewrite N.shiftl_spec_high' by lia.
  change 1 with (2 ^ 0). rewrite N.pow2_bits_eqb. apply N.eqb_neq. lia.
Qed.
Lemma byte_of_testbit_lt : forall l i j, j < i -> N.testbit (byte_of i l) j = false.
Proof.
  induction l as [|b l IH]; intros i j H; cbn [byte_of]; [apply N.bits_0|].
  rewrite N.lor_spec, IH by lia. rewrite orb_false_r.
  destruct b; [|apply N.bits_0]. apply N.shiftl_spec_low. assumption.
Qed.
Lemma byte_of_nth : forall l i k, (k < length l)%nat ->
  N.testbit (byte_of i l) (i + N.of_nat k) = nth k l false.
Proof.
  induction l as [|b l IH]; intros i k H; cbn in H; [lia|]. cbn [byte_of]. rewrite N.lor_spec.
  destruct k as [|k].
  - cbn [nth]. replace (i + N.of_nat 0) with i by lia. rewrite byte_of_testbit_lt by lia. rewrite orb_false_r.
    destruct b; [|apply N.bits_0]. rewrite N.shiftl_spec_high' by lia. rewrite N.sub_diag. reflexivity.
  - cbn [nth]. replace (i + N.of_nat (S k)) with (i + 1 + N.of_nat k) by lia.
    rewrite IH by lia. destruct b.
    + rewrite N.shiftl_spec_high' by lia. change 1 with (2 ^ 0) at 1. rewrite N.pow2_bits_eqb.
      replace (0 =? i + 1 + N.of_nat k - i) with false by lia. reflexivity.
    + rewrite N.bits_0. reflexivity.
Qed.
Lemma byte_of_lt : forall l i, byte_of i l < 2 ^ (i + len l).
Proof.
  intros l i. destruct (N.lt_ge_cases (byte_of i l) (2 ^ (i + len l))) as [H|H]; [assumption|exfalso].
  assert (Hz : byte_of i l <> 0). { intros E. rewrite E in H. assert (0 < 2 ^ (i + len l)) by (apply N.neq_0_lt_0, N.pow_nonzero; lia). lia. }
  pose proof (N.bit_log2 _ Hz) as B. rewrite byte_of_testbit in B; [discriminate|].
  assert (0 < byte_of i l) by lia. apply N.log2_le_pow2; assumption.
Qed.
(** [unpack] undoes [pack] on up to eight values. *)
Lemma bits8_byte_of : forall l, (length l <= 8)%nat -> firstn (length l) (bits8 (byte_of 0 l)) = l.
Proof.
  intros l H. apply (nth_ext _ _ false false).
  - rewrite firstn_length. unfold bits8. cbn [map length]. lia.
  - intros k Hk. rewrite firstn_length in Hk.
    assert (Hk' : (k < length l)%nat) by lia.
    rewrite <- (byte_of_nth l 0 k Hk').
    assert (E : nth k (firstn (length l) (bits8 (byte_of 0 l))) false = nth k (bits8 (byte_of 0 l)) false).
    { rewrite <- (firstn_skipn (length l) (bits8 (byte_of 0 l))) at 2. rewrite app_nth1; [reflexivity|].
      rewrite firstn_length. lia. }
    rewrite E. unfold bits8. rewrite (nth_indep _ false (N.testbit (byte_of 0 l) 0)) by (cbn; lia).
    rewrite map_nth. do 8 (destruct k as [|k]; [reflexivity|]). lia.
Qed.
Lemma pack_step : forall a l, length a = 8%nat -> pack (a ++ l) = byte_of 0 a :: pack l.
Proof.
  intros a l H. do 8 (destruct a as [|? a]; [discriminate|]). destruct a; [|discriminate]. reflexivity.
Qed.
Lemma pack_small : forall l, (0 < length l < 8)%nat -> pack l = [byte_of 0 l].
Proof.
  intros l H. do 8 (destruct l as [|? l]; [cbn in H; try lia; try reflexivity|]). cbn in H. lia.
Qed.
Lemma pack_ind : forall P : list bool -> Prop, P [] -> (forall l, (0 < length l < 8)%nat -> P l) ->
  (forall a l, length a = 8%nat -> P l -> P (a ++ l)) -> forall l, P l.
Proof.
  intros P H0 H1 H2 l. remember (length l) as n eqn:E. revert l E.
  induction n as [n IH] using lt_wf_ind. intros l E.
  destruct (Nat.lt_ge_cases n 8) as [Hn|Hn].
  - destruct l as [|b l]; [assumption|]. apply H1. cbn in *. lia.
  - rewrite <- (firstn_skipn 8 l). apply H2; [rewrite firstn_length; lia|].
    apply (IH (length (skipn 8 l))); [rewrite skipn_length; lia|reflexivity].
Qed.
Lemma pack_len : forall l, len (pack l) = div_ceil8 (len l).
Proof.
  apply pack_ind.
  - reflexivity.
  - intros l H. rewrite pack_small by assumption. unfold div_ceil8, len. cbn [length].
    assert (E : N.of_nat (length l) + 7 = 1 * 8 + (N.of_nat (length l) - 1)) by lia.
    rewrite E, N.div_add_l by lia. rewrite N.div_small by lia. reflexivity.
  - intros a l H IH. rewrite pack_step by assumption. rewrite len_cons, IH. unfold div_ceil8.
    rewrite len_app. unfold len at 2. rewrite H.
    replace (N.of_nat 8 + len l + 7) with (1 * 8 + (len l + 7)) by lia.
    rewrite N.div_add_l by lia. lia.
Qed.
Lemma unpack_pack : forall l, unpack (length l) (pack l) = l.
Proof.
  apply pack_ind.
  - reflexivity.
  - intros l H. rewrite pack_small by assumption. cbn [unpack]. rewrite app_nil_r.
    rewrite Nat.min_r by lia. apply bits8_byte_of. lia.
  - intros a l H IH. rewrite pack_step by assumption. cbn [unpack]. rewrite app_length, H.
    rewrite Nat.min_l by lia. replace (8 + length l - 8)%nat with (length l) by lia. rewrite IH.
    f_equal. rewrite <- H. apply bits8_byte_of. lia.
Qed.
Lemma pack_wf : forall l, wfb (pack l).
Proof.
  apply pack_ind.
  - constructor.
  - intros l H. rewrite pack_small by assumption. constructor; [|constructor].
    eapply N.lt_le_trans; [apply byte_of_lt|]. change 256 with (2 ^ 8). apply N.pow_le_mono_r; [lia|]. unfold len. lia.
  - intros a l H IH. rewrite pack_step by assumption. constructor; [|assumption].
    eapply N.lt_le_trans; [apply byte_of_lt|]. change 256 with (2 ^ 8). apply N.pow_le_mono_r; [lia|]. unfold len. lia.
Qed.

(** ** Chunks *)
Lemma chunks_concat : forall w bs, Forall (fun b => len b = w) bs -> chunks (length bs) w (concat bs) = bs.
Proof.
  intros w. induction 1 as [|b bs H1 H2 IH]; cbn [length chunks concat]; [reflexivity|].
  rewrite (split_at_app_n _ w b (concat bs)) by auto. rewrite IH. reflexivity.
Qed.
Lemma concat_len : forall w bs, Forall (fun b => @len N b = w) bs -> len (concat bs) = len bs * w.
Proof.
  intros w. induction 1 as [|b bs H1 H2 IH]; cbn [concat]; [reflexivity|].
  rewrite len_app, len_cons, H1, IH. lia.
Qed.

(** ** Tags *)
Lemma tag_round : forall d c, d < 32 -> variant_id (tag_new d c) = d /\ size_class (tag_new d c) = Ok c
  /\ tag_new d c < 128.
Proof.
  assert (H : forallb (fun k => forallb (fun c => (variant_id (tag_new (N.of_nat k) c) =? N.of_nat k)
      && match size_class (tag_new (N.of_nat k) c) with Ok c' => sclass_eqb c c' | _ => false end
      && (tag_new (N.of_nat k) c <? 128)) [CInline; CFixed; CVarlen]) (seq 0 32) = true) by (vm_compute; reflexivity).
  intros d c Hd. rewrite forallb_forall in H. specialize (H (N.to_nat d)).
  rewrite forallb_forall in H. specialize (H ltac:(apply in_seq; lia) c ltac:(destruct c; cbn; auto)).
  rewrite N2Nat.id in H. apply andb_prop in H. destruct H as [H H3]. apply andb_prop in H. destruct H as [H1 H2].
  apply N.eqb_eq in H1. split; [assumption|]. split; [|apply N.ltb_lt; assumption].
  destruct (size_class (tag_new d c)) as [c'|e|p]; try discriminate. destruct c, c'; try discriminate; reflexivity.
Qed.
Lemma sclass_eqb_refl : forall c, sclass_eqb c c = true.
Proof. destruct c; reflexivity. Qed.

(** ** Indexed sequences and maps *)
Lemma offsets_len : forall l o t e, offsets o l = Some (t, e) -> length t = length l.
Proof.
  induction l as [|b l IH]; intros o t e H; cbn [offsets] in H; [inversion H; reflexivity|]. cbv zeta in H.
  destruct (o + len b mod 2 ^ 32 <? 2 ^ 32); [|discriminate].
  destruct (offsets (o + len b mod 2 ^ 32) l) as [[t' e']|] eqn:E; [|discriminate].
  inversion H; subst. cbn. f_equal. eapply IH; eauto.
Qed.
Lemma le32s_len : forall l, len (le32s l) = 4 * len l.
Proof.
  induction l as [|x l IH]; [reflexivity|]. unfold le32s in *. cbn [flat_map].
  rewrite len_app, len_cons, IH, le_bytes_len. lia.
Qed.
Lemma pairs_len : forall a b, length a = length b ->
  len (flat_map (fun p => le_bytes 4 (fst p) ++ le_bytes 4 (snd p)) (combine a b)) = 8 * len a.
Proof.
  induction a as [|x a IH]; intros [|y b] H; try discriminate; [reflexivity|].
  cbn [combine flat_map]. rewrite !len_app, len_cons, IH by (cbn in H; congruence).
  cbn [fst snd]. rewrite !le_bytes_len. lia.
Qed.
Lemma struct_offsets_len : forall l o, len (struct_offsets o l) = 4 * len l.
Proof.
  induction l as [|b l IH]; intros o; [reflexivity|]. cbn [struct_offsets].
  rewrite len_app, len_cons, IH, le_bytes_len. lia.
Qed.

Lemma run_read_varint : forall E n rest, e_ub E <= 64 -> n < 2 ^ e_ub E ->
  run (read_varint E) (write_varint n ++ rest) = Ok (n, rest).
Proof.
  intros E n rest Hu Hn.
  assert (P64 : 2 ^ e_ub E <= 2 ^ 64) by (apply N.pow_le_mono_r; lia).
  unfold read_varint, write_varint, encode_u64.
  destruct (n <? 251) eqn:E0.
  - cbn [app]. rewrite run_bind, run_read_byte_cons.
    replace (n =? 251) with false by (clear - E0; lia). replace (n =? 252) with false by (clear - E0; lia).
    replace (n =? 253) with false by (clear - E0; lia). replace (253 <? n) with false by (clear - E0; lia).
    reflexivity.
  - destruct (n <? 2 ^ 16) eqn:E1.
    + cbn [app]. rewrite run_bind, run_read_byte_cons.
      change (251 =? 251) with true. cbv iota. rewrite run_le by reflexivity. cbn [run].
      rewrite le_val_bytes; [reflexivity|]. apply N.ltb_lt in E1. exact E1.
    + destruct (n <? 2 ^ 32) eqn:E2.
      * cbn [app]. rewrite run_bind, run_read_byte_cons.
        change (252 =? 251) with false. change (252 =? 252) with true. cbv iota.
        rewrite run_le by reflexivity. cbn [run]. rewrite le_val_bytes; [reflexivity|]. apply N.ltb_lt in E2. exact E2.
      * cbn [app]. rewrite run_bind, run_read_byte_cons.
        change (253 =? 251) with false. change (253 =? 252) with false. change (253 =? 253) with true. cbv iota.
        rewrite run_le by reflexivity. rewrite le_val_bytes by (change (256 ^ N.of_nat 8) with (2 ^ 64); lia).
        apply N.ltb_lt in Hn. rewrite Hn. reflexivity.
Qed.
Lemma run_advance : forall n x y, n = len x -> run (advance n) (x ++ y) = Ok (tt, y).
Proof. intros. unfold advance. rewrite run_bind, run_read_n_app by assumption. reflexivity. Qed.
