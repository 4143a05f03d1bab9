(** C30, C31, C33, C34, C35: random access into indexed payloads, whatever the bytes. *)

From Verif Require Import Base BaseL Prog ProgL Ty Ser De Typed SortL IdxL Ex PropTotal PropIdx IdxWalk IdxWalkL.
From Coq Require Import List NArith Bool Lia Arith Sorted.
Import ListNotations.
Open Scope N_scope.

Definition panics {A} (r : res A) : Prop := exists p, r = Panic p.

(** ** C33 *)

(** Opening a sequence panics exactly when the payload has the indexed flag, declares [n] elements,
    and the end of a table of [n] 4-byte offsets does not fit in a [usize].  [len b - len r'] is the
    position after the declared length. *)
Theorem C33_seq_panics_iff : forall E v b, wf_env E ->
  panics (seq_open E v b) <->
  (exists f r n r', b = f :: r /\ N.land f 1 <> 0 /\ run (read_varint E) r = Ok (n, r')
     /\ n * 4 < 2 ^ e_ub E /\ 2 ^ e_ub E <= (len b - len r') + n * 4).
Proof.
  intros E v b W. assert (U : 16 <= 2 ^ e_ub E) by (destruct (we_ub _ W) as [-> | ->]; vm_compute; discriminate).
  pose proof (seq_open_spec E v b U) as S. change (panics (seq_open E v b) <-> seq_overflow E b).
  destruct (seq_open E v b) as [w|e|p].
  - destruct S as [_ S]. split; [intros [p H]; discriminate|]. intros H. contradiction.
  - split; [intros [p H]; discriminate|]. intros H. contradiction.
  - split; [intros _; exact S|]. intros _. exists p. reflexivity.
Qed.
(** Same for maps.  [t], [k4], [v4]: the table and the two region lengths; [tl]: what follows. *)
Theorem C33_map_panics_iff : forall E v b, wf_env E -> wfb b -> len b < 2 ^ (e_ub E - 1) ->
  panics (map_open E v b) <->
  (exists f r n r', b = f :: r /\ N.land f 1 <> 0 /\ run (read_varint E) r = Ok (n, r') /\ n * 8 < 2 ^ e_ub E
    /\ (2 ^ e_ub E <= (len b - len r') + n * 8
        \/ exists t k4 v4 tl, r' = t ++ k4 ++ v4 ++ tl /\ len t = n * 8 /\ len k4 = 4 /\ len v4 = 4
           /\ ((2 ^ e_ub E <= (len b - len tl) + le_val k4 + le_val v4
                /\ (e_dbg E = true \/ ((len b - len tl) + le_val k4 + le_val v4) mod 2 ^ e_ub E <= len b))
               \/ (v = true /\ n = 0 /\ le_val k4 + le_val v4 <= len tl)))).
Proof.
  intros E v b W Hw Hl.
  assert (L16 : len b + 16 <= 2 ^ e_ub E).
  { destruct (we_ub _ W) as [Hu|Hu]; rewrite Hu in *; revert Hl; clear; intros Hl.
    - change (2 ^ (32 - 1)) with 2147483648 in Hl. change (2 ^ 32) with 4294967296. lia.
    - change (2 ^ (64 - 1)) with 9223372036854775808 in Hl. change (2 ^ 64) with 18446744073709551616. lia. }
  change (panics (map_open E v b) <-> map_overflow E v b).
  pose proof (map_open_spec E v b (we_ub _ W) Hw L16) as S.
  destruct (map_open E v b) as [w|e|p].
  - destruct S as [_ S]. split; [intros [p H]; discriminate|]. intros H. contradiction.
  - split; [intros [p H]; discriminate|]. intros H. contradiction.
  - split; [intros _; exact S|]. intros _. exists p. reflexivity.
Qed.

(** Structs never panic. *)
Theorem C33_struct_no_panic : forall v b count, ~ panics (struct_open v b count).
Proof.
  intros v b count [p H]. unfold struct_open in H. destruct (N.ltb_spec (len b) (count * 4)) as [L|L]; [discriminate|].
  destruct v; [|discriminate]. rewrite at_in in H by lia. cbn [rbind] in H.
  assert (Lc : len (cutout b 0 (count * 4)) = count * 4) by (rewrite len_cutout by lia; lia).
  pose proof (prologue_spec (cutout b 0 (count * 4)) count 4 (len b mod 2 ^ 32)) as P.
  assert (Hf : forall j, j < count -> j * 4 + 4 <= len (cutout b 0 (count * 4))) by (intros; lia). specialize (P Hf).
  destruct (validate_prologue _ _ _ _); cbn [rbind] in H; [|discriminate|contradiction].
  destruct (N.ltb_spec 0 count); [|discriminate]. rewrite u32_in in H by lia. cbn [rbind] in H. destruct (_ <? _); discriminate.
Qed.

(** ** C34 *)

(** Elements of a validated sequence: the payload ends with [pre ++ concat ps], element [i] is the
    [i]-th of the pieces [ps], every other index is an error. *)
Theorem C34_seq : forall E b w, wf_env E -> seq_open E true b = Ok w ->
  match sw_offs w with
  | None => forall i, element_bytes w i = Err (EDeserialize MNotIndexed)
  | Some _ => exists hd pre ps, b = hd ++ pre ++ concat ps /\ len ps = sw_len w
      /\ forall i, element_bytes w i = match nth_error ps (N.to_nat i) with
                                       | Some x => Ok x
                                       | None => Err (EDeserialize (MOther 1))
                                       end
  end.
Proof.
  intros E b w W H. assert (U : 16 <= 2 ^ e_ub E) by (destruct (we_ub _ W) as [-> | ->]; vm_compute; discriminate).
  pose proof (seq_open_spec E true b U) as S. rewrite H in S. destruct S as [[_ S] _]. unfold element_bytes. destruct (sw_offs w) as [t|]; [|reflexivity].
  destruct (S t eq_refl) as (hd & Hb & Lt & Ho). specialize (Ho eq_refl).
  destruct (ends_mono t 0 4 (sw_len w) _ (len (sw_body w)) Ho (N.le_refl _)) as [M B].
  set (c := ends t 0 4 (sw_len w) (len (sw_body w))) in *.
  destruct (tiles (sw_body w) c (sw_len w) M) as (pre & Hp & _); [unfold c; apply ends_out; lia|].
  exists (hd ++ t), pre, (pieces (sw_body w) c 0 (N.to_nat (sw_len w))).
  split; [rewrite <- Hp, <- app_assoc; exact Hb|]. split; [unfold len at 1; rewrite pieces_length, N2Nat.id; reflexivity|].
  intros i. destruct (N.leb_spec (sw_len w) i) as [Hi|Hi].
  - rewrite (proj2 (nth_error_None _ _)); [reflexivity|]. rewrite pieces_length. lia.
  - rewrite pieces_nth by lia. rewrite N2Nat.id. rewrite u32_in by lia. cbn [rbind].
    assert (E1 : off t (i * 4) = c i) by (unfold c; rewrite ends_in by exact Hi; rewrite N.add_0_r; reflexivity).
    assert (E2 : (if i + 1 <? sw_len w then u32_at t ((i + 1) * 4) else Ok (len (sw_body w))) = Ok (c (i + 1))).
    { unfold c, ends. destruct (N.ltb_spec (i + 1) (sw_len w)); [|reflexivity]. rewrite u32_in by lia. rewrite N.add_0_r. reflexivity. }
    rewrite E2, E1. cbn [rbind]. apply at_in; [apply M; exact Hi|apply B].
Qed.

(** Fields of a validated struct: they follow the offset table and tile the rest of the payload. *)
Theorem C34_struct : forall b count w, struct_open true b count = Ok w ->
  exists pre ps, b = pre ++ concat ps /\ count * 4 <= len pre /\ len ps = count
    /\ forall i, field_bytes w i = match nth_error ps (N.to_nat i) with
                                   | Some x => Ok x
                                   | None => Err (EDeserialize (MOther 1))
                                   end.
Proof.
  intros b count w H. unfold struct_open in H. destruct (N.ltb_spec (len b) (count * 4)) as [L|L]; [discriminate|].
  rewrite at_in in H by lia. cbn [rbind] in H. set (t := cutout b 0 (count * 4)) in *.
  assert (Lt : len t = count * 4) by (unfold t; rewrite len_cutout by lia; lia).
  assert (Ot : forall j, j < count -> off t (j * 4) = off b (j * 4)).
  { intros j Hj. apply off_prefix; lia. }
  pose proof (prologue_spec t count 4 (len b mod 2 ^ 32)) as P.
  assert (Hf : forall j, j < count -> j * 4 + 4 <= len t) by (intros; lia). specialize (P Hf).
  destruct (validate_prologue _ _ _ _); cbn [rbind] in H; [|discriminate|discriminate].
  apply monotone_order in P. destruct P as [P1 P2].
  assert (Ob : in_order b 0 4 count (len b)).
  { split; intros j Hj.
    - specialize (P1 j Hj). rewrite N.add_0_r in *. rewrite Ot in P1 by exact Hj. pose proof (N.mod_le (len b) (2 ^ 32)). lia.
    - specialize (P2 j Hj). rewrite !N.add_0_r in *. rewrite !Ot in P2 by lia. exact P2. }
  destruct (ends_mono b 0 4 count _ (len b) Ob (N.le_refl _)) as [M B].
  set (c := ends b 0 4 count (len b)) in *.
  assert (Hw : w = mkStructW b count /\ count * 4 <= c 0).
  { destruct (N.ltb_spec 0 count) as [Hc|Hc].
    - rewrite u32_in in H by lia. cbn [rbind] in H. destruct (N.ltb_spec (off b 0) (count * 4)); [discriminate|]. inversion H. split; [reflexivity|].
      unfold c. rewrite ends_in by exact Hc. exact H0.
    - inversion H. split; [reflexivity|]. lia. }
  destruct Hw as [-> Hc0].
  destruct (tiles b c count M) as (pre & Hp & Lp); [unfold c; apply ends_out; lia|].
  exists pre, (pieces b c 0 (N.to_nat count)). split; [exact Hp|]. split; [rewrite Lp; exact Hc0|].
  split; [unfold len; rewrite pieces_length, N2Nat.id; reflexivity|]. unfold field_bytes. cbn [stw_count stw_payload].
  intros i. destruct (N.leb_spec count i) as [Hi|Hi].
  - rewrite (proj2 (nth_error_None _ _)); [reflexivity|]. rewrite pieces_length. lia.
  - rewrite pieces_nth by lia. rewrite N2Nat.id. rewrite u32_in by lia. cbn [rbind].
    assert (E1 : off b (i * 4) = c i) by (unfold c; rewrite ends_in by exact Hi; rewrite N.add_0_r; reflexivity).
    assert (E2 : (if i + 1 <? count then u32_at b ((i + 1) * 4) else Ok (len b)) = Ok (c (i + 1))).
    { unfold c, ends. destruct (N.ltb_spec (i + 1) count); [|reflexivity]. rewrite u32_in by lia. rewrite N.add_0_r. reflexivity. }
    rewrite E2, E1. cbn [rbind]. apply at_in; [apply M; exact Hi|apply B].
Qed.

(** Entries of a validated map: keys and values tile their regions, the keys are strictly
    ascending, iteration gives the entries in order, and every lookup returns an entry or nothing. *)
Definition payload_bounds (E : env) (b : bytes) : Prop := wfb b /\ len b < 2 ^ (e_ub E - 1).
Lemma bounds16 : forall E b, wf_env E -> payload_bounds E b -> len b + 16 <= 2 ^ e_ub E.
Proof.
  intros E b W [_ Hl]. destruct (we_ub _ W) as [Hu|Hu]; rewrite Hu in *; revert Hl; clear; intros Hl.
  - change (2 ^ (32 - 1)) with 2147483648 in Hl. change (2 ^ 32) with 4294967296. lia.
  - change (2 ^ (64 - 1)) with 9223372036854775808 in Hl. change (2 ^ 64) with 18446744073709551616. lia.
Qed.
Lemma map_parts_of : forall E v b w, wf_env E -> payload_bounds E b -> map_open E v b = Ok w -> map_parts v b w.
Proof.
  intros E v b w W P H. pose proof (map_open_spec E v b (we_ub _ W) (proj1 P) (bounds16 E b W P)) as S. rewrite H in S. apply S.
Qed.
Lemma combine_pieces : forall n kb kc vb vc,
  combine (pieces kb kc 0 n) (pieces vb vc 0 n)
  = map (fun j => (cutout kb (kc (N.of_nat j)) (kc (N.of_nat j + 1)), cutout vb (vc (N.of_nat j)) (vc (N.of_nat j + 1)))) (seq 0 n).
Proof.
  intros n kb kc vb vc. unfold pieces. induction (seq 0 n) as [|x l IH]; [reflexivity|]. cbn [map combine]. rewrite IH. reflexivity.
Qed.
Lemma sorted_pieces : forall kb kc n i, (forall a b, a < b -> b < i + N.of_nat n -> bcmp (cutout kb (kc a) (kc (a + 1))) (cutout kb (kc b) (kc (b + 1))) = Lt) ->
  StronglySorted (fun x y => bcmp x y = Lt) (pieces kb kc i n).
Proof.
  intros kb kc. induction n as [|n IH]; intros i H; [constructor|]. rewrite pieces_S. constructor.
  - apply IH. intros a b Hab Hb. apply H; [exact Hab|lia].
  - unfold pieces. apply Forall_map, Forall_forall. intros j Hj. apply in_seq in Hj. apply H; lia.
Qed.
Theorem C34_map : forall E b w, wf_env E -> payload_bounds E b -> map_open E true b = Ok w ->
  match mw_pro w with
  | None => entries w = None /\ forall pred hint, find_value_bytes w pred = Err (EDeserialize MNotIndexed)
              /\ find_value_bytes_with_hint w hint pred = Err (EDeserialize MNotIndexed)
  | Some _ => exists hd kpre ks vpre vs tl,
      b = hd ++ kpre ++ concat ks ++ vpre ++ concat vs ++ tl /\ len ks = mw_len w /\ len vs = mw_len w
      /\ StronglySorted (fun x y => bcmp x y = Lt) ks
      /\ entries w = Some (Ok (combine ks vs))
      /\ forall pred hint, exists r r' h,
           find_value_bytes w pred = Ok r /\ find_value_bytes_with_hint w hint pred = Ok (r', h)
           /\ forall v, r = Some v \/ r' = Some v -> exists k, In (k, v) (combine ks vs) /\ pred k = Eq
  end.
Proof.
  intros E b w W P H. apply (map_parts_of E true b w W P) in H. destruct H as [_ H].
  destruct (mw_pro w) as [p|] eqn:Hp.
  2: { unfold entries, find_value_bytes, find_value_bytes_with_hint. rewrite Hp. auto. }
  destruct (H p eq_refl) as (hd & lens & tl & Hb & L1 & _ & _ & Lt & Ho). destruct (Ho eq_refl) as (O1 & O2 & Ha).
  set (n := mw_len w) in *.
  destruct (ends_mono _ 0 8 n _ _ O1 (N.le_refl _)) as [M1 B1]. destruct (ends_mono _ 4 8 n _ _ O2 (N.le_refl _)) as [M2 B2].
  set (kc := ends (mp_table p) 0 8 n (len (mp_keys p))) in *. set (vc := ends (mp_table p) 4 8 n (len (mp_vals p))) in *.
  destruct (tiles (mp_keys p) kc n M1) as (kpre & Hk & _); [unfold kc; apply ends_out; lia|].
  destruct (tiles (mp_vals p) vc n M2) as (vpre & Hv & _); [unfold vc; apply ends_out; lia|].
  pose proof (content_in p n Lt O1 O2) as C.
  set (kf := piece (mp_table p) 0 8 n (mp_keys p)) in *. set (vf := piece (mp_table p) 4 8 n (mp_vals p)) in *.
  assert (EL : combine (pieces (mp_keys p) kc 0 (N.to_nat n)) (pieces (mp_vals p) vc 0 (N.to_nat n)) = listed n kf vf) by apply combine_pieces.
  exists (hd ++ mp_table p ++ lens), kpre, (pieces (mp_keys p) kc 0 (N.to_nat n)), vpre, (pieces (mp_vals p) vc 0 (N.to_nat n)), tl.
  split; [rewrite (app_assoc kpre), (app_assoc vpre), <- Hk, <- Hv, <- !app_assoc; exact Hb|].
  split; [unfold len at 1; rewrite pieces_length, N2Nat.id; reflexivity|]. split; [unfold len at 1; rewrite pieces_length, N2Nat.id; reflexivity|].
  split; [apply sorted_pieces; intros x y Hxy Hy; apply (ascending_sorted n kf Ha x y Hxy); lia|].
  split; [etransitivity; [exact (entries_listed w p kf vf Hp Lt C)|]; apply (f_equal (fun x => Some (Ok x))); symmetry; exact EL|].
  intros pred hint. destruct (find_any w p kf vf pred Hp C) as (r & F & Hr). destruct (hint_any w p kf vf pred hint Hp C) as (r' & h & F' & Hr').
  exists r, r', h. split; [exact F|]. split; [exact F'|].
  intros v Hv'. assert (R : exists k, In (k, v) (listed n kf vf) /\ pred k = Eq) by (destruct Hv' as [Hv'|Hv']; [apply Hr|apply Hr']; exact Hv').
  rewrite <- EL in R. exact R.
Qed.

(** ** C30, C31 on validated payloads *)
Theorem C30_validated : forall E b w es probe, wf_env E -> payload_bounds E b -> map_open E true b = Ok w -> entries w = Some (Ok es) ->
  exists r, find_value_bytes w (fun k => bcmp k probe) = Ok r /\ forall v, r = Some v <-> In (probe, v) es.
Proof.
  intros E b w es probe W P H He. apply (map_parts_of E true b w W P) in H. destruct H as [_ H].
  destruct (mw_pro w) as [p|] eqn:Hp; [|unfold entries in He; rewrite Hp in He; discriminate].
  destruct (H p eq_refl) as (hd & lens & tl & Hb & L1 & _ & _ & Lt & Ho). destruct (Ho eq_refl) as (O1 & O2 & Ha).
  pose proof (content_in p _ Lt O1 O2) as C. rewrite (entries_listed w p _ _ Hp Lt C) in He. inversion He. subst es.
  apply (find_exact w p _ _ probe Hp C). apply ascending_sorted. exact Ha.
Qed.
Theorem C31_validated : forall E b w es probe hint, wf_env E -> payload_bounds E b -> map_open E true b = Ok w -> entries w = Some (Ok es) ->
  len es <= 2 ^ 32 ->
  exists r h, find_value_bytes_with_hint w hint (fun k => bcmp k probe) = Ok (r, h)
    /\ find_value_bytes w (fun k => bcmp k probe) = Ok r
    /\ match r with
       | Some v => exists i, h = Some i /\ nth_error es (N.to_nat i) = Some (probe, v)
       | None => h = hint
       end.
Proof.
  intros E b w es probe hint W P H He Hl. apply (map_parts_of E true b w W P) in H. destruct H as [_ H].
  destruct (mw_pro w) as [p|] eqn:Hp; [|unfold entries in He; rewrite Hp in He; discriminate].
  destruct (H p eq_refl) as (hd & lens & tl & Hb & L1 & _ & _ & Lt & Ho). destruct (Ho eq_refl) as (O1 & O2 & Ha).
  pose proof (content_in p _ Lt O1 O2) as C. rewrite (entries_listed w p _ _ Hp Lt C) in He. inversion He. subst es.
  apply (hint_exact w p _ _ probe hint Hp C); [apply ascending_sorted; exact Ha|].
  unfold listed, len in Hl. rewrite map_length, seq_length, N2Nat.id in Hl. exact Hl.
Qed.

(** ** C35: without validation *)
Definition inside (x b : bytes) : Prop := exists p q, b = p ++ x ++ q.
Lemma inside_trans : forall x y z, inside x y -> inside y z -> inside x z.
Proof. intros x y z (p & q & ->) (p' & q' & ->). exists (p' ++ p), (q ++ q'). rewrite <- !app_assoc. reflexivity. Qed.
(** Map accessors and lookups: no panic, and only bytes of the payload. *)
Theorem C35_map : forall E v b w, wf_env E -> payload_bounds E b -> map_open E v b = Ok w ->
  (forall r, entries w = Some r -> exists es, r = Ok es /\ len es = mw_len w /\ forall x y, In (x, y) es -> inside x b /\ inside y b)
  /\ forall pred hint,
     match find_value_bytes w pred with Ok (Some x) => inside x b | Panic _ => False | _ => True end
     /\ match find_value_bytes_with_hint w hint pred with Ok (Some x, _) => inside x b | Panic _ => False | _ => True end.
Proof.
  intros E v b w W P H. apply (map_parts_of E v b w W P) in H. destruct H as [_ H].
  unfold entries, find_value_bytes, find_value_bytes_with_hint.
  destruct (mw_pro w) as [p|] eqn:Hp; [|split; [discriminate|auto]].
  destruct (H p eq_refl) as (hd & lens & tl & Hb & L1 & _ & _ & Lt & _).
  assert (Ik : inside (mp_keys p) b) by (exists (hd ++ mp_table p ++ lens), (mp_vals p ++ tl); rewrite <- !app_assoc; exact Hb).
  assert (Iv : inside (mp_vals p) b) by (exists (hd ++ mp_table p ++ lens ++ mp_keys p), tl; rewrite <- !app_assoc; exact Hb).
  split.
  - intros r Hr. inversion Hr. clear Hr H1 r. destruct (N.eqb_spec (mw_len w) 0) as [Z|Z].
    + exists []. split; [reflexivity|]. split; [symmetry; exact Z|]. intros x y [].
    + rewrite !u32_in by lia. cbn [rbind]. destruct (entries_safe (N.to_nat (mw_len w)) p (mw_len w) 0 (off (mp_table p) 0) (off (mp_table p) 4) Lt) as (l & -> & Ll & Hl); [lia|].
      exists l. split; [reflexivity|]. split; [unfold len; lia|]. intros x y Hxy. destruct (Hl x y Hxy) as [H1 H2].
      split; [exact (inside_trans _ _ _ H1 Ik)|exact (inside_trans _ _ _ H2 Iv)].
  - intros pred hint. pose proof (bsearch_safe (N.to_nat (mw_len w)) p (mw_len w) pred 0 (mw_len w) Lt (N.le_refl _)) as S.
    assert (S0 : mw_len w - 0 <= N.of_nat (N.to_nat (mw_len w))) by lia. specialize (S S0).
    assert (BS : forall hint : option N, match rmap (fun r => match r with Some (value, i) => (Some value, Some i) | None => (None, hint) end)
        (bsearch (N.to_nat (mw_len w)) p (mw_len w) 0 (mw_len w) pred) with Ok (Some x, _) => inside x b | Panic _ => False | _ => True end).
    { intros h. destruct (bsearch _ _ _ _ _ _) as [[[x m]|]|e|pp]; cbn [rmap rbind]; try exact I; [|exact S]. exact (inside_trans _ _ _ S Iv). }
    split.
    + destruct (bsearch _ _ _ _ _ _) as [[[x m]|]|e|pp]; cbn [rmap rbind option_map fst]; try exact I; [|exact S]. exact (inside_trans _ _ _ S Iv).
    + destruct hint as [h|]; [|cbn [rbind]; apply BS]. unfold probe_hint. destruct (N.leb_spec (mw_len w) h) as [L|L]; [cbn [rbind]; apply BS|].
      rewrite entry_ranges_in by assumption. cbn [rbind fst snd]. destruct (get (mp_keys p) _ _); [|cbn [rbind]; apply BS].
      destruct (pred b0); try (cbn [rbind]; apply BS). destruct (get (mp_vals p) _ _) as [x|] eqn:G; cbn [rbind]; [|apply BS].
      apply get_some in G. destruct G as (G1 & G2 & ->). destruct (cutout_split _ _ _ G1 G2) as (p1 & q1 & Hx & _).
      apply (inside_trans _ (mp_vals p)); [exists p1, q1; exact Hx|exact Iv].
Qed.

(** The 32-bit word [i] of a table. *)
Definition word (t : bytes) (i : N) : N := le_val (firstn 4 (skipn (N.to_nat (i * 4)) t)).
Lemma word_off : forall t i, word t i = off t (i * 4).
Proof. intros. unfold word, off, cutout. replace (N.to_nat (i * 4 + 4 - i * 4)) with 4%nat by lia. reflexivity. Qed.
(** Sequence and struct accessors: element [i] runs from word [i] to word [i+1] (or the end of
    the data); reading it gives those bytes, or panics if they are not a range of the data. *)
Definition range_or_panic (b : bytes) (s e : N) (r : res bytes) : Prop :=
  if (s <=? e) && (e <=? len b) then exists x p q, r = Ok x /\ b = p ++ x ++ q /\ len p = s /\ len x = e - s else panics r.
Lemma range_at : forall b s e, range_or_panic b s e (at_range b s e).
Proof.
  intros b s e. unfold range_or_panic. destruct (N.leb_spec s e); destruct (N.leb_spec e (len b)); cbn [andb];
    try (rewrite at_out by lia; exists PSlice; reflexivity). rewrite at_in by assumption.
  destruct (cutout_split b s e) as (p & q & Hb & Hp); [assumption|assumption|]. exists (cutout b s e), p, q.
  split; [reflexivity|]. split; [exact Hb|]. split; [exact Hp|apply len_cutout; assumption].
Qed.
Theorem C35_seq : forall E v b w, wf_env E -> seq_open E v b = Ok w ->
  inside (sw_body w) b /\
  forall i, match sw_offs w with
            | None => exists e, element_bytes w i = Err e
            | Some t => if i <? sw_len w
                then range_or_panic (sw_body w) (word t i) (if i + 1 <? sw_len w then word t (i + 1) else len (sw_body w)) (element_bytes w i)
                else exists e, element_bytes w i = Err e
            end.
Proof.
  intros E v b w W H. assert (U : 16 <= 2 ^ e_ub E) by (destruct (we_ub _ W) as [-> | ->]; vm_compute; discriminate).
  pose proof (seq_open_spec E v b U) as S. rewrite H in S. destruct S as [[(hd & Hh & _) S] _].
  split; [exists hd, []; rewrite app_nil_r; exact Hh|]. intros i. unfold element_bytes.
  destruct (sw_offs w) as [t|]; [|eexists; reflexivity]. destruct (S t eq_refl) as (hd' & Hb & Lt & _).
  rewrite N.ltb_antisym. destruct (N.leb_spec (sw_len w) i) as [Hi|Hi]; cbn [negb]; [eexists; reflexivity|].
  rewrite u32_in by lia. cbn [rbind]. rewrite <- word_off.
  destruct (N.ltb_spec (i + 1) (sw_len w)); [rewrite u32_in by lia; rewrite <- word_off|]; cbn [rbind]; apply range_at.
Qed.
Theorem C35_struct : forall v b count w, struct_open v b count = Ok w ->
  forall i, if i <? count
            then range_or_panic b (word b i) (if i + 1 <? count then word b (i + 1) else len b) (field_bytes w i)
            else exists e, field_bytes w i = Err e.
Proof.
  intros v b count w H i.
  assert (Hw : w = mkStructW b count /\ count * 4 <= len b).
  { unfold struct_open in H. destruct (N.ltb_spec (len b) (count * 4)) as [L|L]; [discriminate|]. split; [|exact L].
    destruct v; [|inversion H; reflexivity]. rewrite at_in in H by lia. cbn [rbind] in H. destruct (validate_prologue _ _ _ _); cbn [rbind] in H; try discriminate.
    destruct (0 <? count); [|inversion H; reflexivity]. destruct (u32_at b 0); cbn [rbind] in H; try discriminate. destruct (_ <? _); inversion H; reflexivity. }
  destruct Hw as [-> L]. unfold field_bytes. cbn [stw_count stw_payload].
  rewrite N.ltb_antisym. destruct (N.leb_spec count i) as [Hi|Hi]; cbn [negb]; [eexists; reflexivity|].
  rewrite u32_in by lia. cbn [rbind]. rewrite <- word_off.
  destruct (N.ltb_spec (i + 1) count); [rewrite u32_in by lia; rewrite <- word_off|]; cbn [rbind]; apply range_at.
Qed.

(** ** C33 does not hold for all payloads: short ones that make the constructors panic, in debug
    ([new]) and in release ([new_rel]) builds *)
Definition huge_seq : bytes := [1; 253; 255; 255; 255; 255; 255; 255; 255; 63].
Definition huge_map : bytes := [1; 253; 255; 255; 255; 255; 255; 255; 255; 31].
Definition empty_map : bytes := [1; 0; 0; 0; 0; 0; 0; 0; 0; 0].
Theorem C33_seq_refuted : forall v, panics (seq_open new v huge_seq) /\ panics (seq_open new_rel v huge_seq).
Proof. intros [|]; split; eexists; vm_compute; reflexivity. Qed.
Theorem C33_map_refuted : forall v, panics (map_open new v huge_map) /\ panics (map_open new_rel v huge_map).
Proof. intros [|]; split; eexists; vm_compute; reflexivity. Qed.
(** A well-formed indexed map with no entries. *)
Theorem C33_empty_map_refuted : panics (map_open new true empty_map) /\ panics (map_open new_rel true empty_map)
  /\ exists w, map_open new false empty_map = Ok w /\ entries w = Some (Ok []).
Proof. split; [eexists; vm_compute; reflexivity|]. split; [eexists; vm_compute; reflexivity|]. eexists. split; vm_compute; reflexivity. Qed.

(** ** The hypotheses are met *)
Example bounds_scores : payload_bounds new scores_bytes.
Proof. split; [|vm_compute; reflexivity]. unfold wfb. apply Forall_forall. intros x Hx. apply N.ltb_lt. revert x Hx. apply forallb_forall. vm_compute. reflexivity. Qed.
Example C34_case : (exists w, seq_open new true ports_bytes = Ok w) /\ (exists w es, map_open new true scores_bytes = Ok w /\ entries w = Some (Ok es) /\ len es = 9)
  /\ exists w, struct_open true [8; 0; 0; 0; 10; 0; 0; 0; 1; 2; 3] 2 = Ok w /\ field_bytes w 0 = Ok [1; 2] /\ field_bytes w 1 = Ok [3].
Proof.
  split; [eexists; vm_compute; reflexivity|]. split; [eexists; eexists; split; [vm_compute; reflexivity|split; vm_compute; reflexivity]|].
  eexists. split; [vm_compute; reflexivity|split; vm_compute; reflexivity].
Qed.
(** Not validated, offsets out of order: [9, 8]. *)
Example C35_case : struct_open true [9; 0; 0; 0; 8; 0; 0; 0; 1; 2; 3] 2 = Err ENonMonotonic
  /\ exists w, struct_open false [9; 0; 0; 0; 8; 0; 0; 0; 1; 2; 3] 2 = Ok w /\ panics (field_bytes w 0) /\ field_bytes w 1 = Ok [1; 2; 3].
Proof. split; [vm_compute; reflexivity|]. eexists. split; [vm_compute; reflexivity|]. split; [eexists; vm_compute; reflexivity|vm_compute; reflexivity]. Qed.

Print Assumptions C30_validated.
Print Assumptions C31_validated.
Print Assumptions C33_seq_panics_iff.
Print Assumptions C33_map_panics_iff.
Print Assumptions C33_struct_no_panic.
Print Assumptions C33_seq_refuted.
Print Assumptions C33_map_refuted.
Print Assumptions C33_empty_map_refuted.
Print Assumptions C34_seq.
Print Assumptions C34_map.
Print Assumptions C34_struct.
Print Assumptions C35_map.
Print Assumptions C35_seq.
Print Assumptions C35_struct.
