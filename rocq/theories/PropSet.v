(** C86: membership tests in indexed sets (README "membership via walker"; indexed/serialize.rs:191-194, 445: "can be used for
    binary-search membership tests"). *)

From Verif Require Import Base BaseL Prog ProgL Prim Ty Ser De Typed Mig SortL RtL Parts Agree SerL Spec Cross OrderFree OrdL Ex PropIdx IdxL IdxWalk IdxWalkL IdxEncL PropView PropWire PropEnc.
From Coq Require Import List NArith ZArith Bool Lia Arith Sorted Permutation.
Import ListNotations.
Open Scope N_scope.

(** The search a user writes: halve a range of indices, looking at the middle element only.  It may look [fuel] times. *)
Fixpoint bin_search (fuel : nat) (get : N -> res bytes) (key : bytes) (lo hi : N) : res (option N) :=
  if hi <=? lo then Ok None
  else match fuel with
       | O => Panic PStack
       | S f =>
           let mid := lo + (hi - lo) / 2 in
           rbind (get mid) (fun e => match bcmp e key with
                                     | Eq => Ok (Some mid)
                                     | Lt => bin_search f get key (mid + 1) hi
                                     | Gt => bin_search f get key lo mid
                                     end)
       end.
(** How often it has to look at a sequence of [n] elements: once more than [n] can be halved. *)
Definition looks (n : N) : nat := S (N.to_nat (N.log2 n)).

Lemma looks_enough : forall n, n < 2 ^ N.of_nat (looks n).
Proof.
  intros n. unfold looks. destruct (N.eq_dec n 0) as [->|H]; [reflexivity|]. rewrite Nat2N.inj_succ, N2Nat.id. apply N.log2_spec. lia.
Qed.
Lemma mid_bounds : forall lo hi f, lo < hi -> hi - lo < 2 ^ N.of_nat (S f) ->
  let mid := lo + (hi - lo) / 2 in lo <= mid /\ mid < hi /\ mid - lo < 2 ^ N.of_nat f /\ hi - (mid + 1) < 2 ^ N.of_nat f.
Proof.
  intros lo hi f H K. rewrite Nat2N.inj_succ, N.pow_succ_r' in K. remember (2 ^ N.of_nat f) as M. cbv zeta.
  pose proof (N.div_mod (hi - lo) 2 ltac:(discriminate)) as D. pose proof (N.mod_lt (hi - lo) 2 ltac:(discriminate)). clear HeqM. lia.
Qed.
Lemma search_ok : forall (get : N -> res bytes) es key, (forall i, get i = match nth_error es (N.to_nat i) with Some e => Ok e | None => Err (EDeserialize (MOther 1)) end) ->
  StronglySorted (fun x y => bcmp x y = Lt) es -> forall f lo hi, hi <= len es -> hi - lo < 2 ^ N.of_nat f ->
  (forall i x, nth_error es i = Some x -> x = key -> lo <= N.of_nat i < hi) ->
  exists r, bin_search f get key lo hi = Ok r /\ match r with Some i => nth_error es (N.to_nat i) = Some key | None => ~ In key es end.
Proof.
  intros get es key Hg Hs f. induction f as [|f IH]; intros lo hi Hh Hf Hk.
  - cbn [bin_search]. change (2 ^ N.of_nat 0) with 1 in Hf. destruct (N.leb_spec hi lo); [|lia]. eexists. split; [reflexivity|]. cbv iota. intros Hin. apply In_nth_error in Hin. destruct Hin as [i Hi]. specialize (Hk i key Hi eq_refl). lia.
  - cbn [bin_search]. destruct (N.leb_spec hi lo) as [H|H].
    + eexists. split; [reflexivity|]. cbv iota. intros Hin. apply In_nth_error in Hin. destruct Hin as [i Hi]. specialize (Hk i key Hi eq_refl). lia.
    + destruct (mid_bounds lo hi f H Hf) as (M1 & M2 & M3 & M4). cbv zeta in M1, M2, M3, M4 |- *. set (mid := lo + (hi - lo) / 2) in *.
      assert (Hm : (N.to_nat mid < length es)%nat) by (unfold len in Hh; lia). rewrite Hg. destruct (nth_error es (N.to_nat mid)) as [e|] eqn:Ee; [|apply nth_error_None in Ee; lia].
      cbn [rbind].
      assert (Ord : forall i j x y, nth_error es i = Some x -> nth_error es j = Some y -> (i < j)%nat -> bcmp x y = Lt).
      { clear - Hs. induction Hs as [|a l Hs IH Ha]; intros i j x y Hi Hj Hij; [destruct i; discriminate|]. destruct j as [|j]; [lia|]. cbn in Hj. destruct i as [|i]; cbn in Hi.
        - inversion Hi; subst. rewrite Forall_forall in Ha. apply Ha. eapply nth_error_In; exact Hj.
        - eapply (IH i j); eauto. lia. }
      destruct (bcmp e key) eqn:Ec.
      * apply bcmp_eq in Ec. subst e. eexists. split; [reflexivity|]. exact Ee.
      * apply IH; [exact Hh|exact M4|]. intros i x Hi ->. specialize (Hk i key Hi eq_refl). destruct (Nat.lt_trichotomy i (N.to_nat mid)) as [L|[L|L]]; [|subst i; rewrite Ee in Hi; inversion Hi; subst; rewrite (proj2 (bcmp_eq key key) eq_refl) in Ec; discriminate|lia].
        pose proof (Ord _ _ _ _ Hi Ee L) as Q. pose proof (bcmp_lt _ _ _ Q Ec) as Z. rewrite (proj2 (bcmp_eq key key) eq_refl) in Z. discriminate.
      * apply IH; [lia|exact M3|]. intros i x Hi ->. specialize (Hk i key Hi eq_refl). destruct (Nat.lt_trichotomy i (N.to_nat mid)) as [L|[L|L]]; [lia|subst i; rewrite Ee in Hi; inversion Hi; subst; rewrite (proj2 (bcmp_eq key key) eq_refl) in Ec; discriminate|].
        pose proof (Ord _ _ _ _ Ee Hi L) as Q. rewrite Ec in Q. discriminate.
Qed.
Lemma search_safe : forall get key f lo hi, (forall i q, get i <> Panic q) -> hi - lo < 2 ^ N.of_nat f -> forall q, bin_search f get key lo hi <> Panic q.
Proof.
  intros get key f. induction f as [|f IH]; intros lo hi Hg Hf q; cbn [bin_search]; (destruct (N.leb_spec hi lo) as [H|H]; [discriminate|]).
  - change (2 ^ N.of_nat 0) with 1 in Hf. lia.
  - destruct (mid_bounds lo hi f H Hf) as (M1 & M2 & M3 & M4). cbv zeta. destruct (get _) as [e|e|p] eqn:G; [|discriminate|exfalso; exact (Hg _ _ G)]. cbn [rbind].
    destruct (bcmp e key); [discriminate|apply IH; assumption|apply IH; assumption].
Qed.

Lemma F2_in_r : forall A B (R : A -> B -> Prop) l r, Forall2 R l r -> forall y, In y r -> exists x, In x l /\ R x y.
Proof.
  intros A B R l r H. induction H as [|x y l r Hx H IH]; intros z Hz; [destruct Hz|]. destruct Hz as [<-|Hz]; [exists x; split; [left; reflexivity|exact Hx]|]. destruct (IH z Hz) as (w & Hw & K). exists w. split; [right; exact Hw|exact K].
Qed.
Lemma F2_nth_r : forall A B (R : A -> B -> Prop) l r, Forall2 R l r -> forall i y, nth_error r i = Some y -> exists x, nth_error l i = Some x /\ R x y.
Proof.
  intros A B R l r H. induction H as [|x y l r Hx H IH]; intros [|i] z Hz; try discriminate; cbn in Hz.
  - inversion Hz; subst. exists x. auto.
  - apply IH. exact Hz.
Qed.
Lemma F2_nth_l : forall A B (R : A -> B -> Prop) l r, Forall2 R l r -> forall i x, nth_error l i = Some x -> exists y, nth_error r i = Some y /\ R x y.
Proof.
  intros A B R l r H. induction H as [|x y l r Hx H IH]; intros [|i] z Hz; try discriminate; cbn in Hz.
  - inversion Hz; subst. exists y. auto.
  - apply IH. exact Hz.
Qed.
Lemma Permutation_in_iff : forall A (l l' : list A) x, Permutation l l' -> (In x l <-> In x l').
Proof. intros A l l' x P. split; apply Permutation_in; [exact P|apply Permutation_sym, P]. Qed.
(** The pieces of a set: the encodings of its elements, no two alike, none empty. *)
Lemma set_pieces : forall E d k a l b, wf_env E -> sizes_honest E -> wt E d (TSet k a) (VSeq l) -> encode_field E d MIdxSet (TSet k a) (VSeq l) = Ok b ->
  exists l' es, Permutation l' l /\ encodings E d a l' es /\ StronglySorted (fun x y => bcmp x y = Lt) es /\ enc_idx_seq es = Ok b /\ (2 <= len es -> ~ In [] es).
Proof.
  intros E d k a l b W Hh Hw H. destruct (encode_set E d k a l b W H) as (l' & es & P & R & S & Eb). exists l', es. split; [exact P|]. split; [exact R|].
  assert (Wl : Forall (wt E d a) l'). { unfold wt in *. cbn [wt_ty] in Hw. destruct Hw as (_ & Hw & _). rewrite Forall_forall in *. intros x Hx. apply Hw. eapply Permutation_in; [exact P|exact Hx]. }
  assert (ND : NoDup l'). { apply (Permutation_NoDup (Permutation_sym P)). unfold wt in Hw. cbn [wt_ty] in Hw. destruct Hw as (_ & _ & Hw). clear - Hw W. induction Hw as [|x l Hl IH Hx]; [constructor|]. constructor; [|exact IH].
    intros Hi. rewrite Forall_forall in Hx. specialize (Hx x Hi). pose proof (o_sym _ (proj1 (lawful_order _) (we_cmp E W a)) x x) as O. rewrite Hx in O. discriminate. }
  assert (NE : NoDup es).
  { clear - R Wl ND W Hh. induction R as [|x e l es Hx R IH]; [constructor|]. inversion Wl; subst. inversion ND; subst. constructor; [|apply IH; assumption]. intros Hi.
    apply (F2_in_r _ _ _ _ _ R) in Hi. destruct Hi as (y & Hy & Hey). assert (x = y). { apply (C04_injective E d a x y e W Hh); auto. rewrite Forall_forall in H2. apply H2. exact Hy. } subst y. contradiction. }
  split.
  { clear - S NE. induction S as [|x es S IH Hx]; [constructor|]. inversion NE; subst. constructor; [apply IH; assumption|]. rewrite Forall_forall in *. intros y Hy. specialize (Hx y Hy). destruct (bcmp x y) eqn:C; [|reflexivity|congruence]. apply bcmp_eq in C. subst y. contradiction. }
  split; [exact Eb|]. intros L Hi. apply In_nth_error in Hi. destruct Hi as [i Hi].
  assert (exists j e, nth_error es j = Some e /\ j <> i). { destruct es as [|e0 [|e1 es]]; [unfold len in L; cbn in L; lia..|]. destruct i as [|i]; [exists 1%nat, e1; split; [reflexivity|lia]|exists 0%nat, e0; split; [reflexivity|lia]]. }
  destruct H0 as (j & e & Hj & Hne).
  destruct (F2_nth_r _ _ _ _ _ R i [] Hi) as (x & Hx & Ex). destruct (F2_nth_r _ _ _ _ _ R j e Hj) as (y & Hy & Ey). rewrite Forall_forall in Wl.
  destruct (C04_prefix_free E d a x y [] e (e ++ []) [] W Hh (Wl x (nth_error_In _ _ Hx)) (Wl y (nth_error_In _ _ Hy)) Ex Ey eq_refl) as [-> Q].
  apply Hne. pose proof (proj1 (NoDup_nth_error l') ND j i) as Z. apply Z; [apply nth_error_Some; congruence|congruence].
Qed.

(** C86.  A set of at least 8 elements: the view always opens, its elements ascend strictly in the order of their bytes, and searching
    for the encoding of a value finds it exactly if the value is in the set, after at most log2 n + 1 looks. *)
Theorem C86_member : forall E d k a l b, wf_env E -> sizes_honest E -> wt E d (TSet k a) (VSeq l) ->
  encode_field E d MIdxSet (TSet k a) (VSeq l) = Ok b -> len b < 2 ^ 32 -> 8 <= len l ->
  exists w, seq_open E true b = Ok w /\ seq_open E false b = Ok w /\ sw_len w = len l
  /\ (forall i j x y, i < j -> element_bytes w i = Ok x -> element_bytes w j = Ok y -> bytes_before x y)
  /\ forall x bx, wt E d a x -> to_vec E d a x = Ok bx ->
     exists r, bin_search (looks (len l)) (element_bytes w) bx 0 (sw_len w) = Ok r
     /\ (r <> None <-> In x l) /\ (forall i, r = Some i -> element_bytes w i = Ok bx).
Proof.
  intros E d k a l b W Hh Hw H L Hl. destruct (set_pieces E d k a l b W Hh Hw H) as (l' & es & P & R & S & Eb & NE).
  assert (Le : len es = len l) by (rewrite <- (F2_len _ _ _ _ _ R); apply perm_len; exact P).
  destruct (seq_view_of E es b W Eb L) as [V A]. destruct (V ltac:(lia)) as (hd & w & Hb & O & O' & Hn & G).
  assert (Acc : seq_accepted E b). { apply A. right. intros j x Hj _ ->. apply NE; [lia|]. eapply nth_error_In; exact Hj. }
  destruct Acc as [w' Hw']. pose proof (O' _ Hw') as Q. subst w'. exists w. split; [exact Hw'|]. split; [exact O|]. split; [congruence|].
  assert (Ord : forall i j x y, nth_error es i = Some x -> nth_error es j = Some y -> (i < j)%nat -> bcmp x y = Lt).
  { clear - S. induction S as [|a l Hs IH Ha]; intros i j x y Hi Hj Hij; [destruct i; discriminate|]. destruct j as [|j]; [lia|]. cbn in Hj. destruct i as [|i]; cbn in Hi.
    - inversion Hi; subst. rewrite Forall_forall in Ha. apply Ha. eapply nth_error_In; exact Hj.
    - eapply (IH i j); eauto. lia. }
  split.
  - intros i j x y Hij Hx Hy. rewrite G in Hx, Hy. destruct (nth_error es (N.to_nat i)) eqn:Ei; [|discriminate]. destruct (nth_error es (N.to_nat j)) eqn:Ej; [|discriminate]. apply Ok_inj in Hx, Hy. subst.
    apply (proj1 (proj2 (C30_byte_order x y))). eapply Ord; [exact Ei|exact Ej|lia].
  - intros x bx Hx Hbx. rewrite Hn.
    destruct (search_ok (element_bytes w) es bx G S (looks (len l)) 0 (len es)) as (r & Hr & Hs); [lia|rewrite N.sub_0_r, Le; apply looks_enough|intros i y Hi _; split; [lia|]; pose proof (proj1 (nth_error_Some es i)) as Z; rewrite Hi in Z; specialize (Z ltac:(discriminate)); unfold len; lia|].
    exists r. split; [exact Hr|]. split.
    + rewrite <- (Permutation_in_iff _ _ _ x P). destruct r as [i|].
      * split; [intros _|discriminate]. destruct (F2_nth_r _ _ _ _ _ R _ _ Hs) as (y & Hy & Ey). assert (x = y); [|subst; eapply nth_error_In; exact Hy].
        apply (C04_injective E d a x y bx W Hh); auto. unfold wt in *. cbn [wt_ty] in Hw. destruct Hw as (_ & Hw & _). rewrite Forall_forall in Hw. apply Hw. eapply Permutation_in; [exact P|]. eapply nth_error_In; exact Hy.
      * split; [congruence|]. intros Hi. exfalso. apply Hs. apply In_nth_error in Hi. destruct Hi as [i Hi]. destruct (F2_nth_l _ _ _ _ _ R _ _ Hi) as (e & He & Ee). rewrite Hbx in Ee. apply Ok_inj in Ee. subst e. eapply nth_error_In; exact He.
    + intros i ->. rewrite G, Hs. reflexivity.
Qed.
(** C86.  A smaller set has no table: no element can be looked at, and the test is not to be had. *)
Theorem C86_small_refuted : forall E d k a l b, wf_env E -> wt E d (TSet k a) (VSeq l) -> encode_field E d MIdxSet (TSet k a) (VSeq l) = Ok b -> len b < 2 ^ 32 -> len l < 8 ->
  exists w, seq_open E true b = Ok w /\ sw_len w = len l /\ (forall i, element_bytes w i = Err (EDeserialize MNotIndexed))
  /\ forall key fuel, 0 < len l -> bin_search (S fuel) (element_bytes w) key 0 (sw_len w) = Err (EDeserialize MNotIndexed).
Proof.
  intros E d k a l b W Hw H L Hl. destruct (encode_set E d k a l b W H) as (l' & es & P & R & S & Eb).
  assert (Le : len es = len l) by (rewrite <- (F2_len _ _ _ _ _ R); apply perm_len; exact P).
  pose proof (open_idx_seq E es b (we_ub _ W) Eb (ub32 E b W L) (seq_pieces_small es b Eb L)) as O. destruct (N.ltb_spec (len es) 8) as [Hn|Hn]; [|lia].
  eexists. split; [apply O|]. cbn [sw_len]. split; [exact Le|]. split; [reflexivity|]. intros key fuel Hp. cbn [bin_search]. destruct (N.leb_spec (len es) 0); [lia|]. reflexivity.
Qed.
(** C86.  On any payload that passes validation the search ends within as many looks, with an answer or an error. *)
Theorem C86_untrusted : forall E b w key, wf_env E -> seq_open E true b = Ok w ->
  forall q, bin_search (looks (sw_len w)) (element_bytes w) key 0 (sw_len w) <> Panic q.
Proof.
  intros E b w key W Hw q. apply search_safe; [|rewrite N.sub_0_r; apply looks_enough]. intros i q' Hp. pose proof (C34_seq E b w W Hw) as V. destruct (sw_offs w).
  - destruct V as (hd & pre & ps & _ & _ & G). rewrite G in Hp. destruct (nth_error ps _); discriminate.
  - rewrite V in Hp. discriminate.
Qed.
(** C86.  The bytes of the set do not depend on the order in which a hash table yields the elements. *)
Theorem C86_order : forall E it d k a v bs, wf_env E -> sizes_honest E -> order_free E -> permutes it -> ordered a = true -> wt E d (TSet k a) v ->
  encode_field E d MIdxSet (TSet k a) v = Ok bs -> encode_field (set_iter it E) d MIdxSet (TSet k a) v = Ok bs.
Proof.
  intros E it d k a v bs W Hh Ho Hit Ha Hw H. refine (keeps_bytes _ _ (ord_field E it W Hh Hit Ho d MIdxSet (TSet k a) v _ Hw) bs H). cbn [field_ordered]. exact Ha.
Qed.

(** ** The hypotheses are met *)
Example C86_case : let w := seq_of ports_bytes in
  wt new 0 (TSet KHash (TInt U16)) ports /\ encode_field new 0 MIdxSet (TSet KHash (TInt U16)) ports = Ok ports_bytes /\ seq_open new true ports_bytes = Ok w
  /\ bin_search (looks 10) (element_bytes w) [251; 251; 0] 0 (sw_len w) = Ok (Some 5) /\ bin_search (looks 10) (element_bytes w) [251; 252; 7] 0 (sw_len w) = Ok None.
Proof. cbv zeta. split; [apply wtb_ok; vm_compute; reflexivity|]. repeat split; vm_compute; reflexivity. Qed.

Print Assumptions C86_member.
Print Assumptions C86_small_refuted.
Print Assumptions C86_untrusted.
Print Assumptions C86_order.
