(** C67: the fields of a struct walker in any order. *)

From Verif Require Import Base BaseL Prog ProgL Prim PrimL Utf8 Tag Ty Ser De Typed Mig DiscL RtL RtDer Agree Spec SliceReader Skip SkipIdx SkipL Format FormatL Ex Walk WalkSpec WalkL WalkEncL Cross Calls WalkRef.
From Coq Require Import List NArith ZArith Bool Lia.
Import ListNotations.
Open Scope N_scope.

(** The calls rustc accepts on a walker with these fields, but for [decode_<field>] of an [indexed_*] field
    (C37_indexed_refuted). *)
Definition allowed (fs : list field) (c : fcall) : Prop :=
  match c with
  | FDecode i => exists f, nth_error fs i = Some f /\ Walk.is_idx f = false
  | FSkip i => exists f, nth_error fs i = Some f
  | FView i => exists f, nth_error fs i = Some f /\ Walk.is_idx f = true
  | FWalk i _ => exists f, nth_error fs i = Some f /\ Walk.is_idx f = false
  end.
(** What each call shows, on the walker of an indexed struct with the fields [l]. *)
Definition answers (E : env) (fs : list field) (l : list val) (c : fcall) (r : res obs) : Prop :=
  match c with
  | FDecode i => exists v, nth_error l i = Some v /\ r = Ok (OVal v)
  | FSkip _ => r = Ok ODone
  | FView i => exists f v x, nth_error fs i = Some f /\ nth_error l i = Some v /\ field_image E f v x /\ r = Ok (OBytes x)
  | FWalk _ _ => r = Err (EConversion (MOther 7))
  end.

Lemma on_whole : forall A (p : prog A) b s, on_slice p b 0 s = rmap (fun r => ((fst r, len b - len (snd r)), s)) (run p b).
Proof.
  intros A p b s. unfold on_slice. replace (split_at 0 b) with (Some (@nil N, b)) by (destruct b; reflexivity). unfold sm_res. destruct (run p b) as [[a y]|e|x]; reflexivity.
Qed.
Section Any.
Variable E : env.
Variable D : nat.
Variable M : N.

Lemma chain_nth : forall d b fc i fs l bs rest, chain E D (encoded E) M d (SIndexed b fc) i fs l bs rest ->
  bs = rest /\ length fs = length l /\
  forall j f, nth_error fs j = Some f -> exists v x p, nth_error l j = Some (f, p, v) /\ indexed_field b fc (i + N.of_nat j) = Ok x
    /\ (Walk.is_idx f = false -> run (deserialize E d (f_ty f)) x = Ok (v, [])) /\ (Walk.is_idx f = true -> field_image E f v x).
Proof.
  intros d b fc i fs l bs rest H. remember (SIndexed b fc) as r eqn:Er. induction H; try discriminate Er.
  - split; [reflexivity|]. split; [reflexivity|]. intros [|j] f Hf; discriminate Hf.
  - inversion Er; subst. destruct (IHchain eq_refl) as (-> & Hl & Hn). split; [reflexivity|]. split; [cbn [length]; congruence|]. intros [|j] g Hg.
    + cbn [nth_error] in *. inversion Hg; subst g. exists v, x, true. split; [reflexivity|]. rewrite N.add_0_r. auto.
    + cbn [nth_error] in *. destruct (Hn j g Hg) as (v' & x' & p & H3 & H4 & H5). exists v', x', p. split; [exact H3|]. split; [|exact H5]. rewrite <- H4. f_equal. lia.
Qed.
Lemma call_indexed : forall d b fc fs l bs rest c s, chain E D (encoded E) M d (SIndexed b fc) 0 fs (shown fs l) bs rest -> length fs = length l -> allowed fs c ->
  exists r, answers E fs l c r /\ call E D d fs c (SIndexed b fc) s = rmap (fun o => ((o, SIndexed b fc), s)) r.
Proof.
  intros d b fc fs l bs rest c s H Hl Ha. apply chain_nth in H. destruct H as (_ & _ & Hn).
  assert (Hv : forall i f v p, nth_error fs i = Some f -> nth_error (shown fs l) i = Some (f, p, v) -> nth_error l i = Some v).
  { clear - Hl. revert l Hl. induction fs as [|g fs IH]; intros [|y l] Hl i f v p Hf Hs; try discriminate Hl; [destruct i; discriminate|]. destruct i as [|i]; cbn in *; [congruence|]. apply (IH l ltac:(congruence) i f v p Hf). exact Hs. }
  destruct c as [i|i|i|i w]; cbn [allowed] in Ha; destruct Ha as (f & Ha); cbn [call answers].
  - destruct Ha as [Hf Hi]. rewrite Hf. destruct (Hn i f Hf) as (v & x & p & H1 & H2 & H3 & _). exists (Ok (OVal v)). split; [exists v; split; [exact (Hv i f v p Hf H1)|reflexivity]|].
    cbn [field_decode]. rewrite N.add_0_l in H2. rewrite H2. unfold sm_bind at 1, sm_res. cbn [rmap rbind]. unfold sm_map, sm_bind. rewrite on_whole, (H3 Hi). reflexivity.
  - rewrite Ha. exists (Ok ODone). split; reflexivity.
  - destruct Ha as [Hf Hi]. rewrite Hf, Hi. destruct (Hn i f Hf) as (v & x & p & H1 & H2 & _ & H3). exists (Ok (OBytes x)).
    split; [exists f, v, x; split; [reflexivity|]; split; [exact (Hv i f v p Hf H1)|]; split; [exact (H3 Hi)|reflexivity]|].
    cbn [field_view]. rewrite N.add_0_l in H2. rewrite H2. reflexivity.
  - destruct Ha as [Hf Hi]. rewrite Hf, Hi. exists (Err (EConversion (MOther 7))). split; reflexivity.
Qed.
Lemma calls_indexed : forall d b fc fs l bs rest cs s, chain E D (encoded E) M d (SIndexed b fc) 0 fs (shown fs l) bs rest -> length fs = length l -> Forall (allowed fs) cs ->
  exists rs, Forall2 (answers E fs l) cs rs /\ calls E D d fs cs (SIndexed b fc) s = (rs, Some (SIndexed b fc, s)).
Proof.
  intros d b fc fs l bs rest cs s H Hl Ha. induction Ha as [|c cs Hc Ha IH]; [exists []; split; [constructor|reflexivity]|].
  destruct IH as (rs & H1 & H2). destruct (call_indexed d b fc fs l bs rest c s H Hl Hc) as (r & H3 & H4). exists (r :: rs). split; [constructor; assumption|].
  cbn [calls]. rewrite H4. destruct r as [o|e|p]; cbn [rmap rbind]; rewrite ?H2; try reflexivity.
  destruct c; cbn [answers] in H3; [destruct H3 as (? & _ & H3)|discriminate H3|destruct H3 as (? & ? & ? & _ & _ & _ & H3)|]; discriminate H3.
Qed.
End Any.

Lemma sm_bind_ok : forall A B (m : sm A) (f : A -> sm B) s b s', sm_bind m f s = Ok (b, s') -> exists a s1, m s = Ok (a, s1) /\ f a s1 = Ok (b, s').
Proof. intros A B m f s b s' H. unfold sm_bind in H. destruct (m s) as [[a s1]| |]; try discriminate. exists a, s1. auto. Qed.
Lemma wt_fields_length : forall E d rev fs l, wt_fields E (wt_ref E d) rev fs l -> length (filter (falive rev) fs) = length l.
Proof. intros E d rev fs l H. exact (Forall2_length H). Qed.
Lemma enter_struct_ctx : forall E D d s fs rev st c st', enter_struct E D d s fs rev st = Ok (c, st') ->
  exists r, c = CStruct r 0 (filter (falive (scur s)) fs) /\ match r with SIndexed _ fc => fc = len (filter (falive (scur s)) fs) | _ => True end.
Proof.
  intros E D d s fs rev st c st' H. unfold enter_struct in H. destruct (has_convert s && negb (rev =? scur s)).
  - apply sm_bind_ok in H. destruct H as (a & s1 & _ & H). inversion H; subst. eexists. split; [reflexivity|exact I].
  - destruct (sent s rev) as [h|]; [|discriminate]. destruct (h_opt h); [destruct (h_idx h)|].
    + apply sm_bind_ok in H. destruct H as (a & s1 & _ & H). apply sm_bind_ok in H. destruct H as (a' & s2 & _ & H). inversion H; subst. eexists. split; reflexivity.
    + apply sm_bind_ok in H. destruct H as (a & s1 & _ & H). inversion H; subst. eexists. split; [reflexivity|exact I].
    + inversion H; subst. eexists. split; [reflexivity|exact I].
Qed.
Lemma opened_indexed : forall E D d n s fs h l b rest o, wf_env E -> sizes_honest E -> e_mem E = None -> spec_built E ->
  e_sch E n = Some s -> s_body s = SStruct fs -> sent s (scur s) = Some h -> h_opt h = true -> h_idx h = true ->
  wt E (S d) (TRef n) (VSeq l) -> to_vec E (S d) (TRef n) (VSeq l) = Ok b ->
  exists M pb fc bs, enter E D (S d) (TRef n) (mkSR (b ++ rest) o) = Ok ((d, CStruct (SIndexed pb fc) 0 (filter (falive (scur s)) fs)), mkSR rest o)
    /\ chain E D (encoded E) M d (SIndexed pb fc) 0 (filter (falive (scur s)) fs) (shown (filter (falive (scur s)) fs) l) bs rest
    /\ length (filter (falive (scur s)) fs) = length l.
Proof.
  intros E D d n s fs h l b rest o W Hh Hm SB Es Eb Eh Ho Hi Hw Hs.
  assert (Hp : plain_now s). { intros h' Eh' Ho'. rewrite Eh in Eh'. inversion Eh'; subst. congruence. }
  apply to_vec_ok in Hs. destruct Hs as (ops & Hs & ->). unfold to_writer in Hs. cbn [ser_ty ser_ref] in Hs. rewrite Es in Hs.
  unfold wt in Hw. cbn [wt_ty wt_ref] in Hw. rewrite Es in Hw. unfold ser_derived in Hs. rewrite Eh in Hs. unfold wt_derived in Hw. rewrite Eb in Hw, Hs.
  pose proof (we_sch E W n s Es) as (Hs1 & Hs2 & _).
  apply sbind_ok in Hs. destruct Hs as (l1 & l2 & H1 & H2 & ->). apply Ok_inj in H1. subst l1. rewrite out_app, out_one, <- app_assoc.
  cbn [enter]. rewrite Es. unfold sm_map, enter_derived. unfold sm_bind at 1.
  rewrite (sm_bind_run _ _ _ _ _ _ _ _ (rt_u16 (e_fw E) _ _ Hs2)).
  replace ((scur s =? 0) || (scur s <? scur s)) with false by (symmetry; apply orb_false_iff; split; [apply N.eqb_neq|apply N.ltb_ge]; lia).
  rewrite Eb. destruct (struct_enc E D W Hh Hm SB d n s fs h l l2 rest o Es Eb Eh Hp Hw H2) as (c & bs' & X1 & X2 & _).
  pose proof X1 as X0. apply enter_struct_ctx in X0. destruct X0 as (r & -> & Hr).
  rewrite X1. cbn [sm_ret]. rewrite Ho, Hi in X2. cbn [andb] in X2. inversion X2 as [| | | | | | |r' i' fs' l' X3 Xr Xk Xp|]; subst.
  destruct r as [rev|pb fc|pb c]; [discriminate|destruct (chain_nth E D _ _ _ _ _ _ _ _ _ X3) as (-> & Hl & _)|discriminate].
  eexists. exists pb, fc. eexists. split; [reflexivity|]. split; [exact X3|]. exact (wt_fields_length E d (scur s) fs l Hw).
Qed.
(** The fields of an indexed struct that was just encoded, in any order, any number of times, whatever failed before;
    the reader is behind the struct all the time. *)
Theorem C67_any_order : forall E D d n s fs h l b rest o cs, wf_env E -> sizes_honest E -> e_mem E = None -> spec_built E ->
  e_sch E n = Some s -> s_body s = SStruct fs -> sent s (scur s) = Some h -> h_opt h = true -> h_idx h = true ->
  wt E (S d) (TRef n) (VSeq l) -> to_vec E (S d) (TRef n) (VSeq l) = Ok b -> Forall (allowed (filter (falive (scur s)) fs)) cs ->
  exists rs r, with_calls E D (S d) (TRef n) cs (mkSR (b ++ rest) o) = Ok (rs, Some (r, mkSR rest o))
    /\ Forall2 (answers E (filter (falive (scur s)) fs) l) cs rs.
Proof.
  intros E D d n s fs h l b rest o cs W Hh Hm SB Es Eb Eh Ho Hi Hw Hs Hc.
  destruct (opened_indexed E D d n s fs h l b rest o W Hh Hm SB Es Eb Eh Ho Hi Hw Hs) as (M & pb & fc & bs & H1 & H2 & H3).
  destruct (calls_indexed E D _ d pb fc _ l _ _ cs (mkSR rest o) H2 H3 Hc) as (rs & H4 & H5).
  exists rs, (SIndexed pb fc). unfold with_calls. rewrite H1, H5. split; [reflexivity|exact H4].
Qed.

Lemma call_still : forall E D d fs c b fc s o r s', call E D d fs c (SIndexed b fc) s = Ok ((o, r), s') -> r = SIndexed b fc /\ s' = s.
Proof.
  intros E D d fs c b fc s o r s' H. destruct c as [i|i|i|i w]; cbn [call] in H; destruct (nth_error fs i) as [f|]; try discriminate H.
  - cbn [field_decode] in H. unfold sm_bind at 1, sm_res in H. destruct (indexed_field b fc (N.of_nat i)) as [x| |]; try discriminate H. cbn [rmap rbind] in H.
    unfold sm_map, sm_bind in H. rewrite on_whole in H. destruct (run (deserialize E d (f_ty f)) x) as [[v y]| |]; try discriminate H. cbn in H. inversion H; auto.
  - cbn in H. inversion H; auto.
  - destruct (is_idx f); [|discriminate H]. cbn [field_view] in H. unfold sm_map, sm_bind, sm_res in H. destruct (indexed_field b fc (N.of_nat i)) as [x| |]; try discriminate H. cbn in H. inversion H; auto.
  - destruct (is_idx f); discriminate H.
Qed.

(** Whatever the bytes: once the walker of an indexed struct is open, a call that panics aside, each call shows what it
    would have shown as the first one, and none moves the reader. *)
Theorem C67_history_free : forall E D d t cs s b fc s', with_calls E D d t [] s = Ok ([], Some (SIndexed b fc, s')) ->
  (forall c p, In c cs -> with_calls E D d t [c] s <> Ok ([Panic p], None)) ->
  exists rs, with_calls E D d t cs s = Ok (rs, Some (SIndexed b fc, s'))
    /\ Forall2 (fun c r => with_calls E D d t [c] s = Ok ([r], Some (SIndexed b fc, s'))) cs rs.
Proof.
  intros E D d t cs s b fc s' Ho Hp. unfold with_calls in *. destruct (enter E D d t s) as [[[d' c] s1]|e|p]; try discriminate Ho.
  destruct c as [| | | | |r i fs|]; try discriminate Ho. cbn [calls] in Ho. inversion Ho; subst r s1. clear Ho.
  induction cs as [|c cs IH]; [exists []; split; [reflexivity|constructor]|].
  destruct IH as (rs & H1 & H2); [intros x p Hx; apply Hp; right; exact Hx|]. specialize (fun p => Hp c p (or_introl eq_refl)). cbn [calls] in Hp |- *.
  destruct (call E D d' fs c (SIndexed b fc) s') as [[[o r] s2]|e|p] eqn:Hc; [| |exfalso; exact (Hp p eq_refl)]; inversion H1 as [Hcs].
  - destruct (call_still _ _ _ _ _ _ _ _ _ _ _ Hc) as [-> ->]. exists (Ok o :: rs). rewrite Hcs. split; [reflexivity|]. constructor; [cbn [calls]; rewrite Hc; reflexivity|exact H2].
  - exists (Err e :: rs). rewrite Hcs. split; [reflexivity|]. constructor; [cbn [calls]; rewrite Hc; reflexivity|exact H2].
Qed.

(** On every walker: the calls of a script that goes through the fields from the first to the last one are a walk as in C37. *)
Definition as_call (i : nat) (x : act) : option fcall :=
  match x with Decode => Some (FDecode i) | Skip => Some (FSkip i) | View => Some (FView i) | Walk w => Some (FWalk i w) | _ => None end.
Fixpoint in_turn (i : nat) (xs : list act) : option (list fcall) :=
  match xs with
  | [] => Some []
  | x :: xs' => match as_call i x, in_turn (S i) xs' with Some c, Some cs => Some (c :: cs) | _, _ => None end
  end.
Lemma in_turn_walk : forall E D d fs xs i cs r s, in_turn i xs = Some cs -> (i + length xs)%nat = length fs ->
  forall os s', (exists r', calls E D d fs cs r s = (map Ok os, Some (r', s')))
    <-> act_on E D d (CStruct r (N.of_nat i) (skipn i fs)) (fold_right Field Rest xs) s = Ok (fold_right OCons ODone os, s').
Proof.
  intros E D d fs xs. induction xs as [|x xs IH]; intros i cs r s Hc Hl os s'; cbn [in_turn] in Hc.
  - inversion Hc; subst cs. cbn [length] in Hl. rewrite Nat.add_0_r in Hl. subst i. rewrite skipn_all. cbn [calls fold_right act_on skip_fields]. unfold sm_map, sm_bind, sm_ret.
    split; [intros [r' H]; inversion H; destruct os; [reflexivity|discriminate]|]. intros H. inversion H. exists r. destruct os; [reflexivity|discriminate].
  - destruct (as_call i x) as [c|] eqn:Ec; [|discriminate]. destruct (in_turn (S i) xs) as [cs'|] eqn:Ecs; [|discriminate]. inversion Hc; subst cs. clear Hc.
    assert (Hf : exists f, nth_error fs i = Some f /\ skipn i fs = f :: skipn (S i) fs).
    { cbn [length] in Hl. assert (Hi : (i < length fs)%nat) by lia. clear - Hi. revert i Hi. induction fs as [|g fs IH]; intros i Hi; [cbn in Hi; lia|]. destruct i; [exists g; auto|]. apply IH. cbn in Hi. lia. }
    destruct Hf as (f & Hn & ->). specialize (IH (S i) cs'). assert (Hi1 : N.of_nat (S i) = N.of_nat i + 1) by lia. rewrite Hi1 in IH. cbn [length] in Hl.
    assert (Hk : forall o r' s1 os, (exists r'', calls E D d fs cs' r' s1 = (map Ok os, Some (r'', s')))
              <-> sm_map (OCons o) (act_on E D d (CStruct r' (N.of_nat i + 1) (skipn (S i) fs)) (fold_right Field Rest xs)) s1 = Ok (OCons o (fold_right OCons ODone os), s')).
    { intros o r' s1 os'. rewrite (IH r' s1 Ecs ltac:(lia) os' s'). unfold sm_map, sm_bind. destruct (act_on E D d (CStruct r' (N.of_nat i + 1) (skipn (S i) fs)) (fold_right Field Rest xs) s1) as [[a z]|e|p].
      - split; intros H; inversion H; reflexivity.
      - split; intros H; discriminate H.
      - split; intros H; discriminate H. }
    assert (Hm : act_on E D d (CStruct r (N.of_nat i) (f :: skipn (S i) fs)) (Field x (fold_right Field Rest xs)) s
              = sm_bind (call E D d fs c r) (fun p => sm_map (OCons (fst p)) (act_on E D d (CStruct (snd p) (N.of_nat i + 1) (skipn (S i) fs)) (fold_right Field Rest xs))) s).
    { destruct x; cbn [as_call] in Ec; try discriminate Ec; apply (f_equal (fun o => match o with Some y => y | None => c end)) in Ec; subst c; cbn [act_on call]; rewrite Hn; try reflexivity.
      - destruct (is_idx f); [reflexivity|]. destruct r as [rev| |]; [|reflexivity|reflexivity]. destruct (f_start f <=? rev); [|reflexivity].
        unfold sm_bind, sm_map. destruct (enter E D d (f_ty f) s) as [[p s1]| |]; [|reflexivity|reflexivity]. unfold sm_bind. destruct (act_on E D (fst p) (snd p) x s1) as [[a z]| |]; reflexivity.
      - destruct (is_idx f); reflexivity. }
    cbn [fold_right]. rewrite Hm. cbn [calls]. unfold sm_bind. destruct (call E D d fs c r s) as [[[o r'] s1]|e|p].
    + cbn [fst snd]. destruct os as [|o' os]; [split; [intros [r'' H]; discriminate H|]|].
      * intros H. exfalso. cbn [fold_right] in H. unfold sm_map, sm_bind in H. destruct (act_on E D d (CStruct r' (N.of_nat i + 1) (skipn (S i) fs)) (fold_right Field Rest xs) s1) as [[a z]| |]; discriminate H.
      * cbn [fold_right map]. specialize (Hk o r' s1 os). split.
        { intros [r'' H]. destruct (calls E D d fs cs' r' s1) as [q1 q2] eqn:Eq. cbn [fst snd] in H. inversion H; subst. apply Hk. exists r''. reflexivity. }
        { intros H. assert (o = o') as <-. { unfold sm_map, sm_bind in H. destruct (act_on E D d (CStruct r' (N.of_nat i + 1) (skipn (S i) fs)) (fold_right Field Rest xs) s1) as [[a z]| |]; inversion H; reflexivity. }
          apply Hk in H. destruct H as [r'' H]. exists r''. rewrite H. reflexivity. }
    + split; [intros [r'' H]|intros H; discriminate H]. destruct r as [|pb fc|]; [destruct os as [|? [|]]; discriminate H| |destruct os as [|? [|]]; discriminate H].
      destruct (calls E D d fs cs' (SIndexed pb fc) s). destruct os; discriminate H.
    + split; [intros [r'' H]; destruct os as [|? [|]]; discriminate H|intros H; discriminate H].
Qed.
Theorem C67_in_order : forall E D d n s fs xs cs b o, e_sch E n = Some s -> s_body s = SStruct fs -> length xs = length (filter (falive (scur s)) fs) -> in_turn 0 xs = Some cs ->
  forall os st, (exists r, with_calls E D d (TRef n) cs (mkSR b o) = Ok (map Ok os, Some (r, st)))
    <-> walk_with E D d (TRef n) (fold_right Field Rest xs) (mkSR b o) = Ok (fold_right OCons ODone os, st).
Proof.
  intros E D d n s fs xs cs b o Es Eb Hl Hc os st. unfold with_calls, walk_with. destruct d as [|d]; [cbn; split; [intros [r H]|intros H]; discriminate H|].
  assert (Hen : forall d' c st', enter E D (S d) (TRef n) (mkSR b o) = Ok ((d', c), st') -> exists r, c = CStruct r 0 (filter (falive (scur s)) fs)).
  { intros d' c st' H. cbn [enter] in H. rewrite Es in H. unfold sm_map in H. apply sm_bind_ok in H. destruct H as (a & s1 & H & Hr). inversion Hr; subst. unfold enter_derived in H.
    apply sm_bind_ok in H. destruct H as (rev & s2 & _ & H). destruct ((rev =? 0) || (scur s <? rev)); [discriminate H|]. rewrite Eb in H. apply enter_struct_ctx in H. destruct H as (r & -> & _). exists r. reflexivity. }
  unfold sm_bind. destruct (enter E D (S d) (TRef n) (mkSR b o)) as [[[d' c] st']|e|p]; [|split; [intros [r H]|intros H]; discriminate H|split; [intros [r H]|intros H]; discriminate H].
  destruct (Hen d' c st' eq_refl) as [r ->]. cbn [fst snd]. pose proof (in_turn_walk E D d' (filter (falive (scur s)) fs) xs 0 cs r st' Hc Hl os st) as H. cbn [skipn N.of_nat] in H. rewrite <- H. clear H.
  split; intros [r' H]; exists r'; [inversion H; reflexivity|rewrite H; reflexivity].
Qed.

(** On the wire the methods of a walker read whatever comes next: in another order they take one field for another,
    without an error; a field asked for twice is taken from the next one. *)
Definition two : schema := mkSchema [leg] (SStruct [fld (TInt U8) 1 None; fld (TInt U8) 1 None]).
Definition calls_on (s : schema) (cs : list fcall) (b : bytes) : res (list (res obs) * option bytes) :=
  rmap (fun p => (fst p, option_map (fun q => sr_inner (snd q)) (snd p))) (with_calls (only s) 9 1 (TRef 1) cs (mkSR b (len b))).
Theorem C67_order_refuted : exists s b, wf_env (only s) /\ encodes s (VSeq [VInt 10; VInt 20]) b
  /\ calls_on s [FDecode 0; FDecode 1] b = Ok ([Ok (OVal (VInt 10)); Ok (OVal (VInt 20))], Some [])
  /\ calls_on s [FDecode 1; FDecode 0] b = Ok ([Ok (OVal (VInt 10)); Ok (OVal (VInt 20))], Some [])
  /\ calls_on s [FDecode 0; FDecode 0] b = Ok ([Ok (OVal (VInt 10)); Ok (OVal (VInt 20))], Some [])
  /\ calls_on s [FDecode 1] b = Ok ([Ok (OVal (VInt 10))], Some [20]).
Proof. exists two, [1; 10; 20]. split; [case_by|]. split; [enc_by|]. repeat split; vm_compute; reflexivity. Qed.
(** The decoder of an indexed struct passes over the table of offsets; the walker goes by it.  Data the decoder accepts can
    show other fields through the walker. *)
Definition two_idx : schema := mkSchema [ixd] (SStruct [fld (TInt U8) 1 None; fld (TInt U8) 1 None]).
Theorem C67_offsets_refuted : exists s b, wf_env (only s) /\ decodes s b (VSeq [VInt 10; VInt 20]) []
  /\ calls_on s [FDecode 0; FDecode 1] b = Ok ([Ok (OVal (VInt 20)); Ok (OVal (VInt 10))], Some []).
Proof. exists two_idx, [1; 11; 0; 0; 0; 9; 0; 0; 0; 10; 0; 0; 0; 10; 20; 10]. split; [case_by|]. split; vm_compute; reflexivity. Qed.

(** An indexed struct, its fields from the last to the first, one twice, and a method that always fails in between. *)
Definition four : schema := mkSchema [ixd] (SStruct [fld TStr 1 None; fld (TInt U8) 1 None; idxd ISeq (fld (TVec TStr) 1 None); fld (TVec TBool) 1 None]).
Definition four_val : list val := [a_str [97]; VInt 7; VSeq [a_str [98]]; VSeq [VBool true]].
Definition four_calls : list fcall := [FDecode 3; FView 2; FWalk 0 Rest; FDecode 1; FSkip 2; FDecode 0; FDecode 3].
Example C67_case : exists b, encodes four (VSeq four_val) b /\ sent four (scur four) = Some ixd /\ spec_built (only four) /\ sizes_honest (only four)
  /\ Forall (allowed (filter (falive (scur four)) [fld TStr 1 None; fld (TInt U8) 1 None; idxd ISeq (fld (TVec TStr) 1 None); fld (TVec TBool) 1 None])) four_calls
  /\ calls_on four four_calls (b ++ [99]) = Ok ([Ok (OVal (VSeq [VBool true])); Ok (OBytes [0; 1; 1; 98]); Err (EConversion (MOther 7)); Ok (OVal (VInt 7)); Ok ODone; Ok (OVal (a_str [97])); Ok (OVal (VSeq [VBool true]))], Some [99]).
Proof.
  exists [1; 25; 0; 0; 0; 16; 0; 0; 0; 18; 0; 0; 0; 19; 0; 0; 0; 23; 0; 0; 0; 1; 97; 7; 0; 1; 1; 98; 1; 1].
  split; [enc_by|]. split; [reflexivity|]. split; [intros n s f _ _ _; reflexivity|]. split; [left; reflexivity|]. split; [|vm_compute; reflexivity].
  repeat constructor; eexists; repeat split.
Qed.
(** On data that is not valid: the second offset is beyond the payload, so that the second field panics; the others are
    not affected. *)
Example C67_damaged : exists b, calls_on four [] b = Ok ([], Some []) /\ calls_on four [FDecode 1] b = Ok ([Panic PSlice], None)
  /\ calls_on four [FDecode 3; FDecode 2; FDecode 3] b = Ok ([Ok (OVal (VSeq [VBool true])); Ok (OVal (VSeq [])); Ok (OVal (VSeq [VBool true]))], Some []).
Proof.
  exists [1; 25; 0; 0; 0; 16; 0; 0; 0; 99; 0; 0; 0; 19; 0; 0; 0; 23; 0; 0; 0; 1; 97; 7; 0; 1; 1; 98; 1; 1].
  repeat split; vm_compute; reflexivity.
Qed.
Example C67_turn : in_turn 0 [Decode; Skip] = Some [FDecode 0; FSkip 1] /\ calls_on two [FDecode 0; FSkip 1] [1; 10; 20] = Ok ([Ok (OVal (VInt 10)); Ok ODone], Some [])
  /\ walks two [1; 10; 20] (Field Decode (Field Skip Rest)) = Ok (OCons (OVal (VInt 10)) (OCons ODone ODone), []).
Proof. repeat split; vm_compute; reflexivity. Qed.


(** ** The last call *)

(** The calls rustc accepts. *)
Definition allowed_last (fs : list field) (c : lcall) : Prop :=
  match c with
  | LBytes i => exists f, nth_error fs i = Some f
  | LView i => exists f, nth_error fs i = Some f /\ Walk.is_idx f = true
  | LWalk i _ => exists f, nth_error fs i = Some f /\ Walk.is_idx f = false
  end.
(** What it shows on the walker of an indexed struct with the fields [l]: [into_<field>_bytes] bytes that decode to the
    field, and nothing else. *)
Definition answers_last (E : env) (d : nat) (fs : list field) (l : list val) (c : lcall) (r : res obs) : Prop :=
  match c with
  | LBytes i => exists f v x, nth_error fs i = Some f /\ nth_error l i = Some v /\ r = Ok (OBytes x)
                  /\ if Walk.is_idx f then field_image E f v x else run (deserialize E d (f_ty f)) x = Ok (v, [])
  | LView i => exists f v x, nth_error fs i = Some f /\ nth_error l i = Some v /\ field_image E f v x /\ r = Ok (OBytes x)
  | LWalk _ _ => r = Err (EConversion (MOther 7))
  end.
Lemma slice_of_ok : forall b x y z, slice_of b x y = Ok z -> x <= y /\ y <= len b.
Proof. intros b x y z H. unfold slice_of in H. destruct ((x <=? y) && (y <=? len b)) eqn:Ec; [|discriminate]. apply andb_true_iff in Ec. destruct Ec as [H1 H2]. apply N.leb_le in H1, H2. auto. Qed.
Lemma slice_of_in : forall b x y, x <= y -> y <= len b -> exists z, slice_of b x y = Ok z.
Proof. intros b x y H1 H2. unfold slice_of. rewrite (proj2 (N.leb_le x y) H1), (proj2 (N.leb_le y (len b)) H2). eexists. reflexivity. Qed.
(** The checks of [into_<field>_bytes] refuse nothing that the unchecked accessors show. *)
Lemma checked_same : forall b fc i x, indexed_field b fc i = Ok x -> indexed_field_checked b fc i = Ok x.
Proof.
  intros b fc i x H. unfold indexed_field, indexed_field_checked in *. destruct (slice_of b (i * 4) (i * 4 + 4)) as [u| |] eqn:E1; try discriminate H.
  cbn [rbind] in *. apply slice_of_ok in E1. destruct (i + 1 <? fc).
  - destruct (slice_of b (i * 4 + 4) (i * 4 + 8)) as [w| |] eqn:E2; try discriminate H. cbn [rmap rbind] in *. apply slice_of_ok in E2. rewrite (proj2 (N.ltb_ge (len b) (i * 4 + 8)) (proj2 E2)).
    pose proof (slice_of_ok _ _ _ _ H) as [H1 H2]. rewrite (proj2 (N.ltb_ge _ _) H1), (proj2 (N.ltb_ge _ _) H2). exact H.
  - cbn [rbind] in *. rewrite (proj2 (N.ltb_ge (len b) (i * 4 + 4)) (proj2 E1)). pose proof (slice_of_ok _ _ _ _ H) as [H1 H2]. rewrite (proj2 (N.ltb_ge _ _) H1), (proj2 (N.ltb_ge _ _) H2). exact H.
Qed.
Lemma checked_no_panic : forall b fc i p, indexed_field_checked b fc i <> Panic p.
Proof.
  intros b fc i p H. unfold indexed_field_checked in H. destruct (len b <? i * 4 + (if i + 1 <? fc then 8 else 4)) eqn:El; [discriminate|]. apply N.ltb_ge in El.
  destruct (slice_of_in b (i * 4) (i * 4 + 4)) as [u Eu]; [lia|destruct (i + 1 <? fc); lia|]. rewrite Eu in H. cbn [rbind] in H. destruct (i + 1 <? fc).
  - destruct (slice_of_in b (i * 4 + 4) (i * 4 + 8)) as [w Ew]; [lia|lia|]. rewrite Ew in H. cbn [rmap rbind] in H. destruct ((le_val w <? le_val u) || (len b <? le_val w)) eqn:Ec; [discriminate|].
    apply orb_false_iff in Ec. destruct Ec as [H1 H2]. apply N.ltb_ge in H1, H2. destruct (slice_of_in b _ _ H1 H2) as [z Ez]. congruence.
  - cbn [rbind] in H. destruct ((len b <? le_val u) || (len b <? len b)) eqn:Ec; [discriminate|].
    apply orb_false_iff in Ec. destruct Ec as [H1 H2]. apply N.ltb_ge in H1, H2. destruct (slice_of_in b _ _ H1 H2) as [z Ez]. congruence.
Qed.
Lemma checked_within : forall b fc i y, indexed_field_checked b fc i = Ok y -> exists u w, b = u ++ y ++ w.
Proof.
  assert (K : forall b x y z, slice_of b x y = Ok z -> exists u w, b = u ++ z ++ w).
  { intros b x y z H. unfold slice_of in H. destruct ((x <=? y) && (y <=? len b)); [|discriminate]. apply Ok_inj in H. subst z. exists (firstn (N.to_nat x) b), (skipn (N.to_nat (y - x)) (skipn (N.to_nat x) b)).
    rewrite firstn_skipn, firstn_skipn. reflexivity. }
  intros b fc i y H. unfold indexed_field_checked in H. destruct (len b <? i * 4 + (if i + 1 <? fc then 8 else 4)); [discriminate|].
  destruct (slice_of b (i * 4) (i * 4 + 4)) as [u| |]; try discriminate H. cbn [rbind] in H.
  match type of H with rbind ?m _ = _ => destruct m as [z| |]; try discriminate H end. cbn [rbind] in H.
  destruct ((z <? le_val u) || (len b <? z)); [discriminate H|]. exact (K _ _ _ _ H).
Qed.

(** After any calls, [into_<field>_bytes] and [into_walk_<field>] of any field of an indexed struct that was just encoded. *)
Theorem C67_last : forall E D d n s fs h l b rest o cs c, wf_env E -> sizes_honest E -> e_mem E = None -> spec_built E ->
  e_sch E n = Some s -> s_body s = SStruct fs -> sent s (scur s) = Some h -> h_opt h = true -> h_idx h = true ->
  wt E (S d) (TRef n) (VSeq l) -> to_vec E (S d) (TRef n) (VSeq l) = Ok b ->
  Forall (allowed (filter (falive (scur s)) fs)) cs -> allowed_last (filter (falive (scur s)) fs) c ->
  exists rs r, calls_then E D (S d) (TRef n) cs c (mkSR (b ++ rest) o) = Ok (rs, Some (rmap (fun x => (x, mkSR rest o)) r))
    /\ Forall2 (answers E (filter (falive (scur s)) fs) l) cs rs /\ answers_last E d (filter (falive (scur s)) fs) l c r.
Proof.
  intros E D d n s fs h l b rest o cs c W Hh Hm SB Es Eb Eh Ho Hi Hw Hs Hc Hl.
  destruct (opened_indexed E D d n s fs h l b rest o W Hh Hm SB Es Eb Eh Ho Hi Hw Hs) as (M & pb & fc & bs & H1 & H2 & H3).
  destruct (calls_indexed E D _ d pb fc _ l _ _ cs (mkSR rest o) H2 H3 Hc) as (rs & H4 & H5). exists rs.
  destruct (chain_nth E D _ _ _ _ _ _ _ _ _ H2) as (_ & _ & Hn). unfold calls_then. rewrite H1, H5. cbn [fst snd].
  set (al := filter (falive (scur s)) fs) in *.
  assert (Hv : forall i f v p, nth_error al i = Some f -> nth_error (shown al l) i = Some (f, p, v) -> nth_error l i = Some v).
  { clearbody al. clear - H3. revert l H3. induction al as [|g al IH]; intros [|y l] Hl i f v p Hf Hx; try discriminate Hl; [destruct i; discriminate|]. destruct i as [|i]; cbn in *; [congruence|]. apply (IH l ltac:(congruence) i f v p Hf). exact Hx. }
  destruct c as [i|i|i w]; cbn [allowed_last] in Hl; destruct Hl as (f & Hl); cbn [last_call answers_last].
  - rewrite Hl. destruct (Hn i f Hl) as (v & x & p & N1 & N2 & N3 & N4). rewrite N.add_0_l in N2. exists (Ok (OBytes x)). cbn [Walk.field_bytes]. rewrite (checked_same _ _ _ _ N2). split; [reflexivity|]. split; [exact H4|].
    exists f, v, x. split; [reflexivity|]. split; [exact (Hv i f v p Hl N1)|]. split; [reflexivity|]. destruct (Walk.is_idx f); [exact (N4 eq_refl)|exact (N3 eq_refl)].
  - destruct Hl as [Hf Hx]. rewrite Hf, Hx. destruct (Hn i f Hf) as (v & x & p & N1 & N2 & _ & N4). rewrite N.add_0_l in N2. exists (Ok (OBytes x)). cbn [field_view]. rewrite N2. split; [reflexivity|]. split; [exact H4|].
    exists f, v, x. split; [reflexivity|]. split; [exact (Hv i f v p Hf N1)|]. split; [exact (N4 Hx)|reflexivity].
  - destruct Hl as [Hf Hx]. rewrite Hf, Hx. exists (Err (EConversion (MOther 7))). split; [reflexivity|]. split; [exact H4|reflexivity].
Qed.
(** Whatever the bytes: the last call shows what it would have shown as the first one, and [into_<field>_bytes] does not
    panic, unlike the other methods (C67_damaged). *)
Theorem C67_last_history_free : forall E D d t cs c s b fc s', with_calls E D d t [] s = Ok ([], Some (SIndexed b fc, s')) ->
  (forall c p, In c cs -> with_calls E D d t [c] s <> Ok ([Panic p], None)) ->
  exists rs x, calls_then E D d t cs c s = Ok (rs, Some x) /\ calls_then E D d t [] c s = Ok ([], Some x).
Proof.
  intros E D d t cs c s b fc s' Ho Hp. destruct (C67_history_free E D d t cs s b fc s' Ho Hp) as (rs & H & _). exists rs. unfold with_calls in *. unfold calls_then.
  destruct (enter E D d t s) as [[[d' k] s1]|e|p]; try discriminate Ho. destruct k as [| | | | |r i fs|]; try discriminate Ho. cbn [calls] in Ho. inversion Ho; subst r s1.
  apply Ok_inj in H. rewrite H. cbn [fst snd calls]. eexists. split; reflexivity.
Qed.
Theorem C67_last_bytes_total : forall E D d n s fs i x b fc s', e_sch E n = Some s -> s_body s = SStruct fs -> (i < length (filter (falive (scur s)) fs))%nat ->
  with_calls E D d (TRef n) [] x = Ok ([], Some (SIndexed b fc, s')) ->
  exists r, calls_then E D d (TRef n) [] (LBytes i) x = Ok ([], Some (rmap (fun o => (o, s')) r))
    /\ match r with Ok (OBytes y) => exists u w, b = u ++ y ++ w | Ok _ | Panic _ => False | Err _ => True end.
Proof.
  intros E D d n s fs i x b fc s' Es Eb Hi Ho. unfold with_calls in Ho. unfold calls_then. destruct d as [|d]; [discriminate Ho|].
  destruct (enter E D (S d) (TRef n) x) as [[[d' k] s1]|e|p] eqn:En; try discriminate Ho. destruct k as [| | | | |r j al|]; try discriminate Ho. cbn [calls] in Ho. inversion Ho; subst r s1. clear Ho.
  cbn [enter] in En. rewrite Es in En. unfold sm_map in En. apply sm_bind_ok in En. destruct En as (k & s1 & En & Hr). inversion Hr; subst. unfold enter_derived in En.
  apply sm_bind_ok in En. destruct En as (rev & s2 & _ & En). destruct ((rev =? 0) || (scur s <? rev)); [discriminate En|]. rewrite Eb in En. apply enter_struct_ctx in En. destruct En as (r & Hk & _). inversion Hk; subst.
  cbn [calls fst snd last_call]. apply nth_error_Some in Hi. destruct (nth_error (filter (falive (scur s)) fs) i) as [f|]; [|contradiction].
  cbn [Walk.field_bytes]. unfold sm_map, sm_bind, sm_res. exists (rmap OBytes (indexed_field_checked b fc (N.of_nat i))).
  pose proof (checked_no_panic b fc (N.of_nat i)) as Hn. destruct (indexed_field_checked b fc (N.of_nat i)) as [y|e|p] eqn:Ey; [|split; [reflexivity|exact I]|exfalso; exact (Hn p eq_refl)].
  split; [reflexivity|]. cbn [rmap rbind]. exact (checked_within b fc (N.of_nat i) y Ey).
Qed.
(** On every walker: [into_<field>_bytes] after the fields before it have been decoded or skipped is the call of C37. *)
Fixpoint up_to (i : nat) (cs : list bool) : list fcall :=
  match cs with [] => [] | c :: cs' => (if c then FDecode i else FSkip i) :: up_to (S i) cs' end.
Lemma up_to_bytes : forall E D d fs cs i r s x st, (i + length cs < length fs)%nat ->
  (exists rs r' s', calls E D d fs (up_to i cs) r s = (map Ok rs, Some (r', s')) /\ last_call E D d fs (LBytes (i + length cs)) r' s' = Ok (x, st))
    <-> into_bytes_after E D d r (N.of_nat i) (skipn i fs) cs s = Ok (x, st).
Proof.
  intros E D d fs cs. induction cs as [|c cs IH]; intros i r s x st Hl.
  - cbn [length] in Hl |- *. rewrite Nat.add_0_r in Hl |- *.
    assert (Hf : exists f, nth_error fs i = Some f /\ skipn i fs = f :: skipn (S i) fs).
    { clear - Hl. revert i Hl. induction fs as [|g fs IH]; intros i Hi; [cbn in Hi; lia|]. destruct i; [exists g; auto|]. apply IH. cbn in Hi. lia. }
    destruct Hf as (f & Hn & ->). cbn [up_to calls last_call into_bytes_after]. rewrite Hn. split.
    + intros (rs & r' & s' & H1 & H2). inversion H1; subst. exact H2.
    + intros H. exists [], r, s. split; [reflexivity|exact H].
  - cbn [length] in Hl.
    assert (Hf : exists f, nth_error fs i = Some f /\ skipn i fs = f :: skipn (S i) fs).
    { assert (Hi : (i < length fs)%nat) by lia. clear - Hi. revert i Hi. induction fs as [|g fs IH]; intros i Hi; [cbn in Hi; lia|]. destruct i; [exists g; auto|]. apply IH. cbn in Hi. lia. }
    destruct Hf as (f & Hn & ->). specialize (IH (S i)). replace (N.of_nat (S i)) with (N.of_nat i + 1) in IH by lia. cbn [length]. replace (i + S (length cs))%nat with (S i + length cs)%nat by lia.
    cbn [up_to into_bytes_after]. set (m := if c then field_decode E D d r (N.of_nat i) f else field_skip E D d r f).
    assert (Hm : call E D d fs (if c then FDecode i else FSkip i) r = m) by (subst m; destruct c; cbn [call]; rewrite Hn; reflexivity).
    cbn [calls]. rewrite Hm. unfold sm_bind. destruct (m s) as [[[o r1] s1]|e|p].
    + cbn [fst snd]. specialize (IH r1 s1 x st ltac:(lia)). rewrite <- IH. split.
      * intros (rs & r' & s' & H1 & H2). destruct (calls E D d fs (up_to (S i) cs) r1 s1) as [q1 q2]. destruct rs as [|o' rs]; [discriminate H1|]. inversion H1; subst. exists rs, r', s'. split; [reflexivity|exact H2].
      * intros (rs & r' & s' & H1 & H2). exists (o :: rs), r', s'. rewrite H1. split; [reflexivity|exact H2].
    + split; [|discriminate]. intros (rs & r' & s' & H1 & _). destruct r as [|pb fc|]; [destruct rs as [|? [|]]; discriminate H1| |destruct rs as [|? [|]]; discriminate H1].
      destruct (calls E D d fs (up_to (S i) cs) (SIndexed pb fc) s). destruct rs; discriminate H1.
    + split; [|discriminate]. intros (rs & r' & s' & H1 & _). destruct rs as [|? [|]]; discriminate H1.
Qed.
Theorem C67_last_in_order : forall E D d n s fs cs b o, e_sch E n = Some s -> s_body s = SStruct fs -> (length cs < length (filter (falive (scur s)) fs))%nat ->
  forall x st, (exists rs, calls_then E D d (TRef n) (up_to 0 cs) (LBytes (length cs)) (mkSR b o) = Ok (map Ok rs, Some (Ok (x, st))))
    <-> walk_into_bytes E D d (TRef n) cs (mkSR b o) = Ok (x, st).
Proof.
  intros E D d n s fs cs b o Es Eb Hl x st. unfold calls_then, walk_into_bytes. destruct d as [|d]; [cbn; split; [intros [r H]|intros H]; discriminate H|].
  assert (Hen : forall d' c st', enter E D (S d) (TRef n) (mkSR b o) = Ok ((d', c), st') -> exists r, c = CStruct r 0 (filter (falive (scur s)) fs)).
  { intros d' c st' H. cbn [enter] in H. rewrite Es in H. unfold sm_map in H. apply sm_bind_ok in H. destruct H as (a & s1 & H & Hr). inversion Hr; subst. unfold enter_derived in H.
    apply sm_bind_ok in H. destruct H as (rev & s2 & _ & H). destruct ((rev =? 0) || (scur s <? rev)); [discriminate H|]. rewrite Eb in H. apply enter_struct_ctx in H. destruct H as (r & -> & _). exists r. reflexivity. }
  unfold sm_bind. destruct (enter E D (S d) (TRef n) (mkSR b o)) as [[[d' c] st']|e|p]; [|split; [intros [r H]|intros H]; discriminate H|split; [intros [r H]|intros H]; discriminate H].
  destruct (Hen d' c st' eq_refl) as [r ->]. cbn [fst snd]. pose proof (up_to_bytes E D d' (filter (falive (scur s)) fs) cs 0 r st' x st Hl) as H. cbn [skipn N.of_nat Nat.add] in H. rewrite <- H. clear H.
  split.
  - intros [rs H]. apply Ok_inj in H. destruct (calls E D d' (filter (falive (scur s)) fs) (up_to 0 cs) r st') as [q1 q2]. pose proof (f_equal fst H) as Ha. pose proof (f_equal snd H) as Hb. cbn [fst snd] in Ha, Hb. destruct q2 as [[r' s']|]; [|discriminate Hb]. exists rs, r', s'. split; [congruence|congruence].
  - intros (rs & r' & s' & H1 & H2). exists rs. rewrite H1. cbn [fst snd]. rewrite H2. reflexivity.
Qed.

(** [into_walk_<field>] gives what [walk_<field>] gives at the same point: of a plain field with any script, and of an
    [indexed_*] field. *)
Lemma calls_app1 : forall E D d fs c cs r s rs r' s', calls E D d fs cs r s = (rs, Some (r', s')) ->
  calls E D d fs (cs ++ [c]) r s = (rs ++ fst (calls E D d fs [c] r' s'), snd (calls E D d fs [c] r' s')).
Proof.
  intros E D d fs c. induction cs as [|a cs IH]; intros r s rs r' s' H.
  - cbn [calls] in H. injection H as <- <- <-. cbn [app]. destruct (calls E D d fs [c] r s); reflexivity.
  - change ((a :: cs) ++ [c]) with (a :: (cs ++ [c])). remember [c] as z. cbn [calls] in H |- *. destruct (call E D d fs a r s) as [[[x y] z']|e|p]; [| |discriminate H].
    + destruct (calls E D d fs cs y z') as [u v] eqn:Hc. cbn [fst snd] in H. injection H as <- ->. rewrite (IH _ _ _ _ _ Hc). reflexivity.
    + destruct r; try discriminate H. destruct (calls E D d fs cs (SIndexed payload fc) s) as [u v] eqn:Hc. cbn [fst snd] in H. injection H as <- ->. rewrite (IH _ _ _ _ _ Hc). reflexivity.
Qed.
Theorem C67_last_walk : forall E D d t cs i s rs y,
  (forall w, calls_then E D d t cs (LWalk i w) s = Ok (rs, Some y) ->
     exists q, with_calls E D d t (cs ++ [FWalk i w]) s = Ok (rs ++ [rmap fst y], q) /\ (forall o st, y = Ok (o, st) -> exists r, q = Some (r, st)))
  /\ (calls_then E D d t cs (LView i) s = Ok (rs, Some y) ->
     exists q, with_calls E D d t (cs ++ [FView i]) s = Ok (rs ++ [rmap fst y], q) /\ (forall o st, y = Ok (o, st) -> exists r, q = Some (r, st))).
Proof.
  assert (G : forall E D d t cs l f s rs y, (forall d fs r s, last_call E D d fs l r s = rmap (fun p => (fst (fst p), snd p)) (call E D d fs f r s)) ->
    calls_then E D d t cs l s = Ok (rs, Some y) -> exists q, with_calls E D d t (cs ++ [f]) s = Ok (rs ++ [rmap fst y], q) /\ (forall o st, y = Ok (o, st) -> exists r, q = Some (r, st))).
  { intros E D d t cs l f s rs y Hf H. unfold calls_then in H. unfold with_calls. destruct (enter E D d t s) as [[[d' c] s']|e|p]; try discriminate H. destruct c as [| | | | |r i0 fs|]; try discriminate H.
    destruct (calls E D d' fs cs r s') as [u v] eqn:Hc. cbn [fst snd] in H. destruct v as [[r' s'']|]; [|discriminate H]. injection H as <- <-.
    rewrite (calls_app1 E D d' fs f cs r s' _ _ _ Hc). rewrite (Hf d' fs r' s''). cbn [calls].
    destruct (call E D d' fs f r' s'') as [[[x r2] s2]|e|p]; cbn [fst snd rmap].
    - eexists. split; [reflexivity|]. intros o st K. injection K as <- <-. eauto.
    - destruct r'; cbn [fst snd]; eexists; (split; [reflexivity|]); intros o st K; discriminate K.
    - eexists. split; [reflexivity|]. intros o st K. discriminate K. }
  intros E D d t cs i s rs y. split.
  - intros w. apply G. intros d0 fs r s0. cbn [call last_call]. destruct (nth_error fs i) as [f|]; [|reflexivity]. destruct (is_idx f); [reflexivity|].
    destruct r as [rev| |]; try reflexivity. destruct (f_start f <=? rev); [|reflexivity]. unfold sm_bind, sm_map. destruct (enter E D d0 (f_ty f) s0) as [[[d1 c1] s1]|e|p]; try reflexivity. cbn [fst snd]. unfold sm_bind.
    destruct (act_on E D d1 c1 w s1) as [[o s2]|e|p]; reflexivity.
  - apply G. intros d0 fs r s0. cbn [call last_call]. destruct (nth_error fs i) as [f|]; [|reflexivity]. destruct (is_idx f); [|reflexivity].
    unfold sm_map, sm_bind. destruct (field_view E D d0 r (N.of_nat i) f s0) as [[[o r1] s1]|e|p]; reflexivity.
Qed.

(** [into_<field>_bytes] of the third field, before and after others were used; on damaged data it reports an error. *)
Definition then_on (s : schema) (cs : list fcall) (c : lcall) (b : bytes) : res (list (res obs) * option (res (obs * bytes))) :=
  rmap (fun p => (fst p, option_map (rmap (fun q => (fst q, sr_inner (snd q)))) (snd p))) (calls_then (only s) 9 1 (TRef 1) cs c (mkSR b (len b))).
Example C67_last_case : exists b, encodes four (VSeq four_val) b
  /\ then_on four [] (LBytes 3) (b ++ [99]) = Ok ([], Some (Ok (OBytes [1; 1], [99])))
  /\ then_on four [FDecode 3; FDecode 1] (LBytes 0) (b ++ [99]) = Ok ([Ok (OVal (VSeq [VBool true])); Ok (OVal (VInt 7))], Some (Ok (OBytes [1; 97], [99])))
  /\ then_on four [FSkip 0] (LView 2) b = Ok ([Ok ODone], Some (Ok (OBytes [0; 1; 1; 98], [])))
  /\ then_on four [FSkip 0] (LWalk 1 Rest) b = Ok ([Ok ODone], Some (Err (EConversion (MOther 7)))).
Proof.
  exists [1; 25; 0; 0; 0; 16; 0; 0; 0; 18; 0; 0; 0; 19; 0; 0; 0; 23; 0; 0; 0; 1; 97; 7; 0; 1; 1; 98; 1; 1].
  split; [enc_by|]. repeat split; vm_compute; reflexivity.
Qed.
Example C67_last_damaged : exists b, calls_on four [] b = Ok ([], Some []) /\ calls_on four [FDecode 1] b = Ok ([Panic PSlice], None)
  /\ then_on four [FDecode 3] (LBytes 1) b = Ok ([Ok (OVal (VSeq [VBool true]))], Some (Err (EDeserialize (MOther 11)))).
Proof.
  exists [1; 25; 0; 0; 0; 16; 0; 0; 0; 99; 0; 0; 0; 19; 0; 0; 0; 23; 0; 0; 0; 1; 97; 7; 0; 1; 1; 98; 1; 1].
  repeat split; vm_compute; reflexivity.
Qed.
Example C67_last_turn : up_to 0 [true] = [FDecode 0] /\ then_on two [FDecode 0] (LBytes 1) [1; 10; 20] = Ok ([Ok (OVal (VInt 10))], Some (Ok (OBytes [20], []))).
Proof. split; vm_compute; reflexivity. Qed.
Example C67_last_walked : then_on two [FDecode 0] (LWalk 1 Decode) [1; 10; 20] = Ok ([Ok (OVal (VInt 10))], Some (Ok (OVal (VInt 20), [])))
  /\ calls_on two [FDecode 0; FWalk 1 Decode] [1; 10; 20] = Ok ([Ok (OVal (VInt 10)); Ok (OVal (VInt 20))], Some []).
Proof. split; vm_compute; reflexivity. Qed.

Print Assumptions C67_any_order.
Print Assumptions C67_history_free.
Print Assumptions C67_in_order.
Print Assumptions C67_order_refuted.
Print Assumptions C67_offsets_refuted.
Print Assumptions C67_last.
Print Assumptions C67_last_history_free.
Print Assumptions C67_last_bytes_total.
Print Assumptions C67_last_walk.
Print Assumptions C67_last_in_order.
