(** C81: a file of values shared by the releases of a program, with crashes at any byte. *)

From Verif Require Import Base BaseL Prog ProgL Prim PrimL Utf8 Tag Ty Ser De Typed Mig Evol EvolL RtL RtId Parts Spec Ex Stream StreamL EofL MigL PropMig PropRoll PropStream PropWire WalkRef Partial PartialL RollL PartialRollL Journal JournalL PropPartial.
From Coq Require Import List NArith ZArith Bool Lia Relations.
Import ListNotations.
Open Scope N_scope.

Section Proofs.
Variables (d : nat) (n : N).
Local Notation t := (TRef n).

Lemma record_read : forall W E v b, good n W -> good n E -> forward W E \/ backward W E -> wt W d t v -> to_vec W d t v = Ok b ->
  exists x, seen d n E (W, v) x /\ x <> Err EIo /\ forall rest, or_oom E (run (deserialize E d t) (b ++ rest)) (rmap (fun v' => (v', rest)) x).
Proof.
  intros W E v b (WW & HW & _) (WE & HE & HP & HU & HR & HC) [[L O]|[L S]] Hw Hb.
  - exists (migrate W E d t v). split; [left; split; [split; assumption|reflexivity]|]. split; [apply migrate_no_eof, HU|].
    intros rest. exact (C17_later_programs_read W E d d t v b rest WW WE L O HP HW Hw (le_n _) Hb).
  - destruct (C53_rollback E W d d t v b [] WE WW L S HC HW Hw (le_n _) Hb) as [[He _]|[He (e & Ee & H)]].
    + exists (Ok v). split; [right; split; [split; assumption|left; auto]|]. split; [discriminate|]. intros rest.
      destruct (C53_rollback E W d d t v b rest WE WW L S HC HW Hw (le_n _) Hb) as [[_ H]|[K _]]; [exact H|contradiction].
    + exists (Err e). split; [right; split; [split; assumption|right; split; [exact He|destruct Ee as [->| ->]; auto]]|].
      split; [destruct Ee as [->| ->]; discriminate|]. intros rest. rewrite app_nil_r in H. destruct H as [H|[Hm H]].
      * left. apply C59_rejection_is_final; [exact HR|exact H|destruct Ee as [->| ->]; discriminate].
      * right. split; [exact Hm|]. apply run_panic_app. exact H.
Qed.
Lemma not_empty : forall W v b, to_vec W d t v = Ok b -> b <> [].
Proof.
  intros W v b H ->. unfold to_vec, to_writer in H. cbn [ser_ty] in H. destruct d as [|k]; [discriminate|]. cbn [ser_ref] in H.
  destruct (e_sch W n) as [s|]; [|discriminate]. unfold ser_derived in H. destruct (sent s (scur s)) as [h|]; [|discriminate].
  destruct (match s_body s with SStruct fs => _ | SEnum vs => _ end) as [o|e|x]; try discriminate.
  unfold sall in H. cbn [sbind app] in H. unfold ser_bytes, out in H. cbn [rmap flat_map wop_bytes] in H. apply Ok_inj in H. apply app_eq_nil in H. destruct H as [H _].
  unfold ser_u16 in H. destruct (e_fw W); [discriminate|]. unfold encode_u64 in H. repeat (destruct (_ <? _) in H; [discriminate|]). discriminate.
Qed.

(** What is in the file. *)
Definition written (progs : list env) (r : env * val) (b : bytes) : Prop := In (fst r) progs /\ wt (fst r) d t (snd r) /\ to_vec (fst r) d t (snd r) = Ok b.
Definition tail_ok (progs : list env) (torn : option (env * val)) (q : bytes) : Prop :=
  match torn with
  | None => q = []
  | Some (W, v) => In W progs /\ wt W d t v
      /\ ((exists s, s <> [] /\ to_vec W d t v = Ok (q ++ s)) \/ exists ops x s, writes W d t v = (ops, x) /\ x <> Ok tt /\ out ops = q ++ s)
  end.

(** [S]: what [E] sees of a record. *)
Definition shows (E : env) (progs : list env) (S : env * val -> res val -> Prop) : Prop :=
  forall W v b, In W progs -> wt W d t v -> to_vec W d t v = Ok b ->
  exists x, S (W, v) x /\ x <> Err EIo /\ forall rest, or_oom E (run (deserialize E d t) (b ++ rest)) (rmap (fun v' => (v', rest)) x).
(** [S']: what [E] sees of a value in pieces. *)
Definition shows_half (E : env) (progs : list env) (S' : env * val -> res val -> Prop) : Prop :=
  forall W v ops x q s, In W progs -> wt W d t v -> writes W d t v = (ops, x) -> x <> Ok tt -> out ops = q ++ s ->
  match run (deserialize E d t) q with
  | Ok _ => False
  | Err e => e = EIo \/ S' (W, v) (Err e)
  | Panic p => (p = PMem /\ e_mem E <> None) \/ S' (W, v) (Panic p)
  end.
Definition blame (S S' : env * val -> res val -> Prop) (recs : list (env * val)) (torn : option (env * val)) (x : res val) : Prop :=
  exists r, (In r recs /\ S r x) \/ (torn = Some r /\ S' r x).
Lemma scan_ok : forall E progs (S S' : env * val -> res val -> Prop) torn recs bs q, good n E -> shows E progs S -> (forall r x, S r x -> S' r x) -> shows_half E progs S' -> Forall2 (written progs) recs bs -> tail_ok progs torn q ->
  forall fuel, (length (concat bs ++ q) <= fuel)%nat ->
  match scan d n E fuel (concat bs ++ q) with
  | (vs, tl, Clean) => Forall2 (fun r v => S r (Ok v)) recs vs /\ tl = [] /\ q = []
  | (vs, tl, Failed (Err EIo)) => Forall2 (fun r v => S r (Ok v)) recs vs /\ tl = q
  | (_, _, Failed (Err e)) => blame S S' recs torn (Err e)
  | (_, _, Failed (Panic x)) => (x = PMem /\ e_mem E <> None) \/ blame S S' recs torn (Panic x)
  | (_, _, Failed (Ok _)) => False
  end.
Proof.
  intros E progs S S' torn recs bs q HE HS HSS HH' H2 HT. induction H2 as [|[W v] b recs bs (Hi & Hw & Hb) H2 IH]; intros fuel Hf; cbn [concat app fst snd] in *.
  - destruct q as [|q0 q'] eqn:Eq; [destruct fuel; cbn; auto|]. rewrite <- Eq in *. assert (Hq : q <> []) by (rewrite Eq; discriminate).
    destruct fuel as [|k]; [rewrite Eq in Hf; cbn in Hf; lia|]. replace (scan d n E (Datatypes.S k) q) with (match run (deserialize E d t) q with Ok (v, rest) => let '(vs, tail, s) := scan d n E k rest in (v :: vs, tail, s) | Err e => ([], q, Failed (Err e)) | Panic x => ([], q, Failed (Panic x)) end) by (rewrite Eq; reflexivity).
    destruct torn as [[W v]|]; [|cbn in HT; contradiction]. destruct HT as (Hi & Hw & [(s & Hs & Hb)|(ops & x & s & Hb & Hx & Hs)]).
    2: { pose proof (HH' W v ops x q s Hi Hw Hb Hx Hs) as G. destruct (run (deserialize E d t) q) as [[v' r]|e|p]; [destruct G| |].
      - destruct (match e with EIo => true | _ => false end) eqn:Ee; [destruct e; try discriminate; split; [constructor|reflexivity]|].
        assert (G' : blame S S' (@nil (env * val)) (Some (W, v)) (Err e)).
        { destruct G as [->|G]; [discriminate|]. exists (W, v). right. auto. }
        destruct e; try discriminate; exact G'.
      - destruct G as [G|G]; [left; exact G|right; exists (W, v); right; auto]. }
    destruct (HS W v _ Hi Hw Hb) as (x & Hx & Hn & Hr). specialize (Hr []). rewrite app_nil_r in Hr.
    destruct HE as (WE & HH & HP & HU & HR & HC).
    destruct (run (deserialize E d t) q) as [[v' r]|e|p] eqn:R.
    + exfalso. pose proof (run_app _ _ _ _ _ s R) as R'. rewrite R' in Hr. destruct Hr as [Hr|[_ Hr]]; [|discriminate].
      destruct x as [y|e|p]; cbn [rmap] in Hr; try discriminate. injection Hr as _ Hr. apply app_eq_nil in Hr. destruct Hr; contradiction.
    + destruct (match e with EIo => true | _ => false end) eqn:Ee.
      * destruct e; try discriminate. split; [constructor|reflexivity].
      * assert (He : e <> EIo) by (intros ->; discriminate).
        assert (G : blame S S' (@nil (env * val)) (Some (W, v)) (Err e)).
        { exists (W, v). right. split; [reflexivity|]. apply HSS. pose proof (C59_rejection_is_final E d t q e s HR R He) as R'. rewrite R' in Hr.
          destruct Hr as [Hr|[_ Hr]]; [|discriminate]. destruct x as [y|e'|p]; cbn [rmap] in Hr; try discriminate. injection Hr as ->. exact Hx. }
        destruct e; try contradiction; exact G.
    + pose proof (run_panic_app _ _ q p s R) as R'. rewrite R' in Hr. destruct Hr as [Hr|[Hm Hr]].
      * right. exists (W, v). right. split; [reflexivity|]. apply HSS. destruct x as [y|e'|p']; cbn [rmap] in Hr; try discriminate. injection Hr as ->. exact Hx.
      * left. injection Hr as ->. auto.
  - destruct (HS W v b Hi Hw Hb) as (x & Hx & Hn & Hr). specialize (Hr (concat bs ++ q)). rewrite <- app_assoc in *.
    pose proof (not_empty W v b Hb) as Hne. destruct b as [|b0 b'] eqn:Eb; [contradiction|]. rewrite <- Eb in *. clear Hne.
    assert (Hl : (length (concat bs ++ q) < length (b ++ concat bs ++ q))%nat) by (rewrite (app_length b), Eb; cbn [length]; lia).
    destruct fuel as [|k]; [lia|].
    replace (scan d n E (Datatypes.S k) (b ++ concat bs ++ q)) with (match run (deserialize E d t) (b ++ concat bs ++ q) with Ok (v, rest) => let '(vs, tail, s) := scan d n E k rest in (v :: vs, tail, s) | Err e => ([], b ++ concat bs ++ q, Failed (Err e)) | Panic x => ([], b ++ concat bs ++ q, Failed (Panic x)) end) by (rewrite Eb; reflexivity).
    destruct Hr as [Hr|[Hm Hr]]; rewrite Hr; [|left; auto]. destruct x as [y|e|p]; cbn [rmap].
    + specialize (IH k ltac:(lia)). destruct (scan d n E k (concat bs ++ q)) as [[vs tl] [|[u|e|p]]].
      * destruct IH as (I1 & I2 & I3). split; [constructor; assumption|auto].
      * exact IH.
      * destruct (match e with EIo => true | _ => false end) eqn:Ee.
        -- destruct e; try discriminate. destruct IH as [I1 I2]. split; [constructor; assumption|exact I2].
        -- assert (G : blame S S' ((W, v) :: recs) torn (Err e)).
           { assert (G0 : blame S S' recs torn (Err e)) by (destruct e; try discriminate; exact IH).
             destruct G0 as (r & [[Hr' Hs']|[Hr' Hs']]); exists r; [left; split; [right; exact Hr'|exact Hs']|right; auto]. }
           destruct e; try discriminate; exact G.
      * destruct IH as [IH|(r & [[Hr' Hs']|[Hr' Hs']])]; [left; exact IH| |]; right; exists r; [left; split; [right; exact Hr'|exact Hs']|right; auto].
    + assert (G : blame S S' ((W, v) :: recs) torn (Err e)) by (exists (W, v); left; split; [left; reflexivity|exact Hx]).
      destruct e; try (exfalso; apply Hn; reflexivity); exact G.
    + right. exists (W, v). left. split; [left; reflexivity|exact Hx].
Qed.

Lemma open_ok : forall E progs (S S' : env * val -> res val -> Prop) torn recs bs q, good n E -> shows E progs S -> (forall r x, S r x -> S' r x) -> shows_half E progs S' -> Forall2 (written progs) recs bs -> tail_ok progs torn q ->
  match open d n E (concat bs ++ q) with
  | Ok (vs, kept) => Forall2 (fun r v => S r (Ok v)) recs vs /\ kept = concat bs
  | Err e => blame S S' recs torn (Err e)
  | Panic x => (x = PMem /\ e_mem E <> None) \/ blame S S' recs torn (Panic x)
  end.
Proof.
  intros E progs S S' torn recs bs q HR HG HSS HH' H2 HT. pose proof (scan_ok E progs S S' torn recs bs q HR HG HSS HH' H2 HT _ (le_n _)) as H. unfold open.
  destruct (scan d n E (length (concat bs ++ q)) (concat bs ++ q)) as [[vs tl] [|[u|e|x]]].
  - destruct H as (H & _ & ->). rewrite app_nil_r. auto.
  - destruct H.
  - assert (G : match e with EIo => Forall2 (fun r v => S r (Ok v)) recs vs /\ tl = q | _ => blame S S' recs torn (Err e) end) by exact H.
    clear H. destruct e; try exact G. destruct G as [G ->]. split; [exact G|]. rewrite app_length, Nat.add_sub, firstn_app, Nat.sub_diag, firstn_all. cbn [firstn]. apply app_nil_r.
  - exact H.
Qed.

Lemma release_shows : forall E progs, release n progs E -> Forall (good n) progs -> shows E progs (seen d n E).
Proof. intros E progs [HE HL] HG W v b Hi Hw Hb. rewrite Forall_forall in HG. exact (record_read W E v b (HG W Hi) HE (HL W Hi) Hw Hb). Qed.
Lemma upgrade_shows : forall E progs, good n E -> (forall W, In W progs -> forward W E) -> Forall (good n) progs -> shows E progs (fun r x => x = migrate (fst r) E d t (snd r)).
Proof.
  intros E progs (WE & HE & HP & HU & HR & HC) HL HG W v b Hi Hw Hb. rewrite Forall_forall in HG. destruct (HG W Hi) as (WW & HW & _). destruct (HL W Hi) as [L O].
  exists (migrate W E d t v). split; [reflexivity|]. split; [apply migrate_no_eof, HU|].
  intros rest. exact (C17_later_programs_read W E d d t v b rest WW WE L O HP HW Hw (le_n _) Hb).
Qed.

Lemma half_seen_seen : forall E r x, seen d n E r x -> half_seen d n E r x.
Proof. intros E [W v] x H. left. exact H. Qed.
Lemma release_half : forall E progs, release n progs E -> Forall (good n) progs -> shows_half E progs (half_seen d n E).
Proof.
  intros E progs [HE HL] HG W v ops x q s Hi Hw He Hx Ho. rewrite Forall_forall in HG. destruct (HG W Hi) as (WW & HW & _).
  pose proof HE as (WE & _ & _ & _ & HR & HC). assert (G : exists ops y, writes W d t v = (ops, y) /\ y <> Ok tt) by eauto.
  destruct (HL W Hi) as [[L O]|[L S]].
  - pose proof (C82_taken_over W E d t v ops x q s WW WE L O HW HR Hw He Hx Ho) as K.
    destruct (run (deserialize E d t) q) as [y|e|p]; [exact K| |]; (destruct K as [K|K]; [left; exact K|]);
      right; right; (split; [exact G|]); left; (split; [split; assumption|exact K]).
  - destruct (C82_rolled_back E W d d t v ops x q s WE WW L S HC HW Hw (le_n _) He Hx Ho) as (e & Ee & [-> | [Hm ->]]); [|left; auto].
    destruct Ee as [->|Ee]; [left; reflexivity|]. right. right. split; [exact G|]. right. split; [split; assumption|]. destruct Ee as [->| ->]; auto.
Qed.
Lemma upgrade_half : forall E progs, good n E -> (forall W, In W progs -> forward W E) -> Forall (good n) progs ->
  shows_half E progs (fun r x => x = migrate (fst r) E d t (snd r) \/ part_fails (fst r) E x).
Proof.
  intros E progs HE HL HG W v ops x q s Hi Hw He Hx Ho. rewrite Forall_forall in HG. destruct (HG W Hi) as (WW & HW & _). destruct (HL W Hi) as [L O].
  destruct HE as (WE & _ & _ & _ & HR & HC).
  pose proof (C82_taken_over W E d t v ops x q s WW WE L O HW HR Hw He Hx Ho) as K.
  destruct (run (deserialize E d t) q) as [y|e|p]; [exact K| |]; (destruct K as [K|K]; [left; exact K|right; right; exact K]).
Qed.

(** The invariant. *)
Definition inv (file : bytes) (p : option env) (progs : list env) (recs : list (env * val)) (torn : option (env * val)) : Prop :=
  exists bs q, file = concat bs ++ q /\ Forall2 (written progs) recs bs /\ tail_ok progs torn q /\ Forall (good n) progs /\ match p with Some E => In E progs | None => True end.
Lemma written_more : forall E progs recs bs, Forall2 (written progs) recs bs -> Forall2 (written (E :: progs)) recs bs.
Proof. intros E progs recs bs H. induction H as [|r b recs bs (H1 & H2 & H3)]; constructor; [split; [right; exact H1|auto]|assumption]. Qed.
Lemma life_inv : forall file p progs recs torn, life d n file p progs recs torn -> inv file p progs recs torn.
Proof.
  intros file p progs recs torn H. induction H as [|file progs recs torn E vs kept H IH HR Ho|file E progs recs v b H IH Hw Hb|file E progs recs v b q H IH Hw Hb Hq|file E progs recs v ops x b q H IH Hw Hb Hx Ho|file E progs recs H IH|file E progs recs vs bs H IH Ho Hw Hb].
  - exists [], []. repeat split; constructor.
  - destruct IH as (bs & q & -> & H2 & HT & HG & _). pose proof (open_ok E progs _ _ torn recs bs q (proj1 HR) (release_shows E progs HR HG) (half_seen_seen E) (release_half E progs HR HG) H2 HT) as K. rewrite Ho in K. destruct K as [_ ->].
    exists bs, []. rewrite app_nil_r. repeat split; [apply written_more, H2|constructor; [apply HR|exact HG]|left; reflexivity].
  - destruct IH as (bs & q & -> & H2 & HT & HG & HE). cbn in HT. subst q. rewrite app_nil_r. exists (bs ++ [b]), []. rewrite concat_app. cbn [concat]. rewrite !app_nil_r.
    repeat split; auto. apply Forall2_app; [exact H2|]. repeat constructor; assumption.
  - destruct IH as (bs & q' & -> & H2 & HT & HG & HE). cbn in HT. subst q'. rewrite app_nil_r. exists bs, b. repeat split; auto. left. exists q. auto.
  - destruct IH as (bs & q' & -> & H2 & HT & HG & HE). cbn in HT. subst q'. rewrite app_nil_r. exists bs, b. repeat split; auto. right. exists ops, x, q. auto.
  - destruct IH as (bs & q & -> & H2 & HT & HG & HE). exists bs, q. auto.
  - destruct IH as (bs' & q & -> & H2 & HT & HG & HE). exists bs, []. rewrite app_nil_r. repeat split; auto. apply rmapM_ok in Hb.
    clear - Hw Hb HE. revert Hw. induction Hb as [|v b vs bs Hv Hb IH]; intros Hw; cbn [map]; constructor; inversion Hw; subst; [repeat split; assumption|auto].
Qed.
End Proofs.

(** C81.  Whatever happened to the file before, a process that opens it gets every value whose append was reported as
    done, in order, each as its release is to see it, and nothing else; the file then holds these values.  Opening fails
    only if one of the values cannot be shown to this release, with the failure this value gives, or if what an append that
    failed has left has a part that cannot be shown. *)
Theorem C81_open : forall d n file p progs recs torn E, life d n file p progs recs torn -> release n progs E ->
  match open d n E file with
  | Ok (vs, kept) =>
      Forall2 (fun r v => seen d n E r (Ok v)) recs vs
      /\ exists bs, kept = concat bs /\ Forall2 (fun r b => to_vec (fst r) d (TRef n) (snd r) = Ok b) recs bs
  | Err e => exists r, In r recs /\ seen d n E r (Err e) \/ torn = Some r /\ half_seen d n E r (Err e)
  | Panic x => (x = PMem /\ e_mem E <> None) \/ exists r, In r recs /\ seen d n E r (Panic x) \/ torn = Some r /\ half_seen d n E r (Panic x)
  end.
Proof.
  intros d n file p progs recs torn E HL HR. destruct (life_inv d n file p progs recs torn HL) as (bs & q & -> & H2 & HT & HG & _).
  pose proof (open_ok d n E progs _ _ torn recs bs q (proj1 HR) (release_shows d n E progs HR HG) (half_seen_seen d n E) (release_half d n E progs HR HG) H2 HT) as H. destruct (open d n E (concat bs ++ q)) as [[vs kept]|e|x]; [|exact H|exact H].
  destruct H as [H ->]. split; [exact H|]. exists bs. split; [reflexivity|]. clear - H2. induction H2 as [|r b recs bs (_ & _ & H)]; constructor; assumption.
Qed.
(** A release later than all that used the file: it sees the migrated values. *)
Theorem C81_upgrade : forall d n file p progs recs torn E, life d n file p progs recs torn -> good n E -> (forall W, In W progs -> forward W E) ->
  match open d n E file with
  | Ok (vs, kept) =>
      Forall2 (fun r v => migrate (fst r) E d (TRef n) (snd r) = Ok v) recs vs
      /\ exists bs, kept = concat bs /\ Forall2 (fun r b => to_vec (fst r) d (TRef n) (snd r) = Ok b) recs bs
  | Err e => exists r, (In r recs \/ torn = Some r) /\ migrate (fst r) E d (TRef n) (snd r) = Err e \/ torn = Some r /\ part_fails (fst r) E (Err e)
  | Panic x => (x = PMem /\ e_mem E <> None)
      \/ exists r, (In r recs \/ torn = Some r) /\ migrate (fst r) E d (TRef n) (snd r) = Panic x \/ torn = Some r /\ part_fails (fst r) E (Panic x)
  end.
Proof.
  intros d n file p progs recs torn E HL HE HF. destruct (life_inv d n file p progs recs torn HL) as (bs & q & -> & H2 & HT & HG & _).
  pose proof (open_ok d n E progs _ _ torn recs bs q HE (upgrade_shows d n E progs HE HF HG) (fun r x H => or_introl H) (upgrade_half d n E progs HE HF HG) H2 HT) as H. destruct (open d n E (concat bs ++ q)) as [[vs kept]|e|x].
  - destruct H as [H ->]. split; [clear - H; induction H; constructor; auto|]. exists bs. split; [reflexivity|]. clear - H2. induction H2 as [|r b recs bs (_ & _ & H)]; constructor; assumption.
  - destruct H as (r & [[Hr H]|[Hr [H|H]]]); exists r; auto.
  - destruct H as [H|(r & [[Hr H]|[Hr [H|H]]])]; [left; exact H| | |]; right; exists r; auto.
Qed.
(** As long as there was only one release, the values are those appended. *)
Theorem C81_restart : forall d n file p progs recs torn E, life d n file p progs recs torn -> good n E -> e_mem E = None -> (forall W, In W progs -> W = E) ->
  exists kept, open d n E file = Ok (map snd recs, kept).
Proof.
  intros d n file p progs recs torn E HL HE Hm HP. destruct (life_inv d n file p progs recs torn HL) as (bs & q & -> & H2 & HT & HG & _).
  assert (S : shows d n E progs (fun r x => x = Ok (snd r))).
  { intros W v b Hi Hw Hb. rewrite (HP W Hi) in *. exists (Ok v). split; [reflexivity|]. split; [discriminate|]. intros rest. exact (C02_self_delimiting E d d _ v b rest (proj1 HE) (proj1 (proj2 HE)) Hw (le_n _) Hb). }
  assert (S' : shows_half d n E progs (fun r x => x = Ok (snd r))).
  { intros W v ops x q' s Hi Hw He Hx Hq. rewrite (HP W Hi) in *. destruct HE as (WE & HH & _ & _ & [HR1 HR2] & _).
    destruct (C82_end_of_input E d d (TRef n) v ops x q' s WE HH Hw (le_n _) HR1 HR2 He Hx Hq) as [->|[K _]]; [left; reflexivity|contradiction]. }
  pose proof (open_ok d n E progs _ _ torn recs bs q HE S (fun r x H => H) S' H2 HT) as H. destruct (open d n E (concat bs ++ q)) as [[vs kept]|e|x].
  - destruct H as [H ->]. exists (concat bs). do 2 f_equal. clear - H. induction H as [|r v recs vs H]; [reflexivity|]. cbn [map]. injection H as ->. f_equal. exact IHForall2.
  - destruct H as (r & [[_ H]|[_ H]]); discriminate.
  - destruct H as [[_ H]|(r & [[_ H]|[_ H]])]; [contradiction|discriminate|discriminate].
Qed.

(** ** Two releases: [old] writes a value and dies in the middle of the next one, [new] takes over. *)
Example good_old : good 1 old.
Proof.
  split; [apply wf_old|]. split; [apply honest_old|]. split; [|split; [|split]].
  - intros n s. cbn [ex_env e_sch old]. unfold sch1. destruct (n =? 1); [|destruct (n =? 2)]; intros H; inversion H; subst; cbn [s_body user1 shape1].
    + split; [|discriminate]. intros f r x Hf. repeat destruct Hf as [<-|Hf]; try contradiction; (split; [discriminate|]); intros; discriminate.
    + split; [|intros vs v l r x Hvs Hv; inversion Hvs; subst; repeat destruct Hv as [<-|Hv]; try contradiction; discriminate].
      intros f r x (v & Hv & Hf). repeat destruct Hv as [<-|Hv]; try contradiction; cbn in Hf; repeat destruct Hf as [<-|Hf]; try contradiction; (split; [discriminate|]); intros; discriminate.
  - intros n s. cbn [ex_env e_sch old]. unfold sch1. destruct (n =? 1); [|destruct (n =? 2)]; intros H; inversion H; subst; cbn [s_body user1 shape1].
    + split; [|discriminate]. intros f r Hf. repeat destruct Hf as [<-|Hf]; try contradiction; (split; [discriminate|]); intros; discriminate.
    + split; [|intros vs v l r Hvs Hv; inversion Hvs; subst; repeat destruct Hv as [<-|Hv]; try contradiction; discriminate].
      intros f r (v & Hv & Hf). repeat destruct Hv as [<-|Hv]; try contradiction; cbn in Hf; repeat destruct Hf as [<-|Hf]; try contradiction; (split; [discriminate|]); intros; discriminate.
  - split; [reflexivity|]. intros n s. cbn [ex_env e_sch old]. unfold sch1. destruct (n =? 1); [|destruct (n =? 2)]; intros H; inversion H; subst; reflexivity.
  - apply closed_old. reflexivity.
Qed.
Example good_new : good 1 new.
Proof.
  split; [apply wf_new|]. split; [apply honest_new|]. split; [apply user_new|]. split; [|split].
  - intros n s. cbn [ex_env e_sch new]. unfold sch3. destruct (n =? 1); [|destruct (n =? 2)]; intros H; inversion H; subst; cbn [s_body user3 shape2].
    + split; [|discriminate]. intros f r Hf. repeat destruct Hf as [<-|Hf]; try contradiction; (split; [discriminate|]); intros l v; try discriminate.
      cbn. unfold age_to_birth. destruct l as [|? [|? [|? [|? [|? [|]]]]]]; try discriminate. destruct v; discriminate.
    + split; [|intros vs v l r Hvs Hv; inversion Hvs; subst; repeat destruct Hv as [<-|Hv]; try contradiction; discriminate].
      intros f r (v & Hv & Hf). repeat destruct Hv as [<-|Hv]; try contradiction; cbn in Hf; repeat destruct Hf as [<-|Hf]; try contradiction; (split; [discriminate|]); intros; discriminate.
  - apply C59_case.
  - split; [reflexivity|]. intros n s. cbn [ex_env e_sch new]. unfold sch3. destruct (n =? 1); [|destruct (n =? 2)]; intros H; inversion H; subst; reflexivity.
Qed.
Definition rec_old : bytes := [1; 3; 97; 195; 169; 41; 0; 0; 0; 2; 3; 0; 255; 255].
Definition u_mig : val := VSeq [a_str [97; 195; 169]; VSeq [VInt 3; VInt 65535]; VSeq []; VInt 42; VVar 0 []].
Lemma wt_old2 : wt old 2 (TRef 1) u_old.
Proof. apply wtb_ok. vm_compute. reflexivity. Qed.
Example C81_crashed : life 2 1 (rec_old ++ [1; 3; 97; 195; 169]) None [old] [(old, u_old)] (Some (old, u_old)).
Proof.
  apply (life_crash 2 1 rec_old old [old] [(old, u_old)] u_old [1; 3; 97; 195; 169] [41; 0; 0; 0; 2; 3; 0; 255; 255]); [|exact wt_old2|vm_compute; reflexivity|discriminate].
  apply (life_append 2 1 [] old [old] [] u_old rec_old); [|exact wt_old2|vm_compute; reflexivity].
  apply (life_start 2 1 [] [] [] None old [] []); [constructor|split; [apply good_old|intros W []]|reflexivity].
Qed.
Example C81_restarts : open 2 1 old (rec_old ++ [1; 3; 97; 195; 169]) = Ok ([u_old], rec_old).
Proof. vm_compute. reflexivity. Qed.
Example forward_old_new : forward old new.
Proof. split; [apply later_old_new|apply opt_safe_old_new]. Qed.
Example C81_takes_over : open 2 1 new (rec_old ++ [1; 3; 97; 195; 169]) = Ok ([u_mig], rec_old) /\ release 1 [old] new.
Proof. split; [vm_compute; reflexivity|]. split; [apply good_new|]. intros W [<-|[]]. left. apply forward_old_new. Qed.
(** [new] appends, and [old] is brought back: it refuses, nothing is lost. *)
Definition rec_new : bytes := match to_vec new 2 (TRef 1) u_new with Ok b => b | _ => [] end.
Example C81_brought_back : life 2 1 (rec_old ++ rec_new) None [new; old] [(old, u_old); (new, u_new)] None
  /\ release 1 [new; old] old /\ open 2 1 old (rec_old ++ rec_new) = Err (EDeserialize MInvalidRevision)
  /\ open 2 1 new (rec_old ++ rec_new) = Ok ([u_mig; u_new], rec_old ++ rec_new).
Proof.
  split; [|split; [|split; vm_compute; reflexivity]].
  - apply (life_stop 2 1 _ new). apply (life_append 2 1 rec_old new [new; old] [(old, u_old)] u_new rec_new); [|apply wt_new|vm_compute; reflexivity].
    apply (life_start 2 1 (rec_old ++ [1; 3; 97; 195; 169]) [old] _ (Some (old, u_old)) new [u_mig]); [apply C81_crashed|apply C81_takes_over|apply C81_takes_over].
  - split; [apply good_old|]. intros W [<-|[<-|[]]]; right; (split; [|repeat split]); [apply later_old_new|apply rt_refl].
Qed.

(** ** An append that fails: what it left is dropped at the next start, also by a later release. *)
Lemma good_log1 : good 1 log1.
Proof.
  split; [apply C82_case|]. split; [left; reflexivity|]. split; [|split; [|split; [apply C82_case_reopen|]]].
  - intros n s. cbn [log1 only ex_env e_sch]. destruct (n =? 1); intros H; inversion H; subst. cbn [s_body]. split; [|discriminate].
    intros f r x Hf. repeat destruct Hf as [<-|Hf]; try contradiction; (split; [discriminate|]); intros; discriminate.
  - intros n s. cbn [log1 only ex_env e_sch]. destruct (n =? 1); intros H; inversion H; subst. cbn [s_body]. split; [|discriminate].
    intros f r Hf. repeat destruct Hf as [<-|Hf]; try contradiction; (split; [discriminate|]); intros; discriminate.
  - split; [reflexivity|]. intros n s. cbn [log1 only ex_env e_sch]. destruct (n =? 1); intros H; inversion H; subst. reflexivity.
Qed.
Example C81_append_failed : life 1 1 ([1; 9; 1; 1; 99] ++ [1; 7; 3; 1]) None [log1] [(log1, VSeq [VInt 9; VSeq [VBytes [99]]])] (Some (log1, bad_log))
  /\ open 1 1 log1 ([1; 9; 1; 1; 99] ++ [1; 7; 3; 1]) = Ok ([VSeq [VInt 9; VSeq [VBytes [99]]]], [1; 9; 1; 1; 99])
  /\ open 1 1 log2 ([1; 9; 1; 1; 99] ++ [1; 7; 3; 1]) = Ok ([VSeq [VInt 9]], [1; 9; 1; 1; 99]).
Proof.
  split; [|split; vm_compute; reflexivity].
  apply (life_failed 1 1 [1; 9; 1; 1; 99] log1 [log1] _ bad_log [WAll [1]; WAll [7]; WAll [3]; WAll [1]; WAll [97]] (Err EInvalidPath) [1; 7; 3; 1] [97]); [|apply C82_case|apply C82_case|discriminate|reflexivity].
  apply (life_append 1 1 [] log1 [log1] [] (VSeq [VInt 9; VSeq [VBytes [99]]]) [1; 9; 1; 1; 99]); [|apply wtb_ok; vm_compute; reflexivity|vm_compute; reflexivity].
  apply (life_start 1 1 [] [] [] None log1 [] []); [constructor|split; [apply good_log1|intros W []]|reflexivity].
Qed.

(** ** Where the application needs more care *)
(** A value whose append failed, and which is in no file, can keep a later release from opening the file: it refuses a part of
    what was left. *)
Definition picky (_ : list val) (_ : N) (v : val) : res (list val) := match v with VInt 0 => Err (EConversion MInner) | _ => Ok [] end.
Definition nest1 : env := only (mkSchema [leg] (SStruct [fld (TVec (TRef 1)) 1 None; fld (TInt U8) 1 None; fld TPath 1 None])).
Definition nest2 : env := only (mkSchema [leg; leg] (SStruct [fld (TVec (TRef 1)) 1 (Some 2); with_convert picky (fld (TInt U8) 1 (Some 2)); fld TPath 1 (Some 2)])).
Definition bad_nest : val := VSeq [VSeq [VSeq [VSeq []; VInt 0; VBytes [97]]]; VInt 7; VBytes [255]].
Ltac good_nest E := split; [apply wf_only; reflexivity|]; split; [left; reflexivity|]; split; [|split; [|split]];
  [intros n s; cbn [E only ex_env e_sch]; destruct (n =? 1); intros H; inversion H; subst; cbn [s_body]; split; [|discriminate];
   intros f r x Hf; repeat destruct Hf as [<-|Hf]; try contradiction; (split; [discriminate|]); intros l v; try discriminate; cbn; unfold picky; destruct v as [|[]| | | | |]; discriminate
  |intros n s; cbn [E only ex_env e_sch]; destruct (n =? 1); intros H; inversion H; subst; cbn [s_body]; split; [|discriminate];
   intros f r Hf; repeat destruct Hf as [<-|Hf]; try contradiction; (split; [discriminate|]); intros l v; try discriminate; cbn; unfold picky; destruct v as [|[]| | | | |]; discriminate
  |split; [reflexivity|]; intros n s; cbn [E only ex_env e_sch]; destruct (n =? 1); intros H; inversion H; subst; reflexivity
  |split; [reflexivity|]; intros n s; cbn [E only ex_env e_sch]; destruct (n =? 1); intros H; inversion H; subst; reflexivity].
Lemma good_nest1 : good 1 nest1. Proof. good_nest nest1. Qed.
Lemma good_nest2 : good 1 nest2. Proof. good_nest nest2. Qed.
Theorem C81_failed_append_refuted : exists file, life 2 1 file None [nest1] [] (Some (nest1, bad_nest)) /\ forward nest1 nest2 /\ good 1 nest2
  /\ open 2 1 nest1 file = Ok ([], []) /\ open 2 1 nest2 file = Err (EConversion MInner).
Proof.
  exists ([] ++ [1; 1; 1; 0; 0; 1; 97; 7]). split; [|split; [split|split; [|split; vm_compute; reflexivity]]].
  - assert (E : writes nest1 2 (TRef 1) bad_nest = ([WAll [1]; WAll [1]; WAll [1]; WAll [0]; WAll [0]; WAll [1]; WAll [97]; WAll [7]], Err EInvalidPath)) by (vm_compute; reflexivity).
    apply (life_failed 2 1 [] nest1 [nest1] [] bad_nest _ _ _ [] ltac:(apply (life_start 2 1 [] [] [] None nest1 [] []); [constructor|split; [apply good_nest1|intros W []]|reflexivity]) ltac:(apply wtb_ok; vm_compute; reflexivity) E); [discriminate|reflexivity].
  - apply rt_step. repeat split; try reflexivity. intros n s. cbn [nest1 nest2 only ex_env e_sch]. destruct (n =? 1); intros H; inversion H; subst. eexists. split; [reflexivity|]. split; [eexists; reflexivity|].
    cbn [edit_body s_body]. do 3 (apply ef_keep; [unfold edit_field, edit_end; repeat split; right; (split; [reflexivity|]); exists 2; split; reflexivity|]). apply ef_nil.
  - intros n s s' h. cbn [nest1 nest2 only ex_env e_sch]. destruct (n =? 1); intros H H'; inversion H; inversion H'; subst. vm_compute. intros Hh. inversion Hh; subst. discriminate.
  - apply good_nest2.
Qed.
(** With [Result] or [Bound] in the data a torn value is not recognised: after the first crash the file cannot be opened. *)
Theorem C81_result_refuted : exists E v b q, wf_env E /\ wt E 1 (TRef 1) v /\ to_vec E 1 (TRef 1) v = Ok (b ++ q) /\ q <> []
  /\ user_no_eof E /\ open 1 1 E b = Err (EDeserialize MInner).
Proof.
  exists (only (mkSchema [leg] (SStruct [fld (TResult (TInt U32) TStr) 1 None]))), (VSeq [VVar 0 [VInt 300]]), [1; 0; 251; 44], [1].
  split; [apply wf_only; vm_compute; reflexivity|]. split; [apply wtb_ok; vm_compute; reflexivity|]. split; [vm_compute; reflexivity|]. split; [discriminate|].
  split; [|vm_compute; reflexivity]. intros n s Hs. cbn in Hs. destruct (n =? 1); [|discriminate]. inversion Hs; subst. split; [|discriminate].
  intros f r [<-|[]]. split; [discriminate|intros; discriminate].
Qed.
(** A convert function that fails with an I/O error makes the new release erase what the old one wrote. *)
Definition io_convert (_ : list val) (_ : N) (_ : val) : res (list val) := Err EIo.
Theorem C81_io_error_refuted : exists W E v b, wf_env W /\ wf_env E /\ forward W E /\ wt W 1 (TRef 1) v /\ to_vec W 1 (TRef 1) v = Ok b /\ b <> []
  /\ reports E (TRef 1) /\ open 1 1 E b = Ok ([], []).
Proof.
  exists (only (mkSchema [leg] (SStruct [fld (TInt U32) 1 None; fld TStr 1 None]))).
  exists (only (mkSchema [leg; leg] (SStruct [fld (TInt U32) 1 None; mkField TStr 1 (Some 2) (f_default (fld TStr 1 None)) io_convert false false INone]))).
  exists (VSeq [VInt 300; VBytes [97]]), [1; 251; 44; 1; 1; 97].
  split; [apply wf_only; vm_compute; reflexivity|]. split; [apply wf_only; vm_compute; reflexivity|]. split; [split|].
  - apply rt_step. repeat split; try reflexivity. intros n s. cbn [only ex_env e_sch]. destruct (n =? 1); intros H; inversion H; subst. eexists. split; [reflexivity|]. split; [eexists; reflexivity|].
    cbn [edit_body s_body]. apply ef_keep; [unfold edit_field, edit_end; repeat split; auto|]. apply ef_keep; [|apply ef_nil]. unfold edit_field, edit_end. repeat split. right. split; [reflexivity|]. exists 2. split; reflexivity.
  - intros n s s' h. cbn [only ex_env e_sch]. destruct (n =? 1); intros H H'; inversion H; inversion H'; subst. vm_compute. intros Hh. inversion Hh; subst. discriminate.
  - split; [apply wtb_ok; vm_compute; reflexivity|]. split; [vm_compute; reflexivity|]. split; [discriminate|]. split; [|vm_compute; reflexivity].
    split; [reflexivity|]. intros n s. cbn [only ex_env e_sch]. destruct (n =? 1); intros H; inversion H; subst; reflexivity.
Qed.

Print Assumptions C81_open.
Print Assumptions C81_upgrade.
Print Assumptions C81_restart.
Print Assumptions C81_failed_append_refuted.
Print Assumptions C81_result_refuted.
Print Assumptions C81_io_error_refuted.
