(** C44, C48, C60, C63, C76, C81, C82 on machines with a memory limit: the same answers, or the allocation is refused. *)

From Verif Require Import Base BaseL Prog ProgL Prim Utf8 Tag Ty Ser De SliceReader Skip SkipL SkipFormL Typed Mig Evol EvolL Agree Spec Cross Parts Transp Stream Retype Feature FeatureL Partial PartialL Journal JournalL Ex PropWire PropVal PropIdx PropSkip PropTransp PropRetype PropFeature PropFeatSkip PropPartial PropJournal PropLimit RtL SkipIdx Walk Borrowed PropBorrowed.
From Coq Require Import List NArith ZArith Bool Lia Relations.
Import ListNotations.
Open Scope N_scope.

(** C44: skipping in a slice. *)
Lemma skip_slice_run : forall E d t bs, skip_slice E d t bs = rmap (fun p => len bs - len (snd p)) (run (skip E d t) bs).
Proof.
  intros E d t bs. destruct (run (skip E d t) bs) as [[[] r]|e|x] eqn:R; cbn [rmap snd].
  - apply C13_skip_slice. exists r. split; [exact R|]. destruct (run_suffix _ _ _ _ _ R) as (y & Hy & _). rewrite Hy, len_app. lia.
  - unfold skip_slice. rewrite (fol_skip E d t (sr_new bs)). cbn [sr_new sr_inner]. rewrite R. reflexivity.
  - unfold skip_slice. rewrite (fol_skip E d t (sr_new bs)). cbn [sr_new sr_inner]. rewrite R. reflexivity.
Qed.
Lemma oom_rmap : forall E A B (f : A -> B) r r', or_oom E r r' -> or_oom E (rmap f r) (rmap f r').
Proof. intros E A B f r r' [->|[H ->]]; [left; reflexivity|right; split; [exact H|reflexivity]]. Qed.
Theorem C44_skip_slice_limited : forall E S d t t' bs, rewrapped E S -> same_wire E t t' ->
  skip_slice E d t bs <> Panic PMem ->
  or_oom E (skip_slice (set_sch E S) d t' bs) (skip_slice E d t bs).
Proof.
  intros E S d t t' bs HS H HP. rewrite !skip_slice_run in *. apply oom_rmap. apply C44_skip_limited; try assumption.
  intros K. apply HP. rewrite K. reflexivity.
Qed.

(** C48: a variant whose declared size is wrong is not decodable. *)
Lemma decode_all_mem : forall E d ts, agree (eq PMem) (decode_all E d ts) (decode_all (set_mem None E) d ts).
Proof.
  intros E d ts. induction ts as [|t ts IH]; cbn [decode_all]; [apply agree_refl|].
  apply agree_bind; [apply mem_agree|]. intros v. apply agree_bind; [exact IH|]. intros l. apply agree_refl.
Qed.
Lemma enc_mem' : forall E m d fs l bs, Forall3_enc E d fs l bs -> Forall3_enc (set_mem m E) d fs l bs.
Proof. intros E m d fs l bs H. induction H; constructor; assumption. Qed.
Theorem C48_wrong_size_limited : forall E d n s h vs vr k l b bs l',
  wf_env E -> e_sch E n = Some s -> sent s (scur s) = Some h -> h_opt h = true ->
  s_body s = SEnum vs -> In vr vs -> v_size vr = Some (SFixed k) ->
  to_vec E (S d) (TRef n) (VVar (v_name vr) l) = Ok b ->
  Forall3_enc E d (filter (falive (scur s)) (v_fields vr)) l bs -> len (concat bs) <> k ->
  run (decode_all E d (map f_ty (filter (falive (scur s)) (v_fields vr)))) (concat bs) = Ok (l', []) ->
  exists e, or_oom E (from_slice E (S d) (TRef n) b) (Err e).
Proof.
  intros E d n s h vs vr k l b bs l' W Es Eh Ho Eb Hin Hk H Hf Hne Hd.
  rewrite <- (unlimited_same _ _ _ _ (decode_all_mem E d _)) in Hd by (rewrite Hd; discriminate).
  destruct (C48_wrong_size_undecodable (set_mem None E) d n s h vs vr k l b bs l' (wf_set_mem None E W) eq_refl Es Eh Ho Eb Hin Hk H (enc_mem' E None _ _ _ _ Hf) Hne Hd) as (e & K).
  exists e. unfold from_slice in *. destruct (oom_lift E (S d) (TRef n) b _ eq_refl) as [Q|[Q1 Q2]].
  - left. rewrite Q. exact K.
  - right. split; [exact Q1|]. rewrite Q2. reflexivity.
Qed.

(** C60: a byte vector and [Bytes], each in the place of the other. *)
Theorem C60_bytes_limited : forall E d bs, wf_env E -> wfb bs ->
  (run (deserialize E d TBytes) bs <> Panic PMem ->
   or_oom E (run (deserialize E d (TVec (TInt U8))) bs) (rmap (fun p => (as_vec_u8 (fst p), snd p)) (run (deserialize E d TBytes) bs)))
  /\ (run (deserialize E d (TVec (TInt U8))) bs <> Panic PMem ->
      or_oom E (rmap (fun p => (as_vec_u8 (fst p), snd p)) (run (deserialize E d TBytes) bs)) (run (deserialize E d (TVec (TInt U8))) bs)).
Proof.
  intros E d bs W Hb. pose proof (C60_bytes (set_mem None E) d bs (wf_set_mem None E W) eq_refl Hb) as K. split; intros HP.
  - apply oom_lift. rewrite K. rewrite (unlimited_same _ _ _ bs (mem_agree E d TBytes) HP). reflexivity.
  - rewrite <- (unlimited_same _ _ _ bs (mem_agree E d (TVec (TInt U8))) HP), K. apply oom_rmap. apply oom_lift. reflexivity.
Qed.

(** C63: skipping with and without specialised vectors. *)
Lemma free_mem : forall E m t, specialised_free E t -> specialised_free (set_mem m E) t.
Proof. intros E m t [H1 H2]. split; [exact H1|]. intros n s f U. apply H2. exact (uses_env E (set_mem m E) t n eq_refl U). Qed.
Theorem C63_specialised_skipping_limited : forall E b d t bs, wf_env E -> specialised_free E t -> wfb bs -> len bs < 2 ^ e_ub E ->
  (forall rest, run (skip E d t) bs = Ok (tt, rest) -> or_oom E (run (skip (with_specialised b E) d t) bs) (Ok (tt, rest)))
  /\ (forall rest, run (skip (with_specialised b E) d t) bs = Ok (tt, rest) -> or_oom E (run (skip E d t) bs) (Ok (tt, rest)))
  /\ (forall n, skip_slice E d t bs = Ok n -> or_oom E (skip_slice (with_specialised b E) d t bs) (Ok n))
  /\ (forall n, skip_slice (with_specialised b E) d t bs = Ok n -> or_oom E (skip_slice E d t bs) (Ok n))
  /\ (forall rest, run (skip_check E d t) bs = Ok (tt, rest) -> or_oom E (run (skip_check (with_specialised b E) d t) bs) (Ok (tt, rest)))
  /\ (forall rest, run (skip_check (with_specialised b E) d t) bs = Ok (tt, rest) -> or_oom E (run (skip_check E d t) bs) (Ok (tt, rest))).
Proof.
  intros E b d t bs W H Hb Hl.
  destruct (C63_specialised_skipping (set_mem None E) b d t bs (wf_set_mem None E W) eq_refl (free_mem E None t H) Hb Hl) as (A & B & C & D).
  change (with_specialised b (set_mem None E)) with (set_mem None (with_specialised b E)) in *.
  assert (L : forall F bs r, run (skip (set_mem None F) d t) bs = r -> or_oom F (run (skip F d t) bs) r)
    by (intros F x r; apply limited; [apply (drop_mem F _ (fun F => skip F d t))|apply mem_skip]).
  assert (LC : forall F bs r, run (skip_check (set_mem None F) d t) bs = r -> or_oom F (run (skip_check F d t) bs) r)
    by (intros F x r; apply limited; [apply (drop_mem F _ (fun F => skip_check F d t))|apply mem_skip_check]).
  assert (U : forall F bs r, run (skip F d t) bs = Ok r -> run (skip (set_mem None F) d t) bs = Ok r)
    by (intros F x r R; rewrite (unlimited_same _ _ _ x (mem_skip F d t)); [exact R|rewrite R; discriminate]).
  assert (UC : forall F bs r, run (skip_check F d t) bs = Ok r -> run (skip_check (set_mem None F) d t) bs = Ok r)
    by (intros F x r R; rewrite (unlimited_same _ _ _ x (mem_skip_check F d t)); [exact R|rewrite R; discriminate]).
  assert (US : forall F bs n, skip_slice F d t bs = Ok n -> skip_slice (set_mem None F) d t bs = Ok n).
  { intros F x n R. rewrite skip_slice_run in *. destruct (run (skip F d t) x) as [p| |] eqn:Q; try discriminate R. rewrite (U F x p Q). exact R. }
  assert (LS : forall F bs r, skip_slice (set_mem None F) d t bs = r -> or_oom F (skip_slice F d t bs) r).
  { intros F x r R. rewrite skip_slice_run in *. subst r. apply oom_rmap, L. reflexivity. }
  repeat split; intros x R.
  - exact (L (with_specialised b E) bs _ (proj2 (A x) (U E bs (tt, x) R))).
  - exact (L E bs _ (proj1 (A x) (U (with_specialised b E) bs (tt, x) R))).
  - exact (LS (with_specialised b E) bs _ (proj2 (B x) (US E bs x R))).
  - exact (LS E bs _ (proj1 (B x) (US (with_specialised b E) bs x R))).
  - exact (LC (with_specialised b E) bs _ (proj2 (C x) (UC E bs (tt, x) R))).
  - exact (LC E bs _ (proj1 (C x) (UC (with_specialised b E) bs (tt, x) R))).
Qed.

(** C81, C82: opening a file of records. *)
Theorem C82_reopen_limited : forall E d n vs bs v ops x q s,
  wf_env E -> sizes_honest E -> reports E (TRef n) ->
  Forall (wt E d (TRef n)) vs -> rmapM (to_vec E d (TRef n)) vs = Ok bs ->
  wt E d (TRef n) v -> writes E d (TRef n) v = (ops, x) -> x <> Ok tt -> out ops = q ++ s ->
  or_oom E (open d n E (concat bs ++ q)) (Ok (vs, concat bs)).
Proof.
  intros E d n vs bs v ops x q s W Hh [Hr1 Hr2] Hvs Hbs Hw He Hx Ho.
  pose proof (C82_end_of_input E d d (TRef n) v ops x q s W Hh Hw (le_n _) Hr1 Hr2 He Hx Ho) as Q. clear He Hx Ho Hw.
  assert (S : forall fuel, (length (concat bs ++ q) <= fuel)%nat ->
    scan d n E fuel (concat bs ++ q) = (vs, q, match q with [] => Clean | _ => Failed (Err EIo) end)
    \/ (e_mem E <> None /\ exists ws tail, scan d n E fuel (concat bs ++ q) = (ws, tail, Failed (Panic PMem)))).
  { apply rmapM_ok in Hbs. induction Hbs as [|u b vs bs Hb Hbs IH]; intros fuel Hf; cbn [concat app] in *.
    - destruct q as [|q0 q'] eqn:Eq; [destruct fuel; left; reflexivity|]. destruct fuel as [|k]; [cbn in Hf; lia|]. cbn [scan].
      destruct Q as [->|[Q1 ->]]; [left; reflexivity|right; split; [exact Q1|eauto]].
    - inversion Hvs as [|? ? Hu Hvs']; subst. specialize (IH Hvs'). pose proof (not_empty d n E u b Hb) as Hne.
      pose proof (C02_self_delimiting E d d (TRef n) u b (concat bs ++ q) W Hh Hu (le_n _) Hb) as Hrun.
      rewrite <- app_assoc in *. destruct b as [|b0 b']; [contradiction|]. cbn [app length] in Hf, Hrun |- *.
      destruct fuel as [|k]; [lia|]. cbn [scan].
      destruct Hrun as [->|[K ->]]; [|right; split; [exact K|eauto]]. rewrite app_length in Hf.
      destruct (IH k) as [->|(K & ws & tail & ->)]; [lia|left; reflexivity|right; split; [exact K|eauto]]. }
  unfold open. destruct (S _ (le_n _)) as [->|(K & ws & tail & ->)]; [left|right; split; [exact K|reflexivity]].
  destruct q as [|q0 q']; [rewrite app_nil_r; reflexivity|].
  do 2 f_equal. rewrite app_length, Nat.add_sub, firstn_app, Nat.sub_diag, firstn_all. cbn [firstn]. apply app_nil_r.
Qed.
Theorem C81_restart_limited : forall d n file p progs recs torn E, life d n file p progs recs torn -> good n E -> (forall W, In W progs -> W = E) ->
  exists kept, or_oom E (open d n E file) (Ok (map snd recs, kept)).
Proof.
  intros d n file p progs recs torn E HL HE HP. destruct (life_inv d n file p progs recs torn HL) as (bs & q & -> & H2 & HT & HG & _).
  assert (S : shows d n E progs (fun r x => x = Ok (snd r))).
  { intros W v b Hi Hw Hb. rewrite (HP W Hi) in *. exists (Ok v). split; [reflexivity|]. split; [discriminate|]. intros rest. exact (C02_self_delimiting E d d _ v b rest (proj1 HE) (proj1 (proj2 HE)) Hw (le_n _) Hb). }
  assert (S' : shows_half d n E progs (fun r x => x = Ok (snd r))).
  { intros W v ops x q' s Hi Hw He Hx Hq. rewrite (HP W Hi) in *. destruct HE as (WE & HH & _ & _ & [HR1 HR2] & _).
    destruct (C82_end_of_input E d d (TRef n) v ops x q' s WE HH Hw (le_n _) HR1 HR2 He Hx Hq) as [->|[K ->]]; left; [reflexivity|split; [reflexivity|exact K]]. }
  pose proof (open_ok d n E progs _ _ torn recs bs q HE S (fun r x H => H) S' H2 HT) as H. exists (concat bs). destruct (open d n E (concat bs ++ q)) as [[vs kept]|e|x].
  - destruct H as [H ->]. left. do 2 f_equal. clear - H. induction H as [|r v recs vs H]; [reflexivity|]. cbn [map]. injection H as ->. f_equal. exact IHForall2.
  - destruct H as (r & [[_ H]|[_ H]]); discriminate.
  - destruct H as [[-> H]|(r & [[_ H]|[_ H]])]; [right; split; [exact H|reflexivity]|discriminate|discriminate].
Qed.

(** C76: the bytes of an indexed field, from any reader that lends out its bytes. *)
Theorem C76_encoded_field_limited : forall St (R : breader St) view, exact_reader R view -> forall E d m t l bs rest s,
  wf_env E -> sizes_honest E -> spec_built E ->
  indexed_as m t -> wt E d t (VSeq l) -> len bs < 2 ^ 32 -> len (bs ++ rest) < 2 ^ e_ub E ->
  encode_field E d m t (VSeq l) = Ok bs -> view s = bs ++ rest ->
  (exists s', brun R (b_view (b_skip_idx E d t)) s = Ok (bs, s') /\ view s' = rest)
  \/ (e_mem E <> None /\ brun R (b_view (b_skip_idx E d t)) s = Panic PMem).
Proof.
  intros St R view HR E d m t l bs rest s W Hh Hs Hi Hw Hl Hlr He Hv.
  assert (Hk : or_oom E (skip_idx E d t (mkSR (bs ++ rest) 0)) (Ok (tt, mkSR rest 0))).
  { destruct m; destruct t; try destruct Hi; cbn [skip_idx].
    - eapply C29_limited_map; eassumption.
    - eapply C29_limited_seq; try eassumption. left; reflexivity.
    - eapply C29_limited_seq; try eassumption. right; reflexivity.
    - eapply C29_limited_set; eassumption. }
  pose proof (C76_any_reader _ _ R br_slice_reader view sr_remaining HR C76_slice_reader _ (b_skip_idx E d t) s (mkSR (bs ++ rest) 0) Hv) as Hag.
  destruct (C76_skip_indexed E d (mkSR (bs ++ rest) 0)) as (_ & _ & Hc). rewrite Hc in Hag.
  pose proof (C76_view _ R view HR (b_skip_idx E d t) s) as HV.
  destruct Hk as [Hk|[Hm Hk]]; rewrite Hk in Hag; destruct (brun R (b_skip_idx E d t) s) as [[u s']|e|q]; cbn [same_outcome] in Hag; try contradiction.
  - left. destruct Hag as [_ Hv']. cbn [sr_remaining sr_inner] in Hv'. destruct HV as (x & Hx & HV). exists s'. split; [|exact Hv'].
    rewrite Hv, Hv' in Hx. apply app_inv_tail in Hx. subst x. exact HV.
  - right. split; [exact Hm|]. rewrite HV. f_equal. exact Hag.
Qed.

(** ** Examples: limits that refuse and limits that do not. *)
Example C60_limited_case :
  run (deserialize (set_mem (Some 2) new) 0 TBytes) [3; 1; 2; 3] = Panic PMem
  /\ run (deserialize (set_mem (Some 100) new) 0 TBytes) [3; 1; 2; 3; 9] = Ok (VBytes [1; 2; 3], [9])
  /\ run (deserialize (set_mem (Some 100) new) 0 (TVec (TInt U8))) [3; 1; 2; 3; 9] = Ok (VSeq [VInt 1; VInt 2; VInt 3], [9]).
Proof. repeat split; vm_compute; reflexivity. Qed.
Example C48_limited_case : from_slice (set_mem (Some 100) (ex_env (fun n => if n =? 1 then Some liar else None))) 1 (TRef 1) [1; 32; 251; 44; 1] = Err EIo.
Proof. vm_compute. reflexivity. Qed.
Example C81_limited_case :
  open 2 1 (set_mem (Some 1000) old) (rec_old ++ [1; 3; 97; 195; 169]) = Ok ([u_old], rec_old)
  /\ open 2 1 (set_mem (Some 1) old) (rec_old ++ [1; 3; 97; 195; 169]) = Panic PMem.
Proof. split; vm_compute; reflexivity. Qed.
Example C63_limited_case : skip_slice (set_mem (Some 1) (with_specialised false feat)) 2 (TVec TUuid) [0] = Ok 1.
Proof. vm_compute. reflexivity. Qed.

Print Assumptions C44_skip_slice_limited.
Print Assumptions C48_wrong_size_limited.
Print Assumptions C60_bytes_limited.
Print Assumptions C63_specialised_skipping_limited.
Print Assumptions C82_reopen_limited.
Print Assumptions C81_restart_limited.
Print Assumptions C76_encoded_field_limited.
