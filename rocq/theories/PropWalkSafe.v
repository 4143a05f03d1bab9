(** C58: walking bytes from an untrusted source. *)

From Verif Require Import Base BaseL Prog ProgL Prim PrimL Utf8 Tag Ty Ser De Typed Mig Parts RtL RtId Agree Total SerL PropTotal Spec Ex Users SliceReader Skip SkipIdx SkipL PropUntrusted Walk WalkSpec WalkRef PropWalk Script WalkSafe.
From Coq Require Import List NArith ZArith Bool Lia.
Import ListNotations.
Open Scope N_scope.

(** Some derived type has convert functions: its older data is decoded, converted and encoded again. *)
Definition converts (E : env) : Prop := exists n s, e_sch E n = Some s /\ has_convert s = true.
(** Some struct has an indexed revision. *)
Definition indexes (E : env) : Prop :=
  exists n s r h fs, e_sch E n = Some s /\ s_body s = SStruct fs /\ sent s r = Some h /\ h_opt h = true /\ h_idx h = true.
(** The panics there are.  [Q]: those of user functions. *)
Definition listed (E : env) (Q : pan -> Prop) (x : pan) : Prop :=
  (x = PMem /\ (e_mem E <> None \/ converts E)) \/ x = PTime \/ (x = POverflow /\ e_dbg E = true) \/ Q x
  \/ (x = PSlice /\ indexes E)
  \/ (x = PAssert /\ e_dbg E = true /\ ~ sizes_true E)
  \/ (x = PStack /\ converts E).
(** A call on a reader over [bs]: it succeeds, and leaves the reader at the end of a part of [bs]; or it gives an
    error; or the panic is one of those. *)
Definition outcome {A} (P : pan -> Prop) (bs : bytes) (r : res (A * sreader)) : Prop :=
  match r with
  | Ok (_, s) => (exists used, bs = used ++ sr_inner s) /\ sr_orig s = len bs
  | Err _ => True
  | Panic x => P x
  end.
(** The program, the stack and the input.  [d]: nested calls into derived types there is stack for; one more than
    there are bytes is enough.  [D]: the same for encoding; [U]: how deep the values user functions make up are.
    The input is not within a factor 16 of the address space. *)
Definition setting (E : env) (Q : pan -> Prop) (D d U : nat) (bs : bytes) : Prop :=
  wf_env E /\ env_all (fun f => ty_all (declared E) (f_ty f)) E /\ user_panics E Q
  /\ users_typed E (fun _ _ => True) U /\ ext_typed E (fun _ _ => True) /\ opt_stable E
  /\ (length bs < d)%nat /\ (d + U <= S D)%nat /\ wfb bs /\ 16 * (len bs + 1) <= 2 ^ e_ub E.

Lemma outcome_of : forall A (P : pan -> Prop) (I : bytes -> Prop) (R : A -> bytes -> Prop) m bs, I bs -> ssafe P I R m -> outcome P bs (m (sr_new bs)).
Proof.
  intros A P I R m bs HI H. specialize (H (sr_new bs) HI). unfold outcome. destruct (m (sr_new bs)) as [[a s]|e|x]; auto.
  destruct H as (_ & H1 & H2). split; [exact H1|exact H2].
Qed.
Lemma setting_inv : forall E Q D d U bs, setting E Q D d U bs -> inv E D U d bs.
Proof. intros E Q D d U bs (_ & _ & _ & _ & _ & _ & H1 & H2 & H3 & H4). unfold inv. auto. Qed.
Lemma in_setting : forall A E Q D d U bs (m : sm A) (R : A -> bytes -> Prop), setting E Q D d U bs ->
  ((e_mem E = None \/ listed E Q PMem) -> (no_idx_map E \/ (e_dbg E = false \/ listed E Q POverflow)) -> user_panics E (listed E Q) ->
   (e_dbg E = true -> ~ sizes_true E -> listed E Q PAssert) ->
   (forall n s r h fs, e_sch E n = Some s -> s_body s = SStruct fs -> sent s r = Some h -> h_opt h = true -> h_idx h = true -> listed E Q PSlice) ->
   (forall n s, e_sch E n = Some s -> has_convert s = true -> listed E Q PStack /\ listed E Q PMem) ->
   ssafe (listed E Q) (inv E D U d) R m) ->
  outcome (listed E Q) bs (m (sr_new bs)).
Proof.
  intros A E Q D d U bs m R HS H. eapply outcome_of; [exact (setting_inv _ _ _ _ _ _ HS)|]. destruct HS as (W & C & HU & _). apply H; unfold listed.
  - destruct (e_mem E) eqn:Em; [|left; reflexivity]. right. left. split; [reflexivity|]. left. congruence.
  - right. destruct (e_dbg E); [right|left; reflexivity]. auto.
  - eapply user_panics_mono; [|exact HU]. unfold listed. intros x Hx. auto.
  - intros H1 H2. do 5 right. left. auto.
  - intros n s r h fs H1 H2 H3 H4 H5. do 4 right. left. split; [reflexivity|]. exists n, s, r, h, fs. auto.
  - intros n s H1 H2. split; [do 6 right|left]; (split; [reflexivity|]); [|right]; exists n, s; auto.
Qed.

(** C58.  Every accepted script, on every input. *)
Theorem C58_panics_listed : forall E (Q : pan -> Prop) D d U t a bs,
  setting E Q D d U bs -> ty_all (declared E) t = true -> accepted E (walker_of E t) a -> no_owned_view E (walker_of E t) a ->
  outcome (listed E Q) bs (walk_with E D d t a (sr_new bs)).
Proof.
  intros E Q D d U t a bs HS Ht Ha Hv. eapply in_setting; [exact HS|]. intros Hm Ho Hu Hz Hi Hc.
  destruct HS as (W & C & _ & H1 & H2 & H3 & _).
  apply (ss_walk E (listed E Q) (declared E) W Hm (fun _ H => H) C (or_intror (or_intror (or_introl eq_refl))) Ho Hu D U H1 H2 H3 Hz Hi Hc d t a Ht Ha Hv).
Qed.
(** [find] and [find_bytes] of map walkers. *)
Theorem C58_find_panics_listed : forall E (Q : pan -> Prop) D d U k v p w bs,
  setting E Q D d U bs -> ty_all (declared E) k = true -> ty_all (declared E) v = true -> accepted E (WPos v) w -> no_owned_view E (WPos v) w ->
  outcome (listed E Q) bs (map_find E D d k v p w (sr_new bs)).
Proof.
  intros E Q D d U k v p w bs HS Hk Ht Ha Hv. eapply in_setting; [exact HS|]. intros Hm Ho Hu Hz Hi Hc.
  destruct HS as (W & C & _ & H1 & H2 & H3 & _).
  apply (ss_map_find E (listed E Q) (declared E) W Hm (fun _ H => H) C (or_intror (or_intror (or_introl eq_refl))) Ho Hu D U H1 H2 H3 Hz Hi Hc d k v p w Hk Ht Ha Hv).
Qed.
Theorem C58_find_bytes_panics_listed : forall E (Q : pan -> Prop) D d U k v p w bs,
  setting E Q D d U bs -> ty_all (declared E) k = true -> ty_all (declared E) v = true -> accepted E (WPos v) w -> no_owned_view E (WPos v) w ->
  outcome (listed E Q) bs (map_find_bytes E D d k v p w (sr_new bs)).
Proof.
  intros E Q D d U k v p w bs HS Hk Ht Ha Hv. eapply in_setting; [exact HS|]. intros Hm Ho Hu Hz Hi Hc.
  destruct HS as (W & C & _ & H1 & H2 & H3 & _).
  apply (ss_map_find_bytes E (listed E Q) (declared E) W Hm (fun _ H => H) C (or_intror (or_intror (or_introl eq_refl))) Ho Hu D U H1 H2 H3 Hz Hi Hc d k v p w Hk Ht Ha Hv).
Qed.
(** [into_<field>_bytes] after decoding or skipping the fields before it, of a type without convert functions. *)
Theorem C58_field_bytes_panics_listed : forall E (Q : pan -> Prop) D d U n s fs cs bs,
  setting E Q D d U bs -> e_sch E n = Some s -> s_body s = SStruct fs -> has_convert s = false ->
  (length cs < length (filter (falive (scur s)) fs))%nat ->
  outcome (listed E Q) bs (walk_into_bytes E D d (TRef n) cs (sr_new bs)).
Proof.
  intros E Q D d U n s fs cs bs HS Es Eb Hs Hl. eapply in_setting; [exact HS|]. intros Hm Ho Hu Hz Hi Hc.
  destruct HS as (W & C & _ & H1 & H2 & H3 & _).
  apply (ss_walk_into_bytes E (listed E Q) (declared E) W Hm (fun _ H => H) C (or_intror (or_intror (or_introl eq_refl))) Ho Hu D U H1 H2 H3 Hz Hi Hc d n s fs cs Es Eb Hs Hl).
Qed.
(** No panic at all without convert functions, indexed structs, the time types, a memory limit, indexed maps (or in
    release builds), wrong [fixed(N)] sizes (or in release builds) and with user functions that do not panic. *)
Theorem C58_no_panic : forall E D d U t a bs,
  setting E (fun _ => False) D d U bs -> ty_all (declared E) t = true -> accepted E (walker_of E t) a -> no_owned_view E (walker_of E t) a ->
  ~ converts E -> ~ indexes E -> no_time E t -> e_mem E = None -> no_idx_map E \/ e_dbg E = false -> sizes_true E \/ e_dbg E = false ->
  outcome (fun _ => False) bs (walk_with E D d t a (sr_new bs)).
Proof.
  intros E D d U t a bs HS Ht Ha Hv Nc Ni [T1 T2] Nm No Ns. eapply outcome_of; [exact (setting_inv _ _ _ _ _ _ HS)|].
  destruct HS as (W & C & HU & H1 & H2 & H3 & _).
  assert (AND : forall p q u, ty_all p u = true -> ty_all q u = true -> ty_all (fun u => p u && q u) u = true).
  { intros p q. induction u; cbn [ty_all]; rewrite ?andb_true_iff; intuition auto. }
  apply (ss_walk E (fun _ => False) (fun u => declared E u && timeless u)) with (U := U); auto.
  - intros u Hu. apply andb_prop in Hu. apply Hu.
  - intros n s Es. specialize (C n s Es). specialize (T2 n s Es). unfold fields_all in *. destruct (s_body s) as [fs|vs]; rewrite forallb_forall in *.
    + intros f Hf. apply AND; auto.
    + intros v Hv'. specialize (C v Hv'). specialize (T2 v Hv'). rewrite forallb_forall in *. intros f Hf. apply AND; auto.
  - left. intros u Hu. apply andb_prop in Hu. apply Hu.
  - destruct No; auto.
  - intros H4 H5. destruct Ns; [contradiction|congruence].
  - intros n s r h fs Q1 Q2 Q3 Q4 Q5. apply Ni. exists n, s, r, h, fs. auto.
  - intros n s Q1 Q2. elim Nc. exists n, s. auto.
Qed.

(** The panic of indexed structs is reachable at the current revision: a payload shorter than its table (the decoder
    reports an error), an offset beyond the end of the payload (the decoder does not look at offsets and accepts the
    bytes). *)
Theorem C58_indexed_refuted : exists s b b', wf_env (only s)
  /\ walks s b (Field Decode Rest) = Panic PSlice /\ (exists e, run (deserialize (only s) 9 (TRef 1)) b = Err e) /\ length b = 7%nat
  /\ walks s b' (Field Decode Rest) = Panic PSlice /\ run (deserialize (only s) 9 (TRef 1)) b' = Ok (VSeq [VSeq []], []) /\ length b' = 14%nat.
Proof.
  exists r_indexed, [1; 2; 0; 0; 0; 0; 0], [1; 9; 0; 0; 0; 200; 0; 0; 0; 0; 0; 0; 0; 0]. split; [case_by|].
  split; [vm_compute; reflexivity|]. split; [eexists; vm_compute; reflexivity|]. split; [reflexivity|]. split; [vm_compute; reflexivity|]. split; [vm_compute; reflexivity|]. reflexivity.
Qed.

(** ** Cases: the program of PropWalk.v *)
Example closed_wex : env_all (fun f => ty_all (declared wex) (f_ty f)) wex.
Proof. intros n s. apply (wsch_is (fun _ s => fields_all (fun f => ty_all (declared wex) (f_ty f)) s = true)); vm_compute; reflexivity. Qed.
Example ext_wex : ext_typed wex (fun _ _ => True).
Proof. intros c d t x y Hx. cbn [wex ex_env e_ext]. destruct x as [|[]| | | | |]; try (destruct (c =? 0)); intros H; inversion H; subst; exact Hx. Qed.
Definition hello : act := Field Decode (Field (Walk (Item Bytes (Item (Walk Skip) Rest))) (Field (Walk (Case Skip (Into 1 (Field Skip Rest)))) Rest)).
Example hello_accepted : accepted wex (walker_of wex (TRef 1)) hello /\ no_owned_view wex (walker_of wex (TRef 1)) hello.
Proof. vm_compute. intuition (try discriminate; try reflexivity). Qed.
Example users_wex_calm : user_panics wex (fun _ => False).
Proof.
  intros n s. apply (wsch_is (fun _ s => (forall f r x, (match s_body s with SStruct fs => In f fs | SEnum vs => exists v, In v vs /\ In f (v_fields v) end) ->
     (f_default f r = Panic x -> False) /\ (forall l v, f_convert f l r v = Panic x -> False))
   /\ (forall vs v l r x, s_body s = SEnum vs -> In v vs -> v_convert v l r = Panic x -> False))); cbn [s_body acct temp evt].
  - split; [|discriminate]. intros f r x Hf. repeat (destruct Hf as [<-|Hf]); try contradiction; (split; [discriminate|]); intros l v; discriminate.
  - split; [|discriminate]. intros f r x Hf. repeat (destruct Hf as [<-|Hf]); try contradiction; (split; [discriminate|]); intros l v; try discriminate.
    cbn. unfold to_tenths. destruct l as [|? [|? [|]]]; try discriminate. destruct v; discriminate.
  - split.
    + intros f r x (v & Hv & Hf). repeat (destruct Hv as [<-|Hv]); try contradiction; cbn in Hf; repeat (destruct Hf as [<-|Hf]); try contradiction; (split; [discriminate|]); intros; discriminate.
    + intros vs v l r x H Hv. inversion H; subst vs. repeat (destruct Hv as [<-|Hv]); try contradiction; discriminate.
Qed.
Definition hello_bytes : bytes := [2; 2; 104; 105; 2; 1; 97; 200; 7; 7].
Example setting_wex : forall bs d, (length bs < d)%nat -> wfb bs -> len bs < 2 ^ 59 -> setting wex (fun _ => False) d d 0 bs.
Proof.
  intros bs d Hd Hb Hl. split; [exact wf_wex|]. split; [exact closed_wex|]. split; [exact users_wex_calm|]. split; [exact users_wex|].
  split; [exact ext_wex|]. split; [exact opt_stable_wex|]. split; [exact Hd|]. split; [lia|]. split; [exact Hb|].
  cbn [wex ex_env e_ub]. change (2 ^ 59) with 576460752303423488 in Hl. change (2 ^ 64) with 18446744073709551616. lia.
Qed.
Example C58_case :
  outcome (listed wex (fun _ => False)) hello_bytes (walk_with wex 11 11 (TRef 1) hello (sr_new hello_bytes))
  /\ (exists e, walk_with wex 11 11 (TRef 1) hello (sr_new hello_bytes) = Err e)
  /\ (exists o, walk_with wex 11 11 (TRef 1) (Field Decode (Field (Walk (Item Bytes (Item Skip Rest))) Rest)) (sr_new [1; 0; 2; 1; 97; 1; 98; 77]) = Ok (o, mkSR [77] 8)).
Proof.
  split; [|split].
  - destruct hello_accepted. apply (C58_panics_listed wex _ 11 11 0); [apply setting_wex|reflexivity|assumption|assumption].
    + cbn. lia.
    + repeat constructor.
    + vm_compute. reflexivity.
  - eexists. vm_compute. reflexivity.
  - eexists. vm_compute. reflexivity.
Qed.
(** Without [temp], no type is converted and nothing panics: 11 bytes that claim a log of 200 entries in an event. *)
Definition csch (n : N) : option schema := if n =? 1 then Some acct else if n =? 3 then Some evt else None.
Definition calm := ex_env csch.
Lemma csch_is : forall (P : N -> schema -> Prop), P 1 acct -> P 3 evt -> forall n s, csch n = Some s -> P n s.
Proof.
  intros P H1 H3 n s H. unfold csch in H. destruct (N.eqb_spec n 1) as [->|_]; [|destruct (N.eqb_spec n 3) as [->|_]; [|discriminate]]; inversion H; subst; assumption.
Qed.
Lemma csch_wsch : forall n s, csch n = Some s -> wsch n = Some s.
Proof. apply csch_is; reflexivity. Qed.
Example users_calm : users_typed calm (fun _ _ => True) 0.
Proof.
  intros n s d r h Es Er _. assert (Hr : r = 1 \/ r = 2).
  { unfold sent in Er. destruct (r =? 0) eqn:E0; [discriminate|]. apply N.eqb_neq in E0. assert (L : (N.to_nat (r - 1) < length (s_hist s))%nat) by (apply nth_error_Some; congruence).
    revert L. apply (csch_is (fun _ s => (N.to_nat (r - 1) < length (s_hist s))%nat -> r = 1 \/ r = 2)) with (n := n); [cbn; lia|cbn; lia|exact Es]. }
  revert Es. apply (csch_is (fun n s => (forall fs f v, field_list s fs -> In f fs -> falive r f = false -> falive (scur s) f = true -> f_default f r = Ok v -> ok calm (fun _ _ => True) d (f_ty f) v)
    /\ (forall fs f l v l', field_list s fs -> In f fs -> falive r f = true -> falive (scur s) f = false -> ok_fields calm (fun _ _ => True) d (scur s) fs l -> ok calm (fun _ _ => True) d (f_ty f) v ->
         f_convert f l r v = Ok l' -> ok_fields calm (fun _ _ => True) d (scur s) fs l')
    /\ (forall vs vr l v, s_body s = SEnum vs -> In vr vs -> valive r vr = true -> valive (scur s) vr = false -> v_convert vr l r = Ok v -> ok calm (fun _ _ => True) (S d) (TRef n) v))).
  - split; [|split].
    + intros fs f v -> Hf. cbn in Hf. repeat (destruct Hf as [<-|Hf]); try (destruct Hf); intros Ha Hc Hv; try (destruct Hr as [-> | ->]; discriminate).
      cbn in Hv. inversion Hv; subst v. split; cbn; auto.
    + intros fs f l v l' -> Hf. cbn in Hf. repeat (destruct Hf as [<-|Hf]); try (destruct Hf); intros Ha Hc; destruct Hr as [-> | ->]; discriminate.
    + intros vs vr l v Hb. discriminate.
  - split; [|split].
    + intros fs f v (vr & Hi & ->) Hf Ha Hc. exfalso. cbn in Hi.
      destruct Hi as [<-|[<-|[<-|[<-|[]]]]]; cbn in Hf; repeat (destruct Hf as [<-|Hf]); try (destruct Hf); destruct Hr as [-> | ->]; discriminate.
    + intros fs f l v l' (vr & Hi & ->) Hf Ha Hc. exfalso. cbn in Hi.
      destruct Hi as [<-|[<-|[<-|[<-|[]]]]]; cbn in Hf; repeat (destruct Hf as [<-|Hf]); try (destruct Hf); destruct Hr as [-> | ->]; discriminate.
    + intros vs vr l v Hb Hi Ha Hc. exfalso. cbn in Hb. inversion Hb; subst vs. destruct Hi as [<-|[<-|[<-|[<-|[]]]]]; discriminate.
Qed.
Example setting_calm : forall bs d, (length bs < d)%nat -> wfb bs -> len bs < 2 ^ 59 -> setting calm (fun _ => False) d d 0 bs.
Proof.
  intros bs d Hd Hb Hl. split; [apply wf_ex, csch_is; apply wf_schemab_ok; vm_compute; reflexivity|]. split.
  { intros n s. apply (csch_is (fun _ s => fields_all (fun f => ty_all (declared calm) (f_ty f)) s = true)); vm_compute; reflexivity. }
  split; [intros n s Es; exact (users_wex_calm n s (csch_wsch n s Es))|]. split; [exact users_calm|]. split.
  { intros c d' t x y Hx. cbn [calm ex_env e_ext]. destruct x as [|[]| | | | |]; try (destruct (c =? 0)); intros H; inversion H; subst; exact Hx. }
  split; [intros n s vs vr r h Es; exact (opt_stable_wex n s vs vr r h (csch_wsch n s Es))|]. split; [exact Hd|]. split; [lia|]. split; [exact Hb|].
  cbn [calm ex_env e_ub]. change (2 ^ 59) with 576460752303423488 in Hl. change (2 ^ 64) with 18446744073709551616. lia.
Qed.
Definition log_it : act := Is 3 (IntoVar 3 (Entry Bytes Skip (Entry Decode Decode Rest))) (Is 1 (ViewVar 1) (DecodeVar 0)).
Example C58_calm_case : forall bs d, (length bs < d)%nat -> wfb bs -> len bs < 2 ^ 59 ->
  outcome (fun _ => False) bs (walk_with calm d d (TRef 3) log_it (sr_new bs)).
Proof.
  intros bs d Hd Hb Hl.
  assert (EA : forall p : field -> bool, fields_all p acct = true -> fields_all p evt = true -> env_all p calm) by (intros p H1 H3 n s; apply (csch_is (fun _ s => fields_all p s = true)); assumption).
  apply (C58_no_panic calm d d 0); [apply setting_calm; assumption|reflexivity| | | | | |reflexivity| |].
  - cbn [walker_of calm ex_env e_sch csch N.eqb Pos.eqb s_body evt]. cbn [accepted log_it]. split; [vm_compute; discriminate|]. split.
    + exists (fld (TMap KOrd TStr (TInt U64)) 1 None). split; [reflexivity|]. cbn. auto.
    + split; [vm_compute; discriminate|]. split; [eexists; eexists; reflexivity|]. exists []. split; [reflexivity|cbn; lia].
  - cbn [walker_of calm ex_env e_sch csch N.eqb Pos.eqb s_body evt]. cbn [no_owned_view log_it]. split; [|auto].
    intros f Hf. vm_compute in Hf. inversion Hf; subst f. cbn. auto.
  - intros (n & s & Es & Hs). revert Hs. apply (csch_is (fun _ s => has_convert s = true -> False)) with (n := n); [discriminate|discriminate|exact Es].
  - intros (n & s & r & h & fs & Es & _ & Er & Ho & _). assert (Hin : In h (s_hist s)) by (unfold sent in Er; destruct (r =? 0); [discriminate|exact (nth_error_In _ _ Er)]).
    revert Hin. apply (csch_is (fun _ s => In h (s_hist s) -> False)) with (n := n); [| |exact Es]; intros [<-|[<-|[]]]; discriminate.
  - split; [reflexivity|]. apply EA; reflexivity.
  - left. apply EA; reflexivity.
  - left. intros n s vs vr k d' l bs' Es Eb Hv Hk. exfalso. revert Eb Hv Hk.
    apply (csch_is (fun _ s => s_body s = SEnum vs -> In vr vs -> v_size vr = Some (SFixed k) -> False)) with (n := n); [discriminate| |exact Es].
    intros Hq Hv. cbn in Hq. inversion Hq; subst vs. repeat (destruct Hv as [<-|Hv]); try contradiction; discriminate.
Qed.
Example C58_calm_run : exists e, walk_with calm 9 9 (TRef 3) log_it (sr_new [2; 3; 200; 1; 97; 7]) = Err e.
Proof. eexists. vm_compute. reflexivity. Qed.

Print Assumptions C58_panics_listed.
Print Assumptions C58_find_panics_listed.
Print Assumptions C58_find_bytes_panics_listed.
Print Assumptions C58_field_bytes_panics_listed.
Print Assumptions C58_no_panic.
Print Assumptions C58_indexed_refuted.
