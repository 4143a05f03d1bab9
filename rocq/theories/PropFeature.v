(** C63: which data the cargo features [specialised-vectors] and [fixed-width-encoding] change. *)

From Verif Require Import Base BaseL Prog ProgL Prim PrimL Utf8 Tag Ty Ser De SliceReader Skip Typed Parts SortL Agree Transp TranspL Spec Format Ex PropFormat Local LocalL PropLocal Feature FeatureL.
From Coq Require Import List NArith ZArith Bool Lia Sorting.
Import ListNotations.
Open Scope N_scope.

(** The declarations without specialised vectors. *)
Definition harmless (E : env) : N -> option schema := fun n =>
  match e_sch E n with
  | Some s => if fields_all (fun f => vectors_same (e_fw E) (f_ty f)) s then Some s else None
  | None => None
  end.
Lemma harmless_used : forall E t, specialised_free E t -> same_used E t (harmless E).
Proof.
  intros E t [_ H] n U. unfold harmless. destruct (e_sch E n) as [s|] eqn:Es; [|reflexivity].
  assert (K : fields_all (fun f => vectors_same (e_fw E) (f_ty f)) s = true).
  { specialize (H n s). unfold fields_all, has_field in *. destruct (s_body s) as [fs|vs]; apply forallb_forall; intros x Hx.
    - apply H; assumption.
    - apply forallb_forall. intros f Hf. apply H; try assumption. exists x. auto. }
  rewrite K. reflexivity.
Qed.
Lemma uses_env : forall E E' t n, e_sch E' = e_sch E -> uses E' t n -> uses E t n.
Proof. intros E E' t n Hs U. induction U; [apply uses_here; assumption|]. rewrite Hs in *. eapply uses_in; eassumption. Qed.
Lemma harmless_used' : forall E b t, specialised_free E t -> same_used (with_specialised b E) t (harmless E).
Proof. intros E b t H n U. apply (harmless_used E t H). apply (uses_env E (with_specialised b E) t n eq_refl U). Qed.
Lemma harmless_all : forall E, env_all (fun f => vectors_same (e_fw E) (f_ty f)) (set_sch E (harmless E)).
Proof.
  intros E n s H. change (e_sch (set_sch E (harmless E)) n) with (harmless E n) in H. unfold harmless in H.
  destruct (e_sch E n) as [q|]; [|discriminate]. destruct (fields_all _ q) eqn:K; [|discriminate]. inversion H; subst. exact K.
Qed.
Lemma harmless_wf : forall E, wf_env E -> wf_env (set_sch E (harmless E)).
Proof.
  intros E W. destruct W as [A B C D F G H]. constructor; try assumption. intros n s Hs. apply (H n). change (e_sch (set_sch E (harmless E)) n) with (harmless E n) in Hs. unfold harmless in Hs.
  destruct (e_sch E n) as [q|]; [|discriminate]. destruct (fields_all _ q) eqn:K; [|discriminate]. exact Hs.
Qed.
Lemma wf_specialised : forall b E, wf_env E -> wf_env (with_specialised b E).
Proof. intros b E W. destruct W. constructor; assumption. Qed.

(** ** The feature [specialised-vectors] *)
(** The values are the same with and without it. *)
Theorem C63_values : forall E b d t v, (wt (with_specialised b E) d t v <-> wt E d t v) /\ (wt (with_fixed_width b E) d t v <-> wt E d t v).
Proof. intros. split; reflexivity. Qed.
(** Types that do not use a vector of [bool] or of wide integers are written the same. *)
Theorem C63_specialised_encoding : forall E b d t v, wf_env E -> specialised_free E t -> wt E d t v ->
  to_vec (with_specialised b E) d t v = to_vec E d t v.
Proof.
  intros E b d t v W H Hw. pose proof (harmless_used E t H) as U. pose proof (harmless_used' E b t H) as U'.
  rewrite <- (proj1 (C64_encoding E t _ d v U)), <- (proj1 (C64_encoding (with_specialised b E) t _ d v U')).
  apply (f_to_vec (set_sch E (harmless E)) b); [apply harmless_wf, W|exact (harmless_all E)|apply H|]. apply C64_values; assumption.
Qed.
(** ... and every input that is read with the feature is read without it, and conversely: the same value and the same
    rest.  Only how much memory is asked for at once differs. *)
Theorem C63_specialised_decoding : forall E b d t bs v rest, wf_env E -> specialised_free E t -> wfb bs -> len bs < 2 ^ e_ub E ->
  run (deserialize E d t) bs = Ok (v, rest) -> or_oom E (run (deserialize (with_specialised b E) d t) bs) (Ok (v, rest)).
Proof.
  intros E b d t bs v rest W H Hb Hl R. pose proof (harmless_used E t H) as U. pose proof (harmless_used' E b t H) as U'.
  rewrite <- (proj1 (C64_decoding E t _ d bs U)) in R. rewrite <- (proj1 (C64_decoding (with_specialised b E) t _ d bs U')).
  pose proof (harmless_wf E W) as W0.
  apply C49_decoded_is_form in R; try assumption. destruct R as (x & -> & F).
  apply wfb_app in Hb. destruct Hb as [Hx Hr]. rewrite len_app in Hl.
  pose proof (C49_form_decodes (with_specialised b (set_sch E (harmless E))) d t v x rest (wf_specialised b _ W0) Hx Hr) as D.
  apply D. apply form_feature; [exact (harmless_all E)|apply H| |exact F]. split; [exact Hx|]. change (e_ub (set_sch E (harmless E))) with (e_ub E). lia.
Qed.
Theorem C63_specialised_decoding_exact : forall E b d t bs, wf_env E -> e_mem E = None -> specialised_free E t -> wfb bs -> len bs < 2 ^ e_ub E ->
  forall v rest, run (deserialize (with_specialised b E) d t) bs = Ok (v, rest) <-> run (deserialize E d t) bs = Ok (v, rest).
Proof.
  intros E b d t bs W Hm H Hb Hl v rest. split; intros R.
  - assert (K : with_specialised (e_spec E) (with_specialised b E) = E) by (destruct E; reflexivity).
    assert (H' : specialised_free (with_specialised b E) t). { split; [apply H|]. intros n s f U. apply H. apply (uses_env E (with_specialised b E) t n eq_refl U). }
    destruct (C63_specialised_decoding (with_specialised b E) (e_spec E) d t bs v rest (wf_specialised b E W) H' Hb Hl R) as [A|[A _]]; [rewrite K in A; exact A|].
    exfalso. apply A. exact Hm.
  - destruct (C63_specialised_decoding E b d t bs v rest W H Hb Hl R) as [A|[A _]]; [exact A|]. contradiction.
Qed.
(** No larger set of types will do: vectors of every other element type are affected. *)
Theorem C63_specialised_exact : forall E d t, wf_env E -> same_either_way (e_fw E) t = false ->
  exists v b b', wt E d (TVec t) v /\ to_vec (with_specialised true E) d (TVec t) v = Ok b /\ to_vec (with_specialised false E) d (TVec t) v = Ok b' /\ b <> b'.
Proof.
  intros E d t W H.
  assert (F : forall n, n < 256 -> fits E n). { intros n Hn. unfold fits. destruct (we_ub E W) as [-> | ->]; cbn; lia. }
  assert (L : len (ser_len E 1) = if e_fw E then 8 else 1) by (unfold ser_len; destruct (e_fw E); reflexivity).
  destruct t; try discriminate H.
  - exists (VSeq [VBool true; VBool true]), (ser_len E 2 ++ [3]), (ser_len E 2 ++ [1; 1]). split; [split; [apply F; reflexivity|split; [exact I|repeat constructor]]|].
    split; [|split]; [reflexivity..|]. intros K. apply app_inv_head in K. discriminate K.
  - assert (K : forall z x y, wt E d (TVec (TInt i)) (VSeq [VInt z]) ->
      to_vec (with_specialised true E) d (TVec (TInt i)) (VSeq [VInt z]) = Ok (ser_len E 1 ++ x) -> to_vec (with_specialised false E) d (TVec (TInt i)) (VSeq [VInt z]) = Ok (ser_len E 1 ++ y) -> x <> y -> 
      exists v b b', wt E d (TVec (TInt i)) v /\ to_vec (with_specialised true E) d (TVec (TInt i)) v = Ok b /\ to_vec (with_specialised false E) d (TVec (TInt i)) v = Ok b' /\ b <> b').
    { intros z x y A B C D. exists (VSeq [VInt z]), (ser_len E 1 ++ x), (ser_len E 1 ++ y). repeat (split; [assumption|]). intros Q. apply app_inv_head in Q. contradiction. }
    assert (V : forall z, in_ity (e_ub E) i z -> wt E d (TVec (TInt i)) (VSeq [VInt z])).
    { intros z Hz. split; [apply F; reflexivity|]. split; [|constructor; [exact Hz|constructor]]. unfold vec_fits. cbn [bulk_of].
      destruct i; try exact I; apply F; reflexivity. }
    destruct i; try discriminate H; cbn [same_either_way] in H.
    + eapply (K 0%Z [0; 0] [0]); [apply V; split; reflexivity|reflexivity| |discriminate]. unfold to_vec. cbn. change (ser_len (with_specialised false E) 1) with (ser_len E 1). rewrite H. reflexivity.
    + eapply (K (-1)%Z [255; 255] (if e_fw E then [1; 0] else [1])); [apply V; split; [discriminate|reflexivity]|reflexivity| |destruct (e_fw E); discriminate]. unfold to_vec. cbn. change (ser_len (with_specialised false E) 1) with (ser_len E 1). destruct (e_fw E); reflexivity.
    + eapply (K 0%Z [0; 0; 0; 0] [0]); [apply V; split; reflexivity|reflexivity| |discriminate]. unfold to_vec. cbn. change (ser_len (with_specialised false E) 1) with (ser_len E 1). rewrite H. reflexivity.
    + eapply (K (-1)%Z (repeat 255 4) (if e_fw E then 1 :: repeat 0 3 else [1])); [apply V; split; [discriminate|reflexivity]|reflexivity| |destruct (e_fw E); discriminate]. unfold to_vec. cbn. change (ser_len (with_specialised false E) 1) with (ser_len E 1). destruct (e_fw E); reflexivity.
    + eapply (K 0%Z (repeat 0 8) [0]); [apply V; split; reflexivity|reflexivity| |discriminate]. unfold to_vec. cbn. change (ser_len (with_specialised false E) 1) with (ser_len E 1). rewrite H. reflexivity.
    + eapply (K (-1)%Z (repeat 255 8) (if e_fw E then 1 :: repeat 0 7 else [1])); [apply V; split; [discriminate|reflexivity]|reflexivity| |destruct (e_fw E); discriminate]. unfold to_vec. cbn. change (ser_len (with_specialised false E) 1) with (ser_len E 1). destruct (e_fw E); reflexivity.
    + eapply (K 0%Z (repeat 0 16) [0]); [apply V; split; reflexivity|reflexivity| |discriminate]. unfold to_vec. cbn. change (ser_len (with_specialised false E) 1) with (ser_len E 1). rewrite H. reflexivity.
    + eapply (K (-1)%Z (repeat 255 16) (if e_fw E then 1 :: repeat 0 15 else [1])); [apply V; split; [discriminate|reflexivity]|reflexivity| |destruct (e_fw E); discriminate]. unfold to_vec. cbn. change (ser_len (with_specialised false E) 1) with (ser_len E 1). destruct (e_fw E); reflexivity.
Qed.

(** ** The feature [fixed-width-encoding] *)
Lemma fw_ser : forall E b rec rec' t v, fixed_width_free t = true -> ser_ty (with_fixed_width b E) rec' t v = ser_ty E rec t v.
Proof.
  intros E b rec rec'. induction t; intros v S; unfold fixed_width_free in *; cbn [ty_all] in S; apply andb_prop in S; destruct S as [S0 S]; try discriminate S0;
    try (apply andb_prop in S; destruct S as [S1 S2]); try reflexivity; cbn [ser_ty].
  - destruct i; try discriminate S0; reflexivity.
  - destruct v; try reflexivity. rewrite IHt1, IHt2 by assumption. reflexivity.
  - destruct v; try reflexivity. destruct (Nat.eqb _ _); [|reflexivity]. f_equal. apply map_ext. intros x. apply IHt, S.
  - destruct v; try reflexivity. destruct k as [|[]]; try reflexivity; destruct l as [|x [|]]; try reflexivity. rewrite IHt by assumption. reflexivity.
  - apply IHt, S.
  - apply IHt, S.
Qed.
Lemma fw_de : forall E b rec rec' t, fixed_width_free t = true -> eqr (de_ty (with_fixed_width b E) rec' t) (de_ty E rec t).
Proof.
  intros E b rec rec'. induction t; intros S; unfold fixed_width_free in *; cbn [ty_all] in S; apply andb_prop in S; destruct S as [S0 S]; try discriminate S0;
    try (apply andb_prop in S; destruct S as [S1 S2]); try apply eqr_refl; cbn [de_ty].
  - destruct i; try discriminate S0; apply eqr_refl.
  - apply eqr_bind; [apply IHt1, S1|]. intros x. apply eqr_bind; [apply IHt2, S2|]. intros y. apply eqr_refl.
  - apply eqr_bind; [apply eqr_rep, IHt, S|]. intros x. apply eqr_refl.
  - apply eqr_bind; [apply eqr_refl|]. intros x. destruct (x =? 0); [apply eqr_refl|]. destruct (x =? 1); [|apply eqr_refl]. apply eqr_bind; [apply IHt, S|]. intros y. apply eqr_refl.
  - apply IHt, S.
  - apply eqr_bind; [apply IHt, S|]. intros x. apply eqr_refl.
Qed.
(** Types with neither lengths nor revision numbers nor wide integers are written and read the same, to the last error. *)
Theorem C63_fixed_width_same : forall E b d t, fixed_width_free t = true ->
  (forall v, to_writer (with_fixed_width b E) d t v = to_writer E d t v)
  /\ (forall bs, run (deserialize (with_fixed_width b E) d t) bs = run (deserialize E d t) bs).
Proof. intros E b d t H. split; [intros v; apply fw_ser, H|apply fw_de, H]. Qed.
(** All others are affected. *)
Definition needs_width (t : ty) : bool :=
  match t with
  | TInt U8 | TInt I8 => false
  | TInt _ | TStr | TPath | TBytes | TVec _ | TImVec _ | TBound _ | TMap _ _ _ | TSet _ _ | THeap _ | TDuration | TSystemTime => true
  | _ => false
  end.
Theorem C63_fixed_width_exact : forall E d t, wf_env E -> needs_width t = true ->
  exists v b b', wt E d t v /\ to_vec (with_fixed_width true E) d t v = Ok b /\ to_vec (with_fixed_width false E) d t v = Ok b' /\ b <> b'.
Proof.
  intros E d t W H.
  assert (F : fits E 0). { unfold fits. destruct (we_ub E W) as [-> | ->]; reflexivity. }
  destruct t; try discriminate H.
  - exists (VInt 0). destruct i; try discriminate H; eexists; eexists;
      (split; [split; (discriminate||reflexivity||(destruct (we_ub E W) as [-> | ->]; (discriminate||reflexivity)))|split; [reflexivity|split; [reflexivity|discriminate]]]).
  - exists (VBytes []). eexists; eexists. split; [split; [constructor|split; [reflexivity|exact F]]|split; [reflexivity|split; [reflexivity|discriminate]]].
  - exists (VBytes []). eexists; eexists. split; [split; [constructor|exact F]|split; [reflexivity|split; [reflexivity|discriminate]]].
  - exists (VBytes []). eexists; eexists. split; [split; [constructor|exact F]|split; [reflexivity|split; [reflexivity|discriminate]]].
  - exists (VSeq []). exists (repeat 0 8), [0]. split; [split; [exact F|split; [unfold vec_fits; destruct (bulk_of t) as [[| |]|]; try exact I; exact F|constructor]]|].
    unfold to_vec. cbn. destruct (e_spec E); [destruct (bulk_of t) as [[| |[]]|]|]; repeat split; discriminate.
  - exists (VSeq []). exists (repeat 0 8), [0]. split; [split; [exact F|constructor]|]. repeat split; discriminate.
  - exists (VVar 0 []). exists (repeat 0 4), [0]. split; [exact I|]. repeat split; discriminate.
  - exists (VSeq []). exists (repeat 0 8), [0]. split; [split; [exact F|split; constructor]|]. unfold to_vec. cbn. change (citer (with_fixed_width true E) k (TMap k t1 t2) []) with (citer E k (TMap k t1 t2) []).
    change (citer (with_fixed_width false E) k (TMap k t1 t2) []) with (citer E k (TMap k t1 t2) []).
    assert (I : citer E k (TMap k t1 t2) [] = []). { destruct k; [|reflexivity]. apply Permutation.Permutation_nil, Permutation.Permutation_sym, (we_iter E W). }
    rewrite I. repeat split; discriminate.
  - exists (VSeq []). exists (repeat 0 8), [0]. split; [split; [exact F|split; constructor]|]. unfold to_vec. cbn. change (citer (with_fixed_width true E) k (TSet k t) []) with (citer E k (TSet k t) []).
    change (citer (with_fixed_width false E) k (TSet k t) []) with (citer E k (TSet k t) []).
    assert (I : citer E k (TSet k t) [] = []). { destruct k; [|reflexivity]. apply Permutation.Permutation_nil, Permutation.Permutation_sym, (we_iter E W). }
    rewrite I. repeat split; discriminate.
  - exists (VSeq []). exists (repeat 0 8), [0]. split; [split; [exact F|split; constructor]|]. unfold to_vec. cbn. 
    assert (I : e_iter E (THeap t) [] = []). { apply Permutation.Permutation_nil, Permutation.Permutation_sym, (we_iter E W). }
    rewrite I. repeat split; discriminate.
  - exists (VPair (VInt 0) (VInt 0)). exists (repeat 0 12), [0; 0]. split; [repeat split; discriminate||reflexivity|]. repeat split; discriminate.
  - exists (VPair (VInt 0) (VInt 0)). exists (repeat 0 12), [0; 0]. split; [split; [apply (we_time E W)|split; [discriminate|reflexivity]]|]. repeat split; discriminate.
Qed.

(** ** Nothing in the data says which features it was written with *)
Theorem C63_specialised_detected_refuted : exists E d t v w b, wf_env E /\ wt E d t v /\ to_vec (with_specialised false E) d t v = Ok b
  /\ from_slice (with_specialised true E) d t b = Ok w /\ w <> v.
Proof.
  exists (ex_env (fun _ => None)), 0%nat, (TPair (TVec (TInt U16)) (TVec (TInt U8))), (VPair (VSeq [VInt 1; VInt 2]) (VSeq [VInt 5; VInt 0])),
    (VPair (VSeq [VInt 513; VInt 1282]) (VSeq [])), [2; 1; 2; 2; 5; 0].
  split; [apply wf_ex; discriminate|]. split; [cbn; repeat split; try constructor; repeat constructor; discriminate|]. split; [reflexivity|]. split; [vm_compute; reflexivity|discriminate].
Qed.
Theorem C63_fixed_width_detected_refuted : exists E d t v w b, wf_env E /\ wt E d t v /\ to_vec (with_fixed_width true E) d t v = Ok b
  /\ from_slice (with_fixed_width false E) d t b = Ok w /\ w <> v.
Proof.
  pose (s := mkSchema [mkHent false false] (SStruct [fld (TInt U8) 1 None; fld (TInt U8) 1 None])).
  exists (ex_env (fun n => if n =? 1 then Some s else None)), 1%nat, (TRef 1), (VSeq [VInt 5; VInt 6]), (VSeq [VInt 0; VInt 5]), [1; 0; 5; 6].
  split. { apply wf_ex. intros n q Hs. destruct (n =? 1); inversion Hs; subst; apply wf_schemab_ok; reflexivity. }
  split. { cbn. repeat constructor; discriminate. }
  split; [reflexivity|]. split; [vm_compute; reflexivity|discriminate].
Qed.

(** ** Cases *)
(** A record with vectors of bytes, of floats and of records is the same with and without [specialised-vectors], although
    another type of the program is not. *)
Definition feat : env :=
  ex_env (fun n => if n =? 1 then Some (mkSchema [mkHent false false; mkHent true false] (SStruct [fld (TVec (TRef 2)) 1 None; fld (TVec TF64) 2 None]))
                   else if n =? 2 then Some (mkSchema [mkHent false false] (SStruct [fld (TVec (TInt U8)) 1 None; fld (TInt U64) 1 None]))
                   else if n =? 3 then Some (mkSchema [mkHent false false] (SStruct [fld (TVec TBool) 1 None]))
                   else None).
Definition feat_v : val := VSeq [VSeq [VSeq [VSeq [VInt 7; VInt 255]; VInt 1000]; VSeq [VSeq []; VInt 1]]; VSeq [VInt 4607182418800017408]].
Example C63_case_free : specialised_free feat (TRef 1) /\ ~ specialised_free feat (TRef 3).
Proof.
  split.
  - split; [reflexivity|]. intros n s f U Hs Hf.
    assert (K : n = 1 \/ n = 2).
    { clear - U. induction U as [n Hn|m s f n U IH Hs Hf Hn]; [destruct Hn as [<-|[]]; auto|].
      destruct IH as [-> | ->]; inversion Hs; subst s; repeat destruct Hf as [<-|Hf]; try contradiction; cbn in Hn; repeat destruct Hn as [<-|Hn]; try contradiction; auto. }
    destruct K as [-> | ->]; inversion Hs; subst s; repeat destruct Hf as [<-|Hf]; try contradiction; reflexivity.
  - intros [_ H]. specialize (H 3 _ (fld (TVec TBool) 1 None) (uses_here feat (TRef 3) 3 (or_introl eq_refl)) eq_refl (or_introl eq_refl)). discriminate H.
Qed.
Example C63_case_wf : wf_env feat /\ wt feat 2 (TRef 1) feat_v.
Proof.
  split. { apply wf_ex. intros n s Hs. destruct (n =? 1); [inversion Hs; subst; apply wf_schemab_ok; reflexivity|]. destruct (n =? 2); [inversion Hs; subst; apply wf_schemab_ok; reflexivity|].
    destruct (n =? 3); inversion Hs; subst; apply wf_schemab_ok; reflexivity. }
  unfold feat_v. cbn. repeat (constructor || split); discriminate.
Qed.
Example C63_case_bytes : exists b, to_vec feat 2 (TRef 1) feat_v = Ok b /\ (length b > 20)%nat /\ to_vec (with_specialised false feat) 2 (TRef 1) feat_v = Ok b.
Proof. eexists. split; [reflexivity|]. split; [repeat constructor|reflexivity]. Qed.
Example C63_case_fixed_free : fixed_width_free (TPair (TArray 3 (TOption TChar)) (TPair TF64 (TInt U8))) = true.
Proof. reflexivity. Qed.

Print Assumptions C63_values.
Print Assumptions C63_specialised_encoding.
Print Assumptions C63_specialised_decoding.
Print Assumptions C63_specialised_decoding_exact.
Print Assumptions C63_specialised_exact.
Print Assumptions C63_fixed_width_same.
Print Assumptions C63_fixed_width_exact.
Print Assumptions C63_specialised_detected_refuted.
Print Assumptions C63_fixed_width_detected_refuted.
