(** Encodings on different targets.  Proofs. *)

From Verif Require Import Base BaseL Prog ProgL Prim PrimL Utf8 Tag Ty Ser De Typed Mig RtL Agree Parts SerL Target.
From Coq Require Import List NArith ZArith Bool Lia.
Import ListNotations.
Open Scope N_scope.

(** [r] and [r'] are the same, or one of them is one of two failures: an assertion, where the builds differ in
    assertions ([B]), or the overflow of a byte count. *)
Definition near (B : Prop) {A} (r r' : res A) : Prop :=
  r = r' \/ (B /\ (r = Panic PAssert \/ r' = Panic PAssert)) \/ r = Err EOverflow \/ r' = Err EOverflow.

Section Near.
Variable B : Prop.
Lemma near_refl : forall A (r : res A), near B r r.
Proof. left; reflexivity. Qed.
Lemma near_rbind : forall A C (r r' : res A) (f f' : A -> res C), near B r r' -> (forall a, near B (f a) (f' a)) -> near B (rbind r f) (rbind r' f').
Proof.
  intros A C r r' f f' [->|[[HB [->| ->]]|[->| ->]]] Hf; cbn [rbind].
  - destruct r'; cbn [rbind]; [apply Hf|apply near_refl|apply near_refl].
  - right; left; auto.
  - right; left; auto.
  - right; right; left; auto.
  - right; right; right; auto.
Qed.
Lemma near_rmap : forall A C (f : A -> C) r r', near B r r' -> near B (rmap f r) (rmap f r').
Proof. intros A C f r r' [->|[[HB [->| ->]]|[->| ->]]]; unfold near; cbn; auto. Qed.
Lemma near_sbind : forall a a' b b', near B a a' -> near B b b' -> near B (a +++ b) (a' +++ b').
Proof.
  intros a a' b b' [->|[[HB [->| ->]]|[->| ->]]] Hb; cbn [sbind]; unfold near; auto.
  destruct a'; cbn [sbind]; auto. destruct Hb as [->|[[HB [->| ->]]|[->| ->]]]; auto.
Qed.
Lemma near_sconcat : forall A (f f' : A -> ser) l, (forall x, near B (f x) (f' x)) -> near B (sconcat (map f l)) (sconcat (map f' l)).
Proof. intros A f f' l H. induction l as [|x l IH]; [apply near_refl|]. cbn [map]. unfold sconcat. cbn [fold_right]. apply near_sbind; [apply H|exact IH]. Qed.
Lemma near_sconcat2 : forall l l', Forall2 (near B) l l' -> near B (sconcat l) (sconcat l').
Proof. intros l l' H. induction H; [apply near_refl|]. unfold sconcat. cbn [fold_right]. apply near_sbind; assumption. Qed.
Lemma near_mapM : forall A C (f f' : A -> res C) l, (forall x, near B (f x) (f' x)) -> near B (rmapM f l) (rmapM f' l).
Proof. intros A C f f' l H. induction l as [|x l IH]; cbn [rmapM]; [apply near_refl|]. apply near_rbind; [apply H|]. intros a. apply near_rbind; [exact IH|]. intros; apply near_refl. Qed.
Lemma near_bytes2 : forall l l', Forall2 (near B) l l' -> near B (rmapM ser_bytes l) (rmapM ser_bytes l').
Proof. intros l l' H. induction H; cbn [rmapM]; [apply near_refl|]. apply near_rbind; [apply near_rmap; assumption|]. intros a. apply near_rbind; [assumption|]. intros; apply near_refl. Qed.

Variables E E' : env.
Hypothesis Hfw : e_fw E = e_fw E'.
Hypothesis Hsp : e_spec E = e_spec E'.
Hypothesis Hit : forall t l, e_iter E t l = e_iter E' t l.
Hypothesis Hdbg : e_dbg E = e_dbg E' \/ B.
Variables (rec rec' : N -> val -> ser).
Hypothesis Hrec : forall n v, near B (rec n v) (rec' n v).

Lemma port_len : forall n, ser_len E n = ser_len E' n.
Proof. intros n. unfold ser_len. rewrite Hfw. reflexivity. Qed.
Lemma port_citer : forall k t l, citer E k t l = citer E' k t l.
Proof. intros [] t l; unfold citer; [apply Hit|reflexivity]. Qed.
Lemma near_bulk : forall k l, near B (ser_bulk E k l) (ser_bulk E' k l).
Proof.
  intros k l. unfold ser_bulk. rewrite port_len. apply near_sbind; [apply near_refl|]. destruct (len l =? 0); [apply near_refl|].
  destruct k; try apply near_refl. destruct (len l * 16 <? 2 ^ e_ub E), (len l * 16 <? 2 ^ e_ub E'); unfold near; auto.
Qed.
Lemma near_entry : forall a b a' b' p, (forall v, near B (a v) (a' v)) -> (forall v, near B (b v) (b' v)) -> near B (ser_entry a b p) (ser_entry a' b' p).
Proof. intros a b a' b' p Ha Hb. unfold ser_entry. destruct p; try apply near_refl. apply near_sbind; auto. Qed.
Lemma near_ty : forall t v, near B (ser_ty E rec t v) (ser_ty E' rec' t v).
Proof.
  induction t; intros v; cbn [ser_ty]; rewrite <- ?Hfw, <- ?Hsp; try (destruct v; try apply near_refl; fail); auto.
  - destruct v; try apply near_refl. unfold ser_blob. rewrite port_len. apply near_refl.
  - destruct v; try apply near_refl. unfold ser_blob. rewrite port_len. apply near_refl.
  - destruct v; try apply near_refl. unfold ser_blob. rewrite port_len. apply near_refl.
  - destruct v; try apply near_refl. apply near_sbind; auto.
  - destruct v; try apply near_refl. destruct (if e_spec E then bulk_of t else None); [apply near_bulk|].
    rewrite port_len. apply near_sbind; [apply near_refl|]. apply near_sconcat; auto.
  - destruct v; try apply near_refl. rewrite port_len. apply near_sbind; [apply near_refl|]. apply near_sconcat; auto.
  - destruct v; try apply near_refl. destruct (Nat.eqb (length l) n); [|apply near_refl]. apply near_sconcat; auto.
  - destruct v; try apply near_refl. destruct k as [|[|[| |]|]]; try apply near_refl; destruct l as [|x [|]]; try apply near_refl. apply near_sbind; [apply near_refl|auto].
  - destruct v; try apply near_refl. destruct k as [|[|[| |]|]]; try apply near_refl; destruct l as [|x [|]]; try apply near_refl; (apply near_sbind; [apply near_refl|auto]).
  - destruct v; try apply near_refl. destruct k as [|[|[| |]|]]; try apply near_refl; destruct l as [|x [|]]; try apply near_refl; (apply near_sbind; [apply near_refl|auto]).
  - destruct v; try apply near_refl. rewrite port_len, port_citer. apply near_sbind; [apply near_refl|]. apply near_sconcat. intros; apply near_entry; auto.
  - destruct v; try apply near_refl. rewrite port_len, port_citer. apply near_sbind; [apply near_refl|]. apply near_sconcat. auto.
  - destruct v; try apply near_refl. rewrite port_len, Hit. apply near_sbind; [apply near_refl|]. apply near_sconcat. auto.
Qed.
Lemma near_mode : forall m t v, near B (ser_mode E rec m t v) (ser_mode E' rec' m t v).
Proof.
  intros m t v.
  assert (HS : forall (t : ty) l, near B (rmapM (fun x => ser_bytes (ser_ty E rec t x)) l) (rmapM (fun x => ser_bytes (ser_ty E' rec' t x)) l)).
  { intros u l. apply near_mapM. intros x. apply near_rmap, near_ty. }
  destruct m; cbn [ser_mode].
  - apply near_ty.
  - apply near_refl.
  - destruct t; try apply near_refl. destruct v; try apply near_refl. destruct (bulk_of t); [apply near_bulk|apply near_refl].
  - destruct t; try apply near_refl. destruct v; try apply near_refl. rewrite port_citer. apply near_rbind; [|intros; apply near_refl].
    apply near_mapM. intros p. unfold pre_entry. destruct p; try apply near_refl. apply near_rbind; [apply near_rmap, near_ty|]. intros a.
    apply near_rbind; [apply near_rmap, near_ty|]. intros; apply near_refl.
  - destruct t; try apply near_refl; (destruct v; try apply near_refl); (apply near_rbind; [apply HS|intros; apply near_refl]).
  - destruct t; try apply near_refl; (destruct v; try apply near_refl). rewrite port_citer. apply near_rbind; [apply HS|intros; apply near_refl].
Qed.
Lemma near_fields : forall opt r fs vs, Forall2 (near B) (ser_fields E rec opt r fs vs) (ser_fields E' rec' opt r fs vs).
Proof.
  intros opt r. induction fs as [|f fs IH]; intros vs; cbn [ser_fields].
  - destruct vs; repeat constructor.
  - destruct (falive r f); [|apply IH]. destruct vs as [|v vs]; [repeat constructor|]. constructor; [apply near_mode|apply IH].
Qed.
Lemma near_vfields : forall r fs vs, Forall2 (near B) (ser_vfields E rec r fs vs) (ser_vfields E' rec' r fs vs).
Proof.
  intros r. induction fs as [|f fs IH]; intros vs; cbn [ser_vfields].
  - destruct vs; repeat constructor.
  - destruct (falive r f); [|apply IH]. destruct vs as [|v vs]; [repeat constructor|]. constructor; [apply near_ty|apply IH].
Qed.
Lemma near_tag : forall d c, near B (tag_new_checked (e_dbg E) d c) (tag_new_checked (e_dbg E') d c).
Proof.
  intros d c. destruct Hdbg as [->|HB]; [apply near_refl|]. unfold tag_new_checked. destruct (e_dbg E), (e_dbg E'); cbn [andb]; try apply near_refl;
    match goal with |- context [if ?c then _ else _] => destruct c end; unfold near; auto.
Qed.
Lemma near_derived : forall s v, near B (ser_derived E rec s v) (ser_derived E' rec' s v).
Proof.
  intros s v. unfold ser_derived. destruct (sent s (scur s)) as [h|]; [|apply near_refl]. rewrite <- Hfw. apply near_sbind; [apply near_refl|].
  destruct (s_body s) as [fs|vs].
  - unfold ser_struct. destruct v; try apply near_refl. destruct (h_opt h).
    + unfold ser_struct_opt. apply near_rbind; [apply near_bytes2, near_fields|]. intros; apply near_refl.
    + apply near_sconcat2, near_fields.
  - unfold ser_enum. destruct v; try apply near_refl. destruct (calc_disc (scur s) vs) as [ds|]; [|apply near_refl].
    destruct (find_name k ds) as [[vr d]|]; [|apply near_refl]. destruct (h_opt h).
    + unfold ser_variant_opt. destruct (v_size vr) as [[|n|]|].
      * apply near_rbind; [apply near_tag|intros; apply near_refl].
      * apply near_sbind; [apply near_rbind; [apply near_tag|intros; apply near_refl]|].
        apply near_rbind; [apply near_bytes2, near_vfields|]. intros bs. cbn zeta.
        destruct Hdbg as [->|HB]; [apply near_refl|]. destruct (e_dbg E), (e_dbg E'); cbn [andb]; try apply near_refl;
          match goal with |- context [if ?c then _ else _] => destruct c end; unfold near; auto.
      * apply near_sbind; [apply near_rbind; [apply near_tag|intros; apply near_refl]|].
        apply near_rbind; [apply near_bytes2, near_vfields|]. intros bs. apply near_refl.
      * apply near_refl.
    + rewrite <- Hfw. apply near_sbind; [apply near_refl|]. apply near_sconcat2, near_fields.
Qed.
End Near.

Lemma near_writer : forall (B : Prop) E E' d t v, same_build E E' -> same_iteration E E' -> e_dbg E = e_dbg E' \/ B ->
  near B (to_writer E d t v) (to_writer E' d t v).
Proof.
  intros B E E' d t v (Hf & Hs & Hn) Hi Hd. unfold to_writer. apply near_ty; auto.
  induction d as [|d IH]; intros n w; cbn [ser_ref]; [apply near_refl|]. rewrite <- Hn. destruct (e_sch E n) as [s|]; [|apply near_refl].
  apply near_derived; auto.
Qed.
Lemma near_vec : forall (B : Prop) E E' d t v, same_build E E' -> same_iteration E E' -> e_dbg E = e_dbg E' \/ B ->
  near B (to_vec E d t v) (to_vec E' d t v).
Proof. intros. apply near_rmap, near_writer; assumption. Qed.
