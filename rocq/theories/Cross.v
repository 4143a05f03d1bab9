(** Reading back, for every memory limit and every sufficient recursion depth.  Proofs. *)

From Verif Require Import Base BaseL Prog ProgL Prim Ty Ser De Typed Mig RtSch RtId Agree Spec.
From Coq Require Import List NArith ZArith Bool Lia.
Import ListNotations.
Open Scope N_scope.

Lemma wf_set_mem : forall m E, wf_env E -> wf_env (set_mem m E).
Proof. intros m E [H1 H2 H3 H4 H5 H6 H7]. constructor; assumption. Qed.
Lemma compatible_set_mem : forall m E E', compatible E E' -> compatible E (set_mem m E').
Proof. intros m E E' H. exact H. Qed.
Lemma migrate_set_mem : forall m E E' d t v, migrate E (set_mem m E') d t v = migrate E E' d t v.
Proof. reflexivity. Qed.

Lemma to_vec_ok : forall E d t v b, to_vec E d t v = Ok b -> exists ops, to_writer E d t v = Ok ops /\ b = out ops.
Proof. intros E d t v b H. apply ser_bytes_ok in H. exact H. Qed.

Lemma cross : forall E E' d d' t v b rest,
  wf_env E -> wf_env E' -> compatible E E' -> sizes_honest E -> wt E d t v ->
  (d <= d')%nat -> migrate E E' d t v <> Panic PStack ->
  to_vec E d t v = Ok b ->
  or_oom E' (run (deserialize E' d' t) (b ++ rest)) (rmap (fun v' => (v', rest)) (migrate E E' d t v)).
Proof.
  intros E E' d d' t v b rest W W' C Hh Hw Hd Hn Hs. apply to_vec_ok in Hs. destruct Hs as (ops & Hs & ->).
  assert (D : run (deserialize (set_mem None E') d' t) (out ops ++ rest) = rmap (fun v' => (v', rest)) (migrate E E' d t v)).
  { pose proof (decode_encoded E (set_mem None E') d t v ops rest W (wf_set_mem _ _ W') (compatible_set_mem _ _ _ C) Hh eq_refl Hw Hs) as H.
    rewrite migrate_set_mem in H.
    destruct (depth_agree (set_mem None E') d d' t Hd (out ops ++ rest)) as [<-|(x & <- & Hx)]; [exact H|].
    rewrite Hx in H. destruct (migrate E E' d t v); cbn in H; try discriminate. inversion H; subst. contradiction. }
  unfold or_oom. rewrite <- D.
  destruct (e_mem E') as [m|] eqn:Em.
  - destruct (mem_agree E' d' t (out ops ++ rest)) as [H|(x & <- & Hx)]; [left; exact H|right; split; [discriminate|exact Hx]].
  - left. replace (set_mem None E') with E'; [reflexivity|]. destruct E'; cbn in *. subst. reflexivity.
Qed.

Lemma same : forall E d d' t v b rest,
  wf_env E -> sizes_honest E -> wt E d t v -> (d <= d')%nat -> to_vec E d t v = Ok b ->
  or_oom E (run (deserialize E d' t) (b ++ rest)) (Ok (v, rest)).
Proof.
  intros E d d' t v b rest W Hh Hw Hd Hs.
  destruct (to_vec_ok _ _ _ _ _ Hs) as (ops & Ho & _).
  pose proof (migrate_id E W d t v ops Hw Ho) as Hm.
  pose proof (cross E E d d' t v b rest W W (compatible_refl E W) Hh Hw Hd) as H.
  rewrite Hm in H. apply H; [discriminate|exact Hs].
Qed.
Lemma same0 : forall E d d' t v b rest, wf_env E -> sizes_honest E -> wt E d t v -> (d <= d')%nat -> to_vec E d t v = Ok b ->
  run (deserialize (set_mem None E) d' t) (b ++ rest) = Ok (v, rest).
Proof.
  intros E d d' t v b rest W Hh Hw Hd Hs.
  destruct (to_vec_ok _ _ _ _ _ Hs) as (ops & Ho & _).
  pose proof (migrate_id E W d t v ops Hw Ho) as Hm.
  pose proof (cross E (set_mem None E) d d' t v b rest W (wf_set_mem _ _ W) (compatible_set_mem None E E (compatible_refl E W)) Hh Hw Hd) as H.
  rewrite migrate_set_mem, Hm in H. destruct H as [H|[H _]]; [discriminate|exact Hs|exact H|contradiction].
Qed.
