(** C53: rolling back.  Data written by a newer program, read by an older one. *)

From Verif Require Import Base BaseL Prog ProgL Prim PrimL Ty Ser De Typed Mig Parts Evol RtL RtSch RtId Agree Cross EvolL Spec RollL Ex PropMig.
From Coq Require Import List NArith ZArith Bool Lia Relations.
Import ListNotations.
Open Scope N_scope.

(** What the new program wrote is either read as exactly what was written, and this happens if and
    only if every derived value in it is of a type whose revision the old program has as its
    latest too, or it is refused with an error.  It is never misread and never a panic. *)
Theorem C53_rollback : forall old new d d' t v b rest,
  wf_env old -> wf_env new -> later old new -> same_libraries new old -> closed old t -> sizes_honest new ->
  wt new d t v -> (d <= d')%nat -> to_vec new d t v = Ok b ->
  (every new (same_revision old new) d t v /\ or_oom old (run (deserialize old d' t) (b ++ rest)) (Ok (v, rest)))
  \/ (~ every new (same_revision old new) d t v /\ exists e, (e = EDeserialize MInvalidRevision \/ e = EDeserialize MInner)
        /\ or_oom old (run (deserialize old d' t) (b ++ rest)) (Err e)).
Proof.
  intros old new d d' t v b rest W W' HL Hlib [C1 C2] Hh Hw Hd Hs. apply edit_program_star in HL.
  apply to_vec_ok in Hs. destruct Hs as (ops & Hs & ->).
  set (old0 := set_mem None old).
  assert (HL0 : edit_program old0 new) by exact HL. assert (Hlib0 : same_libraries new old0) by exact Hlib.
  destruct (roll_all new old0 W' (wf_set_mem None old W) HL0 Hlib0 eq_refl Hh C2 d t v ops rest C1 Hw Hs) as [H1 H2].
  pose proof (roll_exact new old0 W' (wf_set_mem None old W) HL0 Hlib0 C2 d t v ops C1 Hw Hs) as H3.
  set (r := mig_ty new new (roll new old0 true d) t v) in *.
  assert (Hp : r <> Panic PStack) by (intros Hp; rewrite Hp in H2; destruct H2 as [H2|(e & H2 & _)]; discriminate).
  assert (D : run (deserialize old0 d' t) (out ops ++ rest) = rmap (fun v' => (v', rest)) r).
  { destruct (depth_agree old0 d d' t Hd (out ops ++ rest)) as [<-|(x & <- & Hx)]; [exact H1|].
    rewrite Hx in H1. destruct r; cbn in H1; try discriminate. injection H1 as <-. elim Hp. reflexivity. }
  assert (O : or_oom old (run (deserialize old d' t) (out ops ++ rest)) (rmap (fun v' => (v', rest)) r)).
  { unfold or_oom. rewrite <- D. destruct (e_mem old) as [m|] eqn:Em.
    - destruct (mem_agree old d' t (out ops ++ rest)) as [H|(x & <- & Hx)]; [left; exact H|right; split; [discriminate|exact Hx]].
    - left. unfold old0. replace (set_mem None old) with old; [reflexivity|]. destruct old; cbn in *. subst. reflexivity. }
  destruct H2 as [H2|(e & H2 & He)].
  - left. split; [apply H3, H2|]. rewrite H2 in O. exact O.
  - right. split; [intros Hk; apply H3 in Hk; rewrite Hk in H2; discriminate|]. exists e. split; [exact He|]. rewrite H2 in O. exact O.
Qed.

(** For a type that itself has a newer revision, the error. *)
Theorem C53_newer_type : forall old new d d' n s s' v b rest,
  later old new -> wf_env new -> e_sch old n = Some s -> e_sch new n = Some s' -> scur s < scur s' ->
  to_vec new (S d) (TRef n) v = Ok b ->
  run (deserialize old (S d') (TRef n)) (b ++ rest) = Err (EDeserialize MInvalidRevision).
Proof.
  intros old new d d' n s s' v b rest HL W Hs Hs' Hl Hb. apply edit_program_star in HL.
  destruct (C20_header_is_current new d n s' v b Hs' Hb) as (header & payload & -> & Hh).
  apply (C19_deserialize_rejects old d' n s (scur s') _ (payload ++ rest) Hs); [right; exact Hl|].
  destruct HL as (Hfw & _). unfold to_vec, to_writer, ser_bytes in Hh. cbn [ser_ty ser_int] in Hh.
  apply Ok_inj in Hh. subst header. unfold out. cbn [flat_map wop_bytes]. rewrite app_nil_r, N2Z.id, <- app_assoc.
  unfold deserialize. cbn [de_ty]. unfold de_int. rewrite run_bind, Hfw, run_bind, rt_u16 by apply (we_sch _ W _ _ Hs'). reflexivity.
Qed.

(** ** The hypotheses are met *)
Example libs_new_old : same_libraries new old.
Proof. repeat split. Qed.
Example closed_old : forall t, ty_all (declared old) t = true -> closed old t.
Proof.
  intros t H. split; [exact H|]. intros n s. cbn [old ex_env e_sch]. unfold sch1.
  destruct (n =? 1); [|destruct (n =? 2)]; intros Hs; inversion Hs; reflexivity.
Qed.
(** A list with a user in it is refused by the old program ... *)
Definition one_user : val := VSeq [u_new].
Example wt_one : wt new 3 (TVec (TRef 1)) one_user.
Proof. apply wtb_ok. vm_compute. reflexivity. Qed.
Example C53_refused : forall b, to_vec new 3 (TVec (TRef 1)) one_user = Ok b ->
  run (deserialize old 3 (TVec (TRef 1))) b = Err (EDeserialize MInvalidRevision).
Proof. intros b H. vm_compute in H. injection H as <-. vm_compute. reflexivity. Qed.
Example C53_case : forall b, to_vec new 3 (TVec (TRef 1)) one_user = Ok b ->
  exists e, run (deserialize old 3 (TVec (TRef 1))) (b ++ []) = Err e.
Proof.
  intros b H. destruct (C53_rollback old new 3 3 (TVec (TRef 1)) one_user b [] wf_old wf_new later_old_new libs_new_old
    (closed_old (TVec (TRef 1)) eq_refl) honest_new wt_one (le_n _) H) as [[He _]|[_ (e & _ & [He|[He _]])]].
  - cbn [every every_ty one_user] in He. destruct He as [_ He]. inversion He as [|x l [Hx _] _]. discriminate.
  - eauto.
  - elim He. reflexivity.
Qed.
(** ... and one without users is read. *)
Example C53_known_case : forall b, to_vec new 3 (TPair (TVec (TRef 1)) TBool) (VPair (VSeq []) (VBool true)) = Ok b ->
  run (deserialize old 3 (TPair (TVec (TRef 1)) TBool)) (b ++ [7]) = Ok (VPair (VSeq []) (VBool true), [7]).
Proof.
  intros b H. destruct (C53_rollback old new 3 3 (TPair (TVec (TRef 1)) TBool) (VPair (VSeq []) (VBool true)) b [7] wf_old wf_new later_old_new libs_new_old
    (closed_old (TPair (TVec (TRef 1)) TBool) eq_refl) honest_new ltac:(apply wtb_ok; vm_compute; reflexivity) (le_n _) H) as [[_ [He|[He _]]]|[Hn _]].
  - exact He.
  - elim He. reflexivity.
  - elim Hn. cbn [every every_ty same_revision]. repeat split; constructor.
Qed.
Example C53_newer_case : forall b rest, to_vec new 3 (TRef 1) u_new = Ok b ->
  run (deserialize old 1 (TRef 1)) (b ++ rest) = Err (EDeserialize MInvalidRevision).
Proof. intros b rest H. apply (C53_newer_type old new 2 0 1 user1 user3 u_new b rest later_old_new wf_new eq_refl eq_refl); [reflexivity|exact H]. Qed.
Print Assumptions C53_rollback.
Print Assumptions C53_newer_type.
