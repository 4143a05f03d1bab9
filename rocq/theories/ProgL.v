(** Lemmas about Prog: the interpreters [run], [run_sched] and [write_ops].  Proof part. *)

From Verif Require Import Base BaseL Prog.
From Coq Require Import List NArith ZArith Bool Lia ZifyBool ZifyN ZifyNat.
Import ListNotations.
Open Scope N_scope.

Lemma run_bind : forall A B (p : prog A) (f : A -> prog B) bs,
  run (bind p f) bs = match run p bs with
                      | Ok (a, r) => run (f a) r
                      | Err e => Err e
                      | Panic x => Panic x
                      end.
Proof.
  induction p as [a|e|x|n e k IH]; intros f bs; cbn [bind run]; try reflexivity.
  destruct (split_at n bs) as [[x y]|]; [apply IH|reflexivity].
Qed.

Lemma run_ret : forall A (a : A) bs, run (Ret a) bs = Ok (a, bs).
Proof. reflexivity. Qed.

Definition rmap_err {A} (g : err -> err) (r : res A) : res A :=
  match r with Ok a => Ok a | Err e => Err (g e) | Panic x => Panic x end.

Lemma run_map_err : forall A g (p : prog A) bs, run (map_err g p) bs = rmap_err g (run p bs).
Proof.
  induction p as [a|e|x|n e k IH]; intros bs; cbn [map_err run]; try reflexivity.
  destruct (split_at n bs) as [[x y]|]; [apply IH|reflexivity].
Qed.

Lemma run_of_res : forall A (r : res A) bs, run (of_res r) bs = rmap (fun a => (a, bs)) r.
Proof. intros A [a|e|x] bs; reflexivity. Qed.

Lemma run_read_n_app : forall n x y, n = len x -> run (read_n n) (x ++ y) = Ok (x, y).
Proof.
  intros. unfold read_n. cbn [run]. rewrite (split_at_app_n _ n x y H). reflexivity.
Qed.
Lemma run_read_byte_cons : forall b y, run read_byte (b :: y) = Ok (b, y).
Proof.
  intros. unfold read_byte. cbn [run].
  change (b :: y) with ([b] ++ y). rewrite (split_at_app_n _ 1 [b] y); [reflexivity|reflexivity].
Qed.
Lemma run_read_byte_nil : run read_byte [] = Err EIo.
Proof. reflexivity. Qed.

Lemma run_read_n_ok : forall n bs x y, run (read_n n) bs = Ok (x, y) -> bs = x ++ y /\ len x = n.
Proof.
  intros n bs x y H. unfold read_n in H. cbn [run] in H.
  destruct (split_at n bs) as [[x' y']|] eqn:E; [|discriminate].
  inversion H; subst. apply split_at_some; assumption.
Qed.
Lemma run_read_byte_ok : forall bs b y, run read_byte bs = Ok (b, y) -> bs = b :: y.
Proof.
  intros [|c bs] b y H.
  - discriminate.
  - rewrite run_read_byte_cons in H. inversion H; subst; reflexivity.
Qed.

(** What a successful run leaves is a suffix, and only the prefix before it matters. *)
Lemma run_suffix : forall A (p : prog A) bs a r,
  run p bs = Ok (a, r) -> exists pre, bs = pre ++ r /\ forall x, run p (pre ++ x) = Ok (a, x).
Proof.
  induction p as [a0|e|q|n e k IH]; intros bs a r H; cbn [run] in H; try discriminate.
  - inversion H; subst. exists []. split; [reflexivity|]. reflexivity.
  - destruct (split_at n bs) as [[x y]|] eqn:E; [|discriminate].
    apply split_at_some in E. destruct E as [-> E].
    apply IH in H. destruct H as (pre & -> & Hp).
    exists (x ++ pre). split; [rewrite app_assoc; reflexivity|].
    intros z. cbn [run]. rewrite <- app_assoc, (split_at_app_n _ n x (pre ++ z)) by auto. apply Hp.
Qed.

Lemma run_app : forall A (p : prog A) bs a r x,
  run p bs = Ok (a, r) -> run p (bs ++ x) = Ok (a, r ++ x).
Proof.
  intros A p bs a r x H. apply run_suffix in H. destruct H as (pre & -> & H).
  rewrite <- app_assoc. apply H.
Qed.

Lemma run_len : forall A (p : prog A) bs a r, run p bs = Ok (a, r) -> len r <= len bs.
Proof. intros A p bs a r H. apply run_suffix in H. destruct H as (pre & -> & _). rewrite len_app. lia. Qed.

(** Cutting a successful input short makes the same program fail. *)
Lemma run_strict_prefix : forall A (p : prog A) pre a q s,
  run p pre = Ok (a, []) -> pre = q ++ s -> s <> [] -> exists e, run p q = Err e.
Proof.
  induction p as [a0|e|x|n e k IH]; intros pre a q s H -> Hs; cbn [run] in H; try discriminate.
  - inversion H. apply app_eq_nil in H2. destruct H2; contradiction.
  - destruct (split_at n (q ++ s)) as [[x y]|] eqn:E; [|discriminate]. cbn [run].
    destruct (split_at n q) as [[x' y']|] eqn:F; [|eauto].
    apply split_at_some in F. destruct F as [-> F].
    rewrite <- app_assoc, (split_at_app_n _ n x' (y' ++ s)) in E by auto.
    inversion E; subst. eapply IH; [exact H|reflexivity|assumption].
Qed.

(** If a program succeeds on a prefix then it does the same on the whole. *)
Lemma run_det_prefix : forall A (p : prog A) q s a r,
  run p (q ++ s) = Ok (a, r) -> (exists e, run p q = Err e) \/ exists r', run p q = Ok (a, r') /\ r = r' ++ s.
Proof.
  induction p as [a0|e|x|n e k IH]; intros q s a r H; cbn [run] in *; try discriminate.
  - inversion H; subst. right. eexists. split; reflexivity.
  - destruct (split_at n (q ++ s)) as [[x y]|] eqn:E; [|discriminate].
    destruct (split_at n q) as [[x' y']|] eqn:F; [|eauto].
    apply split_at_some in F. destruct F as [-> F].
    rewrite <- app_assoc, (split_at_app_n _ n x' (y' ++ s)) in E by auto.
    inversion E; subst. apply IH in H. exact H.
Qed.

Lemma run_panic_app : forall A (p : prog A) q x s, run p q = Panic x -> run p (q ++ s) = Panic x.
Proof.
  induction p as [a0|e|x0|n e k IH]; intros q x s H; cbn [run] in *; try discriminate; auto.
  destruct (split_at n q) as [[x' y']|] eqn:F; [|discriminate].
  apply split_at_some in F. destruct F as [-> F].
  rewrite <- app_assoc, (split_at_app_n _ n x' (y' ++ s)) by auto. apply IH. assumption.
Qed.

(** [rep] *)
Lemma run_rep_S : forall A n (p : prog A) bs,
  run (rep (S n) p) bs =
  match run p bs with
  | Ok (a, r) => match run (rep n p) r with
                 | Ok (l, r') => Ok (a :: l, r')
                 | Err e => Err e
                 | Panic x => Panic x
                 end
  | Err e => Err e
  | Panic x => Panic x
  end.
Proof.
  intros. cbn [rep]. rewrite run_bind. destruct (run p bs) as [[a r]|e|x]; try reflexivity.
  rewrite run_bind. destruct (run (rep n p) r) as [[l r']|e|x]; reflexivity.
Qed.

Lemma run_rep__S : forall A n (p : prog A) bs,
  run (rep_ (S n) p) bs =
  match run p bs with
  | Ok (a, r) => run (rep_ n p) r
  | Err e => Err e
  | Panic x => Panic x
  end.
Proof. intros. cbn [rep_]. rewrite run_bind. reflexivity. Qed.

Lemma run_rep_length : forall A n (p : prog A) bs l r, run (rep n p) bs = Ok (l, r) -> length l = n.
Proof.
  induction n; intros p bs l r H.
  - cbn in H. inversion H; reflexivity.
  - rewrite run_rep_S in H. destruct (run p bs) as [[a r1]|e|x]; try discriminate.
    destruct (run (rep n p) r1) as [[l' r']|e|x] eqn:E; try discriminate.
    inversion H; subst. cbn. f_equal. eapply IHn. exact E.
Qed.

(** Fragmenting readers: [read_exact] delivers what the stream holds, or an IO error. *)
Definition no_fail (sch : list ev) : Prop := Forall (fun e => e <> IoFail) sch.

Lemma read_exact_some : forall sch n bs acc x y s,
  read_exact sch n bs acc = Some (x, y, s) ->
  exists z, x = acc ++ z /\ split_at n bs = Some (z, y) /\ (exists u, sch = u ++ s).
Proof.
  induction sch as [|[|k|] sch IH]; intros n bs acc x y s H; destruct n as [|p]; cbn [read_exact] in H.
  - inversion H; subst. exists []. rewrite app_nil_r, split_at_0. repeat split; auto. exists []; reflexivity.
  - destruct (split_at (N.pos p) bs) as [[z w]|] eqn:E; [|discriminate].
    inversion H; subst. exists z. repeat split; auto. exists []; reflexivity.
  - inversion H; subst. exists []. rewrite app_nil_r, split_at_0. repeat split; auto. exists []; reflexivity.
  - apply IH in H. destruct H as (z & -> & Hz & u & ->). exists z. repeat split; auto.
    exists (Interrupted :: u). reflexivity.
  - inversion H; subst. exists []. rewrite app_nil_r, split_at_0. repeat split; auto. exists []; reflexivity.
  - cbv zeta in H. set (m := N.min (N.min (k + 1) (N.pos p)) (len bs)) in *.
    destruct m as [|m'] eqn:Em; [discriminate|]. rewrite <- Em in *.
    destruct (split_at m bs) as [[z w]|] eqn:E; [|discriminate].
    apply IH in H. destruct H as (z' & -> & Hz & u & ->).
    apply split_at_some in E. destruct E as [-> E].
    exists (z ++ z'). rewrite app_assoc. repeat split; auto.
    + apply split_at_some in Hz. destruct Hz as [-> Hz]. rewrite app_assoc.
      apply split_at_app_n. rewrite len_app. lia.
    + exists (Give k :: u). reflexivity.
  - inversion H; subst. exists []. rewrite app_nil_r, split_at_0. repeat split; auto. exists []; reflexivity.
  - discriminate.
Qed.

Lemma read_exact_total : forall sch n bs acc, no_fail sch -> n <= len bs ->
  exists r, read_exact sch n bs acc = Some r.
Proof.
  induction sch as [|[|k|] sch IH]; intros n bs acc Hf Hn; destruct n as [|p]; cbn [read_exact]; eauto.
  - destruct (split_at_le _ bs (N.pos p) Hn) as (x & y & -> & _). eauto.
  - inversion Hf; subst. apply IH; assumption.
  - cbv zeta. set (m := N.min (N.min (k + 1) (N.pos p)) (len bs)) in *.
    destruct m as [|m'] eqn:Em; [lia|]. rewrite <- Em in *.
    destruct (split_at_le _ bs m) as (x & y & -> & -> & Hx); [lia|].
    inversion Hf; subst. apply IH; [assumption|]. rewrite len_app in *. lia.
  - inversion Hf; subst. contradiction.
Qed.

Lemma no_fail_app : forall u s, no_fail (u ++ s) -> no_fail s.
Proof. intros u s H. apply Forall_app in H. apply H. Qed.

(** C05: fragmentation independence. *)
Lemma run_sched_run : forall A (p : prog A) sch bs, no_fail sch -> run_sched p sch bs = run p bs.
Proof.
  induction p as [a|e|x|n e k IH]; intros sch bs Hf; cbn [run_sched run]; try reflexivity.
  destruct (read_exact sch n bs []) as [[[x y] s]|] eqn:E.
  - apply read_exact_some in E. destruct E as (z & -> & Hz & u & ->). rewrite Hz. cbn [app].
    apply IH. eapply no_fail_app; eassumption.
  - destruct (split_at n bs) as [[x y]|] eqn:F; [|reflexivity].
    destruct (read_exact_total sch n bs [] Hf) as [r Hr]; [|congruence].
    apply split_at_some in F. destruct F as [-> F]. rewrite len_app. lia.
Qed.

(** With reader failures, a success is still the success of the plain run. *)
Lemma run_sched_ok : forall A (p : prog A) sch bs a r, run_sched p sch bs = Ok (a, r) -> run p bs = Ok (a, r).
Proof.
  induction p as [a0|e|x|n e k IH]; intros sch bs a r H; cbn [run_sched run] in *; try discriminate; auto.
  destruct (read_exact sch n bs []) as [[[x y] s]|] eqn:E; [|discriminate].
  apply read_exact_some in E. destruct E as (z & -> & Hz & u & ->). rewrite Hz. cbn [app] in H.
  eapply IH; eassumption.
Qed.

(** Writers. *)
Definition wops_all (l : list wop) : Prop := Forall (fun w => match w with WAll _ => True | WOnce _ => False end) l.

Lemma write_all_ok : forall sch b acc x s, write_all sch b acc = inl (x, s) -> x = acc ++ b.
Proof.
  induction sch as [|[|k| |] sch IH]; intros [|c b] acc x s H; cbn [write_all] in H;
    try discriminate; try (inversion H; subst; rewrite app_nil_r; reflexivity).
  - inversion H; reflexivity.
  - apply IH in H. exact H.
  - destruct (split_at (k + 1) (c :: b)) as [[u v]|] eqn:E.
    + apply IH in H. apply split_at_some in E. destruct E as [-> _]. subst. rewrite app_assoc. reflexivity.
    + inversion H; reflexivity.
Qed.
Lemma write_all_err : forall sch b acc x, write_all sch b acc = inr x -> exists u v, x = acc ++ u /\ b = u ++ v /\ v <> [].
Proof.
  induction sch as [|[|k| |] sch IH]; intros [|c b] acc x H; cbn [write_all] in H; try discriminate.
  - apply IH in H. exact H.
  - destruct (split_at (k + 1) (c :: b)) as [[u v]|] eqn:E; [|discriminate].
    apply IH in H. apply split_at_some in E. destruct E as [-> _].
    destruct H as (u' & v' & -> & -> & Hv). exists (u ++ u'), v'. rewrite !app_assoc. auto.
  - inversion H; subst. exists [], (c :: b). rewrite app_nil_r. repeat split. discriminate.
  - inversion H; subst. exists [], (c :: b). rewrite app_nil_r. repeat split. discriminate.
Qed.

Lemma write_ops_ok : forall l sch acc x, wops_all l -> write_ops l sch acc = inl x -> x = acc ++ out l.
Proof.
  induction l as [|[b|b] l IH]; intros sch acc x Hl H; cbn [write_ops] in H.
  - inversion H; subst. cbn. rewrite app_nil_r. reflexivity.
  - destruct (write_all sch b acc) as [[y s]|y] eqn:E; [|discriminate].
    apply write_all_ok in E. subst y. inversion Hl; subst. apply IH in H; [|assumption].
    subst. unfold out. cbn [flat_map wop_bytes]. rewrite app_assoc. reflexivity.
  - inversion Hl; contradiction.
Qed.

Lemma write_ops_err : forall l sch acc x, wops_all l -> write_ops l sch acc = inr x ->
  exists u v, x = acc ++ u /\ out l = u ++ v.
Proof.
  induction l as [|[b|b] l IH]; intros sch acc x Hl H; cbn [write_ops] in H.
  - discriminate.
  - inversion Hl; subst. unfold out; cbn [flat_map wop_bytes]; fold (out l).
    destruct (write_all sch b acc) as [[y s]|y] eqn:E.
    + apply write_all_ok in E. subst y. apply IH in H; [|assumption].
      destruct H as (u & v & -> & ->). exists (b ++ u), v. rewrite !app_assoc. auto.
    + inversion H; subst. apply write_all_err in E. destruct E as (u & v & -> & -> & _).
      exists u, (v ++ out l). rewrite !app_assoc. auto.
  - inversion Hl; contradiction.
Qed.

Lemma out_app : forall a b, out (a ++ b) = out a ++ out b.
Proof. intros. unfold out. apply flat_map_app. Qed.

(** [sbind] *)
Lemma sbind_ok : forall a b l, sbind a b = Ok l -> exists la lb, a = Ok la /\ b = Ok lb /\ l = la ++ lb.
Proof.
  intros [la|e|p] [lb|e'|p'] l H; cbn in H; try discriminate. inversion H; subst. eauto.
Qed.
