(** Lemmas about the offset tables of indexed encodings.  Proof part. *)

From Verif Require Import Base BaseL Prog Ty Ser.
From Coq Require Import List NArith Arith Bool Lia.
Import ListNotations.
Open Scope N_scope.

(** Where each piece starts. *)
Fixpoint starts (o : N) (l : list bytes) : list N :=
  match l with [] => [] | b :: l' => o :: starts (o + len b) l' end.
Lemma starts_length : forall l o, length (starts o l) = length l.
Proof. induction l as [|b l IH]; intros o; cbn; auto. Qed.
Lemma starts_app : forall l m o, starts o (l ++ m) = starts o l ++ starts (o + len (concat l)) m.
Proof.
  induction l as [|b l IH]; intros m o; cbn [starts app concat]; [rewrite N.add_0_r; reflexivity|].
  rewrite IH, len_app, N.add_assoc. reflexivity.
Qed.
Lemma starts_nth : forall l i o x, nth_error (starts o l) i = Some x -> x = o + len (concat (firstn i l)).
Proof.
  induction l as [|b l IH]; intros [|i] o x H; cbn in H; try discriminate.
  - inversion H; subst. cbn. lia.
  - apply IH in H. cbn [firstn concat]. rewrite len_app. lia.
Qed.
Lemma offsets_spec : forall l o t e, Forall (fun b => len b < 2 ^ 32) l -> offsets o l = Some (t, e) ->
  t = starts o l /\ e = o + len (concat l) /\ (o < 2 ^ 32 -> e < 2 ^ 32).
Proof.
  induction l as [|b l IH]; intros o t e Hf H; cbn [offsets] in H.
  - inversion H; subst. cbn. repeat split; try lia; auto.
  - inversion Hf as [|x y Hb Hl]; subst. cbv zeta in H. rewrite N.mod_small in H by assumption.
    destruct (N.ltb_spec (o + len b) (2 ^ 32)) as [Hlt|]; [|discriminate].
    destruct (offsets (o + len b) l) as [[t' e']|] eqn:E; [|discriminate]. inversion H; subst.
    apply IH in E; [|assumption]. destruct E as (-> & He & Hlt'). cbn [starts concat]. rewrite len_app.
    split; [reflexivity|]. split; [rewrite He; apply eq_sym, N.add_assoc|]. intros _. apply Hlt', Hlt.
Qed.
Lemma starts_bound : forall l o n, In n (starts o l) -> n <= o + len (concat l).
Proof.
  induction l as [|b l IH]; intros o n H; cbn in H; [destruct H|]. cbn [concat]. rewrite len_app. destruct H as [->|H]; [lia|].
  apply IH in H. lia.
Qed.
Lemma pieces_small : forall (l : list bytes) M, len (concat l) < M -> Forall (fun b => len b < M) l.
Proof.
  induction l as [|b l IH]; intros M H; constructor; cbn [concat] in H; rewrite len_app in H; [lia|]. apply IH. lia.
Qed.
Lemma len_le32s : forall l, len (le32s l) = 4 * len l.
Proof.
  unfold le32s. induction l as [|n l IH]; [reflexivity|]. cbn [flat_map]. rewrite len_app, le_bytes_len, IH, len_cons. lia.
Qed.
Lemma le32s_app : forall l m, le32s (l ++ m) = le32s l ++ le32s m.
Proof. intros. unfold le32s. apply flat_map_app. Qed.
Lemma firstn_app_exact : forall A n (x y : list A), length x = n -> firstn n (x ++ y) = x.
Proof. intros A n x y <-. rewrite firstn_app, Nat.sub_diag, firstn_all, firstn_O, app_nil_r. reflexivity. Qed.
Lemma skipn_app_exact : forall A n (x y : list A), length x = n -> skipn n (x ++ y) = y.
Proof. intros A n x y <-. rewrite skipn_app, Nat.sub_diag, skipn_all. reflexivity. Qed.
Lemma len_table8 : forall l : list (N * N), len (flat_map (fun p => le_bytes 4 (fst p) ++ le_bytes 4 (snd p)) l) = 8 * len l.
Proof.
  induction l as [|p l IH]; [reflexivity|]. cbn [flat_map]. rewrite !len_app, !le_bytes_len, IH, len_cons. lia.
Qed.
