(** C68: sequence walkers and their items, call by call. *)

From Verif Require Import Base BaseL Prog ProgL Prim PrimL Tag Ty Ser De Typed SortL DiscL RtL RtSch Agree SliceReader Skip SkipIdx SkipL Yield Walk WalkSpec Ex PropSlice WalkL PropWalk Seqs WalkRef.
From Coq Require Import List NArith ZArith Bool Lia.
Import ListNotations.
Open Scope N_scope.

(** What the calls may show, over the items [l] still to come; [cur]: an item is held; [last]: how it ends, None if it
    stops at a call that failed.  [remaining()] counts them, [next_item()] gives a handle as long as there is one and
    changes nothing, a call on the handle shows the first of them and takes it away. *)
Definition script_of (o : sop) : option act :=
  match o with SDecode => Some Decode | SSkip => Some Skip | SBytes => Some Bytes | SWalk w => Some (Walk w) | _ => None end.
Section Spec.
Variable E : env.
Variable D : nat.
Variable opened : ty -> val -> view -> Prop.
Variable t : ty.
Fixpoint seq_shown (l : list val) (cur : bool) (ops : list sop) (rs : list (res obs)) (last : option (list val)) : Prop :=
  match ops, rs with
  | [], _ => rs = [] /\ last = Some l
  | _ :: _, [] => False
  | SRemaining :: ops', r :: rs' => r = Ok (OVal (VInt (Z.of_N (len l)))) /\ seq_shown l false ops' rs' last
  | SNext :: ops', r :: rs' =>
      match l with
      | [] => r = Ok OEnd /\ seq_shown l false ops' rs' last
      | _ => r = Ok ODone /\ seq_shown l true ops' rs' last
      end
  | o :: ops', r :: rs' =>
      match script_of o, cur, l with
      | Some x, true, v :: l' =>
          expect E D opened (PPos t v) x r /\ match r with Ok _ => seq_shown l' false ops' rs' last | _ => rs' = [] /\ last = None end
      | _, _, _ => r = Panic PType /\ rs' = [] /\ last = None
      end
  end.
(** What is done to a walker must be something the general theorems cover; a walker must not be dropped before its end. *)
Variable may : schema -> Prop.
Definition op_covered (o : sop) : Prop :=
  match o with SWalk w => covered E may (HPos t) (Walk w) | SDrop => False | _ => True end.
End Spec.

Section G.
Variable E : env.
Variable D : nat.
Variable opened : ty -> val -> view -> Prop.
Variable may : schema -> Prop.
Variable P : nat -> ty -> val -> bytes -> bytes -> Prop.
Variable M : N.
Hypothesis HM : M <= 2 ^ e_ub E.
Hypothesis SB : spec_built E.
Hypothesis HP : forall d t v bs rest, P d t v bs rest -> wfb bs -> len bs < M -> run (deserialize E d t) bs = Ok (v, rest).
Hypothesis HE : forall t d bs v rest o, P d t v bs rest -> wfb bs -> len bs < M -> opens E may t ->
  if refused E t then enter E D d t (mkSR bs o) = Err (EDeserialize MBulkVec) else open_at E D opened P M d t v bs rest o.

Lemma seq_run_ok : forall d t rest o ops l cur bs, items P d t bs l rest -> wfb bs -> len bs < M -> Forall (op_covered E t may) ops -> (cur = true -> l <> []) ->
  exists rs m last, ss_run E D d t ops (mkSS (mkSR bs o) (len l) cur) = (rs, m) /\ seq_shown E D opened t l cur ops rs last
    /\ (last = Some [] -> m = Some (mkSS (mkSR rest o) 0 false)).
Proof.
  intros d t rest o ops. induction ops as [|op ops IH]; intros l cur bs Hat Hb Hl Hc Hcur.
  - exists [], (Some (mkSS (mkSR bs o) (len l) cur)), (Some l). split; [reflexivity|]. split; [split; reflexivity|]. intros He. inversion He; subst. inversion Hat; subst.
    destruct cur; [destruct (Hcur eq_refl eq_refl)|reflexivity].
  - inversion Hc as [|? ? Hop Hc']; subst. cbn [ss_run].
    assert (Hlen : forall e (l' : list val), len (e :: l') =? 0 = false) by (intros; apply N.eqb_neq; unfold len; cbn [length]; lia).
    assert (Hitem : forall x, script_of op = Some x -> covered E may (HPos t) x ->
       ss_step E D d t op (mkSS (mkSR bs o) (len l) cur) = on_item (fun x => x) (act_on E D d (CPos t) x) (mkSS (mkSR bs o) (len l) cur) ->
       (forall r rs last, seq_shown E D opened t l cur (op :: ops) (r :: rs) last =
          match cur, l with
          | true, v :: l' => expect E D opened (PPos t v) x r /\ match r with Ok _ => seq_shown E D opened t l' false ops rs last | _ => rs = [] /\ last = None end
          | _, _ => r = Panic PType /\ rs = [] /\ last = None
          end) ->
       exists rs m last, match ss_step E D d t op (mkSS (mkSR bs o) (len l) cur) with (x, Some s') => let q := ss_run E D d t ops s' in (x :: fst q, snd q) | (x, None) => ([x], None) end = (rs, m)
         /\ seq_shown E D opened t l cur (op :: ops) rs last /\ (last = Some [] -> m = Some (mkSS (mkSR rest o) 0 false))).
    { intros x _ Hx Hst Hsp. rewrite Hst. unfold on_item. cbn [ss_item ss_reader ss_remaining]. destruct cur.
      - destruct l as [|v l]; [destruct (Hcur eq_refl eq_refl)|]. inversion Hat as [|? ? r1 ? ? Hv Hit]; subst.
        destruct (agree_all E D opened may P M HM SB HP HE x d bs r1 (CPos t) (HPos t) (PPos t v) o (r_pos E D P M d bs r1 t v Hv) Hb Hl Hx) as (r & Hex & Ha). rewrite Ha.
        assert (Hw : wfb r1 /\ len r1 < M) by (eapply (P_wf2 E D opened may P M HM HP HE); eassumption). destruct Hw as [Hb1 Hl1]. rewrite Hlen.
        replace (len (v :: l) - 1) with (len l) by (unfold len; cbn [length]; lia). destruct r as [y|e|p]; cbn [fin].
        + destruct (IH l false r1 Hit Hb1 Hl1 Hc' ltac:(discriminate)) as (rs & m & last & Hr & Hss & Hla). rewrite Hr. exists (Ok y :: rs), m, last. rewrite Hsp. auto.
        + exists [Err e], None, None. rewrite Hsp. repeat split; [exact Hex|discriminate].
        + exists [Panic p], None, None. rewrite Hsp. repeat split; [exact Hex|discriminate].
      - exists [Panic PType], None, None. rewrite Hsp. repeat split. discriminate. }
    destruct op; cbn [op_covered] in Hop; try contradiction Hop; try (eapply Hitem; [reflexivity|try exact I; exact Hop|reflexivity|destruct cur, l; reflexivity]).
    + cbn [ss_step ss_remaining ss_reader]. destruct (IH l false bs Hat Hb Hl Hc' ltac:(discriminate)) as (rs & m & last & Hr & Hss & Hla). rewrite Hr. cbn [fst snd]. do 3 eexists. split; [reflexivity|]. split; [split; [reflexivity|exact Hss]|exact Hla].
    + cbn [ss_step ss_remaining ss_reader]. destruct l as [|v l].
      * change (len [] =? 0) with true. cbv iota. destruct (IH [] false bs Hat Hb Hl Hc' ltac:(discriminate)) as (rs & m & last & Hr & Hss & Hla). rewrite Hr. cbn [fst snd]. do 3 eexists. split; [reflexivity|]. split; [split; [reflexivity|exact Hss]|exact Hla].
      * rewrite Hlen. destruct (IH (v :: l) true bs Hat Hb Hl Hc' ltac:(discriminate)) as (rs & m & last & Hr & Hss & Hla). rewrite Hr. cbn [fst snd]. do 3 eexists. split; [reflexivity|]. split; [split; [reflexivity|exact Hss]|exact Hla].
Qed.
End G.

(** Every sequence of calls on the walker of a sequence. *)
Theorem C68_sessions : forall E D d t t' v may op bs rest ops o, t = TVec t' /\ refused E t = false \/ t = TImVec t' \/ (exists k, t = TSet k t') \/ t = THeap t' ->
  walked_from E D d t v may op bs rest -> Forall (op_covered E t' may) ops ->
  exists l rs m last, op t v (PSeq t' l) /\ seq_session E D d t ops (mkSR bs o) = Ok (rs, m) /\ seq_shown E D op t' l false ops rs last
    /\ (last = Some [] -> m = Some (mkSS (mkSR rest o) 0 false)).
Proof.
  intros E D d t t' v may op bs rest ops o Ht H Hc. destruct (from_general _ _ _ _ _ _ _ _ _ H) as (P & M & (HM & SB & HP & HE & _) & Hv & Hb & Hl).
  assert (Hk : kind_of E t = HSeq t' /\ refused E t = false /\ opens E may t) by (destruct Ht as [[-> Hr]|[->|[[k ->]| ->]]]; repeat split; try reflexivity; exact Hr).
  destruct Hk as (Hk & Hrf & Hopn). pose proof (HE t d bs v rest o Hv Hb Hl Hopn) as He. rewrite Hrf in He.
  assert (Hop : forall c, op t v c -> exists l, c = PSeq t' l).
  { intros c Hop. inversion H; subst; destruct Ht as [[-> Hr]|[->|[[k ->]| ->]]]; cbn [opened opened_enc] in Hop; try (destruct Hop as (l & _ & ->); eauto); destruct k; destruct Hop as (l & _ & ->); eauto. }
  destruct He as [(d' & c & p & bs' & He & Hr & Ho & (hd & ->))|(x & _ & Ho)]; [|destruct (Hop _ Ho); discriminate].
  destruct (Hop _ Ho) as [l ->]. rewrite Hk in Hr. inversion Hr; subst. apply wfb_app in Hb. rewrite len_app in Hl.
  destruct (seq_run_ok E D op may P M HM SB HP HE d' t' rest o ops l false bs' ltac:(assumption) (proj2 Hb) ltac:(lia) Hc ltac:(discriminate)) as (rs & m & last & H1 & H2 & H3).
  exists l, rs, m, last. split; [exact Ho|]. split; [|auto]. unfold seq_session. rewrite He, H1. reflexivity.
Qed.

(** A walker into an item, dropped before its end: the documentation of [SeqItem::walk] says that the next call to
    [next_item] then yields the following item.  It yields what is left of the item. *)
Theorem C68_dropped_refuted : exists t v b, wt new 1 (TVec t) v /\ to_vec new 1 (TVec t) v = Ok b /\ v = VSeq [VVar 1 [VInt 0]; VVar 1 [VInt 7]]
  /\ seq_session new 9 1 (TVec t) [SNext; SDecode; SNext; SDecode; SNext] (mkSR b (len b))
     = Ok ([Ok ODone; Ok (OVal (VVar 1 [VInt 0])); Ok ODone; Ok (OVal (VVar 1 [VInt 7])); Ok OEnd], Some (mkSS (mkSR [] (len b)) 0 false))
  /\ seq_session new 9 1 (TVec t) [SNext; SDrop; SNext; SDecode; SNext] (mkSR b (len b))
     = Ok ([Ok ODone; Ok ODone; Ok ODone; Ok (OVal (VVar 0 [])); Ok OEnd], Some (mkSS (mkSR [1; 7] (len b)) 0 false)).
Proof.
  exists (TOption (TInt U8)), (VSeq [VVar 1 [VInt 0]; VVar 1 [VInt 7]]), [2; 1; 0; 1; 7].
  split; [apply wtb_ok; vm_compute; reflexivity|]. repeat split; vm_compute; reflexivity.
Qed.
(** The handle of an item can be given up without harm; [remaining] counts the items that were not consumed. *)
Example C68_case : exists b, wt new 1 (TVec TStr) (VSeq [a_str [97]; a_str [98; 99]; a_str []]) /\ to_vec new 1 (TVec TStr) (VSeq [a_str [97]; a_str [98; 99]; a_str []]) = Ok b
  /\ seq_session new 9 1 (TVec TStr) [SRemaining; SNext; SNext; SRemaining; SNext; SSkip; SRemaining; SNext; SBytes; SNext; SWalk Decode; SRemaining; SNext] (mkSR (b ++ [5]) 9)
     = Ok ([Ok (OVal (VInt 3)); Ok ODone; Ok ODone; Ok (OVal (VInt 3)); Ok ODone; Ok ODone; Ok (OVal (VInt 2)); Ok ODone; Ok (OBytes [98; 99]); Ok ODone; Ok (OVal (a_str [])); Ok (OVal (VInt 0)); Ok OEnd], Some (mkSS (mkSR [5] 9) 0 false)).
Proof.
  exists [3; 1; 97; 2; 98; 99; 0]. split; [apply wtb_ok; vm_compute; reflexivity|]. split; vm_compute; reflexivity.
Qed.
Example C68_covered : exists v b, walked_from new 9 1 (TVec TStr) v plain_now (opened_enc new) (b ++ [5]) [5] /\ v = VSeq [a_str [97]; a_str [98; 99]].
Proof.
  exists (VSeq [a_str [97]; a_str [98; 99]]), [2; 1; 97; 2; 98; 99]. split; [|reflexivity].
  apply from_encoded; [apply wf_new|intros n s f _ _ _; reflexivity|left; reflexivity|reflexivity|repeat constructor|reflexivity|apply wtb_ok; vm_compute; reflexivity|vm_compute; reflexivity].
Qed.

Print Assumptions C68_sessions.
Print Assumptions C68_dropped_refuted.
