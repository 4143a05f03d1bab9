(** Which declarations compile: the rules of Legal.v, exactly (C50). *)

From Verif Require Import Base BaseL Prog Prim Ty Typed Ex Macro MacroSpec MacroL Legal LegalL PropMacro.
From Coq Require Import List NArith ZArith Bool Lia.
Import ListNotations.
Open Scope N_scope.

(** The macro accepts a declaration if and only if it is [legal]. *)
Theorem C50_accepted_iff : forall i, writable i -> ((exists s x, expand i = Done (s, x)) <-> legal i).
Proof.
  intros i Hw. rewrite <- (expand_iff i Hw). split.
  - intros (s & x & H). exists (s, x). exact H.
  - intros ([s x] & H). exists s, x. exact H.
Qed.
Print Assumptions C50_accepted_iff.

(** The macro always answers: a declaration is accepted or there is a compile error. *)
Theorem C50_accepted_or_rejected : forall i, writable i -> (legal i /\ ~ rejected i) \/ (rejected i /\ ~ legal i).
Proof.
  intros i Hw. pose proof (C50_accepted_iff i Hw) as H. destruct (expand i) as [[s x]|e] eqn:E.
  - left. split; [apply H; exists s, x; reflexivity|]. intros (e & Hr). rewrite E in Hr. discriminate.
  - right. split; [exists e; exact E|]. intros Hl. apply H in Hl. destruct Hl as (s & x & Hl). discriminate.
Qed.
Print Assumptions C50_accepted_or_rejected.

(** The order in which the options of a field are written does not matter. *)
Theorem C50_option_order : forall i i' p, reordered i i' -> writable i -> expand i = Done p -> expand i' = Done p.
Proof. exact expand_reordered. Qed.
Print Assumptions C50_option_order.

(** Examples: a legal declaration, and one that breaks each kind of rule. *)
Example shape_legal : writable shape /\ legal shape.
Proof.
  assert (W : writable shape).
  { intros fs m (v & Hv & ->) Hm. repeat destruct Hv as [<-|Hv]; try destruct Hv; cbn in Hm; repeat destruct Hm as [<-|Hm]; try destruct Hm;
      intros H; repeat destruct H as [H|H]; try discriminate; destruct H. }
  split; [exact W|]. apply C50_accepted_iff; [exact W|]. do 2 eexists. reflexivity.
Qed.
Definition one (t : ty) (o : list fopt) : mkind := KStruct [mkMfield t (Ok VUnit) o].
Example illegal_fixed : ~ legal (mkItem [IRevision 1] [] (one TStr [FFixed])) /\ legal (mkItem [IRevision 1] [] (one (TInt U32) [FFixed]))
  /\ legal (mkItem [IEntry 1 [EOptimised]] [] (one TStr [FFixed])).
Proof.
  assert (W : forall t l, writable (mkItem l [] (one t [FFixed]))).
  { intros t l fs m E Hm. unfold fields_of in E. cbn in E. subst fs. destruct Hm as [<-|[]]. intros [H|[]]; discriminate. }
  split; [|split].
  - destruct (C50_accepted_or_rejected _ (W TStr [IRevision 1])) as [[_ H]|[_ H]]; [|exact H]. intros _. apply H. eexists. reflexivity.
  - apply C50_accepted_iff; [apply W|]. do 2 eexists. reflexivity.
  - apply C50_accepted_iff; [apply W|]. do 2 eexists. reflexivity.
Qed.
Example reordered_shape : exists i', reordered shape i' /\ i' <> shape.
Proof.
  exists (mkItem (mi_args shape) (mi_attrs shape)
    (KEnum [ mkMvariant 0 [VSize SInline; VOverride [ORevision 2; ODiscriminant 4]] [];
             mkMvariant 1 [VSize SVarlen]
               [mkMfield (TInt U32) (Ok (VInt 0)) []; mkMfield TStr (Ok (VBytes [])) [FDefault (fun _ => Ok (VBytes [1])); FStart 2];
                mkMfield TBool (Ok (VBool false)) [FEnd 2; FConvert (fun l _ _ => Ok l)]];
             mkMvariant 2 [VEnd 2; VConvert (fun _ _ => Ok (VVar 0 []))] [] ])).
  split; [|discriminate]. split; [reflexivity|]. split; [reflexivity|]. cbn.
  repeat (constructor; try (repeat split; cbn; repeat constructor)).
Qed.
