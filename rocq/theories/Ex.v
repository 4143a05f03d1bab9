(** A concrete program in two versions, used to show that the hypotheses of the theorems are met.
    Also a checker for [wf_schema]. *)

From Verif Require Import Base BaseL Prog ProgL Prim PrimL Utf8 Utf8L Tag Ty Ser De Typed Mig SortL DiscL Agree Total.
From Coq Require Import List NArith ZArith Bool Lia ZifyBool Sorted Permutation.
Import ListNotations.

Open Scope N_scope.

Fixpoint nodupb (l : list N) : bool :=
  match l with [] => true | x :: l' => negb (existsb (N.eqb x) l') && nodupb l' end.
Lemma nodupb_ok : forall l, nodupb l = true -> NoDup l.
Proof.
  induction l as [|x l IH]; intros H; cbn in H; [constructor|].
  apply andb_prop in H. destruct H as [H1 H2]. constructor; [|auto].
  rewrite <- existsb_eqb. destruct (existsb (N.eqb x) l); [discriminate|congruence].
Qed.
Definition rev_okb (cur : N) (vs : list variant) (r : N) (h : hent) : bool :=
  match calc_disc r vs with
  | None => false
  | Some ds => forallb (fun p => snd p <? 2 ^ 32) ds && (negb (h_opt h) || forallb (opt_variant_ok cur r) ds)
  end.
Fixpoint revs_okb (cur : N) (vs : list variant) (r : N) (hs : list hent) : bool :=
  match hs with [] => true | h :: hs' => rev_okb cur vs r h && revs_okb cur vs (r + 1) hs' end.
Definition wf_schemab (s : schema) : bool :=
  (0 <? scur s) && (scur s <? 2 ^ 16) &&
  match s_body s with
  | SStruct fs => forallb field_ok fs
  | SEnum vs => nodupb (map v_name vs) && forallb (fun v => forallb field_ok (v_fields v)) vs && revs_okb (scur s) vs 1 (s_hist s)
  end.
Lemma rev_okb_ok : forall cur vs r h, rev_okb cur vs r h = true -> rev_ok cur vs r h.
Proof.
  intros cur vs r h H. unfold rev_okb, rev_ok in *. destruct (calc_disc r vs) as [ds|]; [|discriminate].
  apply andb_prop in H. destruct H as [H1 H2]. exists ds. split; [reflexivity|]. split.
  - rewrite forallb_forall in H1. apply Forall_forall. intros p Hp. apply N.ltb_lt, H1, Hp.
  - intros Ho. rewrite Ho in H2. exact H2.
Qed.
Lemma revs_okb_ok : forall cur vs hs r, revs_okb cur vs r hs = true ->
  forall i h, nth_error hs i = Some h -> rev_ok cur vs (r + N.of_nat i) h.
Proof.
  induction hs as [|h hs IH]; intros r H i h' Hn; [destruct i; discriminate|].
  cbn in H. apply andb_prop in H. destruct H as [H1 H2]. destruct i as [|i].
  - cbn in Hn. inversion Hn; subst h'. rewrite N.add_0_r. apply rev_okb_ok, H1.
  - cbn in Hn. replace (r + N.of_nat (S i)) with (r + 1 + N.of_nat i) by lia. eapply IH; eassumption.
Qed.
Lemma wf_schemab_ok : forall s, wf_schemab s = true -> wf_schema s.
Proof.
  intros s H. unfold wf_schemab, wf_schema in *. apply andb_prop in H. destruct H as [H Hb].
  apply andb_prop in H. destruct H as [H1 H2]. apply N.ltb_lt in H1, H2. split; [exact H1|]. split; [exact H2|].
  destruct (s_body s) as [fs|vs]; [exact Hb|].
  apply andb_prop in Hb. destruct Hb as [Hb Hr]. apply andb_prop in Hb. destruct Hb as [Hn Hf].
  split; [apply nodupb_ok, Hn|]. split; [apply Forall_forall, forallb_forall, Hf|].
  intros r h Hs. unfold sent in Hs. destruct (r =? 0) eqn:E0; [discriminate|]. apply N.eqb_neq in E0.
  replace r with (1 + N.of_nat (N.to_nat (r - 1))) by lia. eapply revs_okb_ok; eassumption.
Qed.

(** A checker for [wt]. *)
Fixpoint sortedb {A} (r : A -> A -> bool) (l : list A) : bool :=
  match l with [] => true | x :: l' => forallb (r x) l' && sortedb r l' end.
Lemma sortedb_ok : forall A (r : A -> A -> bool) (R : A -> A -> Prop) l,
  (forall x y, r x y = true -> R x y) -> sortedb r l = true -> StronglySorted R l.
Proof.
  intros A r R l H. induction l as [|x l IH]; intros Hs; constructor; cbn in Hs; apply andb_prop in Hs; destruct Hs as [H1 H2].
  - auto.
  - rewrite forallb_forall in H1. apply Forall_forall. auto.
Qed.
Definition is_lt (c : comparison) : bool := match c with Lt => true | _ => false end.
Definition not_gt (c : comparison) : bool := match c with Gt => false | _ => true end.
Section Wtb.
Variable E : env.
Definition fitsb (n : N) : bool := n <? 2 ^ e_ub E.
Definition vec_fitsb (t : ty) (n : N) : bool :=
  match bulk_of t with
  | Some (BFix _ w) => fitsb (n * N.of_nat w)
  | Some (BRaw _) => fitsb (n * 16)
  | _ => true
  end.
Definition inSb (b : N) (z : Z) : bool := ((- 2 ^ (Z.of_N b - 1) <=? z) && (z <? 2 ^ (Z.of_N b - 1)))%Z.
Definition inUb (b : N) (z : Z) : bool := ((0 <=? z) && (z <? 2 ^ Z.of_N b))%Z.
Definition in_ityb (i : ity) (z : Z) : bool :=
  if ity_signed i then inSb (ity_bits (e_ub E) i) z else inUb (ity_bits (e_ub E) i) z.
Variable veq : val -> val -> bool.
Variable beq : bytes -> bytes -> bool.
Hypothesis veq_ok : forall a b, veq a b = true -> a = b.
Hypothesis beq_ok : forall a b, beq a b = true -> a = b.
Section Rec.
Variable rec : N -> val -> bool.
Fixpoint wtb_ty (t : ty) (v : val) {struct t} : bool :=
  match t, v with
  | TBool, VBool _ => true
  | TInt i, VInt z => in_ityb i z
  | TF32, VInt z => inUb 32 z
  | TF64, VInt z => inUb 64 z
  | TChar, VInt z => (0 <=? z)%Z && ((Z.to_N z <? 55296) || ((57343 <? Z.to_N z) && (Z.to_N z <? 1114112)))
  | TStr, VBytes b => wfbb b && utf8_ok b && fitsb (len b)
  | TPath, VBytes b | TBytes, VBytes b => wfbb b && fitsb (len b)
  | TUuid, VBytes b => wfbb b && (len b =? 16)
  | TDecimal, VBytes b => wfbb b && (len b =? 16) && beq (e_dec E b) b
  | TUnit, VUnit => true
  | TPair a b, VPair x y => wtb_ty a x && wtb_ty b y
  | TVec t', VSeq l => fitsb (len l) && vec_fitsb t' (len l) && forallb (wtb_ty t') l
  | TImVec t', VSeq l => fitsb (len l) && forallb (wtb_ty t') l
  | TArray n t', VSeq l => Nat.eqb (length l) n && forallb (wtb_ty t') l
  | TOption t', VVar k l => match k, l with 0, [] => true | 1, [x] => wtb_ty t' x | _, _ => false end
  | TResult a b, VVar k l => match k, l with 0, [x] => wtb_ty a x | 1, [x] => wtb_ty b x | _, _ => false end
  | TBound t', VVar k l =>
      match k, l with 0, [] => true | 1, [x] => wtb_ty t' x | 2, [x] => wtb_ty t' x | _, _ => false end
  | TMap _ a b, VSeq l =>
      fitsb (len l)
      && forallb (fun p => match p with VPair x y => wtb_ty a x && wtb_ty b y | _ => false end) l
      && sortedb (fun p q => is_lt (e_cmp E a (pkey p) (pkey q))) l
  | TSet _ t', VSeq l => fitsb (len l) && forallb (wtb_ty t') l && sortedb (fun x y => is_lt (e_cmp E t' x y)) l
  | THeap t', VSeq l => fitsb (len l) && forallb (wtb_ty t') l && sortedb (fun x y => not_gt (vcmp x y)) l
  | TWrap t', _ => wtb_ty t' v
  | TDuration, VPair (VInt s) (VInt n) => inUb 64 s && (0 <=? n)%Z && (n <? 1000000000)%Z
  | TSystemTime, VPair (VInt s) (VInt n) => (s <=? e_time E)%Z && (0 <=? n)%Z && (n <? 1000000000)%Z
  | TExt c _ t', _ => wtb_ty t' v && match e_ext E c v with Some w => veq w v | None => false end
  | TRef n, _ => rec n v
  | _, _ => false
  end.
Fixpoint wtb_list (fs : list field) (vs : list val) : bool :=
  match fs, vs with
  | [], [] => true
  | f :: fs', v :: vs' => wtb_ty (f_ty f) v && wtb_list fs' vs'
  | _, _ => false
  end.
Definition wtb_fields (r : N) (fs : list field) (vs : list val) : bool := wtb_list (filter (falive r) fs) vs.
Definition wtb_derived (s : schema) (v : val) : bool :=
  match s_body s, v with
  | SStruct fs, VSeq l => wtb_fields (scur s) fs l
  | SEnum vs, VVar k l =>
      existsb (fun vr => (v_name vr =? k) && valive (scur s) vr && wtb_fields (scur s) (v_fields vr) l) vs
  | _, _ => false
  end.
Variable R : N -> val -> Prop.
Hypothesis HR : forall n v, rec n v = true -> R n v.

Lemma wfbb_ok : forall b, wfbb b = true -> wfb b.
Proof. intros b H. unfold wfbb in H. rewrite forallb_forall in H. apply Forall_forall. intros x Hx. apply N.ltb_lt, H, Hx. Qed.
Lemma fitsb_ok : forall n, fitsb n = true -> fits E n.
Proof. intros n H. apply N.ltb_lt in H. exact H. Qed.
Lemma vec_fitsb_ok : forall t n, vec_fitsb t n = true -> vec_fits E t n.
Proof. intros t n. unfold vec_fitsb, vec_fits. destruct (bulk_of t) as [[]|]; auto using fitsb_ok. Qed.
Lemma inUb_ok : forall b z, inUb b z = true -> inU b z.
Proof. intros b z H. unfold inUb, inU in *. lia. Qed.
Lemma inSb_ok : forall b z, inSb b z = true -> inS b z.
Proof. intros b z H. unfold inSb, inS in *. lia. Qed.
Lemma in_ityb_ok : forall i z, in_ityb i z = true -> in_ity (e_ub E) i z.
Proof. intros i z. unfold in_ityb, in_ity. destruct (ity_signed i); auto using inUb_ok, inSb_ok. Qed.
Lemma is_lt_ok : forall c, is_lt c = true -> c = Lt.
Proof. intros []; cbn; congruence. Qed.
Lemma forallb_Forall : forall A (p : A -> bool) (Q : A -> Prop) l, (forall x, p x = true -> Q x) -> forallb p l = true -> Forall Q l.
Proof. intros A p Q l H Hl. rewrite forallb_forall in Hl. apply Forall_forall. auto. Qed.

Ltac ands := repeat match goal with H : _ && _ = true |- _ => apply andb_prop in H; destruct H end.
Lemma wtb_ty_ok : forall t v, wtb_ty t v = true -> wt_ty E R t v.
Proof.
  induction t; intros v H; destruct v; cbn [wtb_ty] in H; try discriminate; cbn [wt_ty]; ands; try (solve [auto using inUb_ok, inSb_ok, in_ityb_ok]);
    try (repeat split; auto using wfbb_ok, fitsb_ok, vec_fitsb_ok, inUb_ok, inSb_ok, in_ityb_ok; fail);
    try (repeat split; auto using wfbb_ok, fitsb_ok, vec_fitsb_ok; try (apply N.eqb_eq; assumption); try (apply beq_ok; assumption);
         try (eapply forallb_Forall; [|eassumption]; auto); fail).
  - unfold scalar. lia.
  - split; [apply Nat.eqb_eq; assumption|]. eapply forallb_Forall; [|eassumption]. auto.
  - destruct k as [|[p|p|]]; try discriminate; destruct l as [|x [|y l]]; try discriminate; auto.
  - destruct k as [|[p|p|]]; try discriminate; destruct l as [|x [|y l]]; try discriminate; auto.
  - destruct k as [|[p|[p|p|]|]]; try discriminate; destruct l as [|x [|y l]]; try discriminate; auto.
  - split; [apply fitsb_ok; assumption|]. split.
    + eapply forallb_Forall; [|eassumption]. intros p Hp. destruct p; try discriminate. ands. auto.
    + eapply sortedb_ok; [|eassumption]. intros x y Hxy. apply is_lt_ok, Hxy.
  - split; [apply fitsb_ok; assumption|]. split.
    + eapply forallb_Forall; [|eassumption]. auto.
    + eapply sortedb_ok; [|eassumption]. intros x y Hxy. apply is_lt_ok, Hxy.
  - split; [apply fitsb_ok; assumption|]. split.
    + eapply forallb_Forall; [|eassumption]. auto.
    + eapply sortedb_ok; [|eassumption]. intros x y Hxy. intros Hg; cbn beta in Hxy; rewrite Hg in Hxy; discriminate Hxy.
  - destruct v1; try discriminate. destruct v2; try discriminate. ands. split; [apply inUb_ok; assumption|lia].
  - destruct v1; try discriminate. destruct v2; try discriminate. ands. lia.
  - split; [auto|]. destruct (e_ext E c (VBool b)) eqn:Ee; [|discriminate]. f_equal. auto.
  - split; [auto|]. destruct (e_ext E c (VInt z)) eqn:Ee; [|discriminate]. f_equal. auto.
  - split; [auto|]. destruct (e_ext E c (VBytes b)) eqn:Ee; [|discriminate]. f_equal. auto.
  - split; [auto|]. destruct (e_ext E c VUnit) eqn:Ee; [|discriminate]. f_equal. auto.
  - split; [auto|]. destruct (e_ext E c (VPair v1 v2)) eqn:Ee; [|discriminate]. f_equal. auto.
  - split; [auto|]. destruct (e_ext E c (VSeq l)) eqn:Ee; [|discriminate]. f_equal. auto.
  - split; [auto|]. destruct (e_ext E c (VVar k l)) eqn:Ee; [|discriminate]. f_equal. auto.
Qed.
Lemma wtb_fields_ok : forall r fs vs, wtb_fields r fs vs = true -> wt_fields E R r fs vs.
Proof.
  intros r fs. unfold wtb_fields, wt_fields. induction (filter (falive r) fs) as [|f l IH]; intros [|v vs] H; try discriminate; [constructor|].
  cbn [wtb_list] in H. ands. constructor; [apply wtb_ty_ok; assumption|auto].
Qed.
Lemma wtb_derived_ok : forall s v, wtb_derived s v = true -> wt_derived E R s v.
Proof.
  intros s v. unfold wtb_derived, wt_derived. destruct (s_body s); destruct v; try discriminate.
  - apply wtb_fields_ok.
  - intros H. apply existsb_exists in H. destruct H as (vr & Hin & H). ands. exists vr.
    repeat split; [assumption|apply N.eqb_eq; assumption|assumption|apply wtb_fields_ok; assumption].
Qed.
End Rec.
Fixpoint wtb_ref (d : nat) (n : N) (v : val) : bool :=
  match d with O => false | S d => match e_sch E n with Some s => wtb_derived (wtb_ref d) s v | None => false end end.
Lemma wtb_ref_ok : forall d n v, wtb_ref d n v = true -> wt_ref E d n v.
Proof.
  induction d as [|d IH]; intros n v H; cbn in *; [discriminate|]. destruct (e_sch E n); [|discriminate].
  eapply wtb_derived_ok; [|exact H]. exact IH.
Qed.
End Wtb.
Definition ceq (c : comparison) : bool := match c with Eq => true | _ => false end.
Definition wtb (E : env) (d : nat) (t : ty) (v : val) : bool :=
  wtb_ty E (fun a b => ceq (vcmp a b)) (fun a b => ceq (bcmp a b))
    (wtb_ref E (fun a b => ceq (vcmp a b)) (fun a b => ceq (bcmp a b)) d) t v.
Lemma wtb_ok : forall E d t v, wtb E d t v = true -> wt E d t v.
Proof.
  intros E d t v H. unfold wtb, wt in *.
  assert (V : forall a b, ceq (vcmp a b) = true -> a = b).
  { intros a b Hc. apply vcmp_is_eq. destruct (vcmp a b); [reflexivity|discriminate|discriminate]. }
  assert (B : forall a b, ceq (bcmp a b) = true -> a = b).
  { intros a b Hc. apply bcmp_eq. destruct (bcmp a b); [reflexivity|discriminate|discriminate]. }
  eapply wtb_ty_ok; [exact V|exact B| |exact H]. apply wtb_ref_ok; assumption.
Qed.

(** ** The example program *)

Definition dflt (v : val) (_ : N) : res val := Ok v.
Definition keep (this : list val) (_ : N) (_ : val) : res (list val) := Ok this.
Definition fld (t : ty) (s : N) (e : option N) : field := mkField t s e (dflt VUnit) keep false false INone.
Definition idxd (i : fidx) (f : field) : field :=
  mkField (f_ty f) (f_start f) (f_end f) (f_default f) (f_convert f) (f_fixed f) (f_spec f) i.
Definition fixedf (f : field) : field :=
  mkField (f_ty f) (f_start f) (f_end f) (f_default f) (f_convert f) true (f_spec f) (f_idx f).
Definition with_default (v : val) (f : field) : field :=
  mkField (f_ty f) (f_start f) (f_end f) (dflt v) (f_convert f) (f_fixed f) (f_spec f) (f_idx f).
Definition with_convert c (f : field) : field :=
  mkField (f_ty f) (f_start f) (f_end f) (f_default f) c (f_fixed f) (f_spec f) (f_idx f).

(** Type 1, [User]. Version 1: { name: String, #[revision(fixed)] age: u32, tags: Vec<u16> }.
    Version 3: age removed in 3 (its convert_fn stores age+revision into birth), scores added in
    2, birth and boss in 3; revision 3 is optimised and indexed. *)
Definition user1 : schema := mkSchema [mkHent false false]
  (SStruct [fld TStr 1 None; fixedf (fld (TInt U32) 1 None); fld (TVec (TInt U16)) 1 None]).
Definition age_to_birth (this : list val) (r : N) (v : val) : res (list val) :=
  match this, v with
  | [n; t; s; b; o], VInt z => Ok [n; t; s; VInt (z + Z.of_N r); o]
  | _, _ => Err (EConversion (MUser 0))
  end.
Definition user3 : schema := mkSchema [mkHent false false; mkHent false false; mkHent true true]
  (SStruct [fld TStr 1 None;
            with_convert age_to_birth (fixedf (fld (TInt U32) 1 (Some 3)));
            fld (TVec (TInt U16)) 1 None;
            with_default (VSeq []) (idxd IMap (fld (TMap KHash TStr (TInt U64)) 2 None));
            with_default (VInt 7) (fld (TInt I64) 3 None);
            with_default (VVar 0 []) (fld (TOption (TWrap (TRef 1))) 3 None)]).

(** Type 2, [Shape].  Version 1: Circle(f64) | Old.  Version 2: Circle | Square { u32, u32 }, Old
    removed (its convert_fn gives Circle); revision 2 is optimised. *)
Definition var (k s : N) (e : option N) (sz : option vsize) (fs : list field) : variant :=
  mkVariant k s e (fun _ => None) sz fs (fun _ _ => Ok (VVar 0 [VInt 0])).
Definition shape1 : schema := mkSchema [mkHent false false]
  (SEnum [var 0 1 None None [fld TF64 1 None]; var 1 1 None None []]).
Definition shape2 : schema := mkSchema [mkHent false false; mkHent true false]
  (SEnum [var 0 1 None (Some (SFixed 8)) [fld TF64 1 None]; var 1 1 (Some 2) None [];
          var 2 2 None (Some SVarlen) [fld (TInt U32) 1 None; fld (TInt U32) 1 None];
          var 3 2 None (Some SInline) []]).

Definition ex_env (sch : N -> option schema) : env := mkEnv false true true 64 None
  (fun _ => 8) (fun _ => vcmp) (fun _ l => rev l) (fun b => b)
  (fun c v => match v with VInt 0 => if c =? 0 then None else Some v | _ => Some v end)
  (2 ^ 62)%Z sch.
Definition sch1 (n : N) : option schema := if n =? 1 then Some user1 else if n =? 2 then Some shape1 else None.
Definition sch3 (n : N) : option schema := if n =? 1 then Some user3 else if n =? 2 then Some shape2 else None.
Definition old := ex_env sch1.
Definition new := ex_env sch3.

Lemma wf_ex : forall sch, (forall n s, sch n = Some s -> wf_schema s) -> wf_env (ex_env sch).
Proof.
  intros sch H. constructor; cbn [ex_env e_ub e_cmp e_iter e_dec e_ext e_time e_sch].
  - auto.
  - intros; apply vcmp_lawful.
  - intros; apply Permutation_sym, Permutation_rev.
  - auto.
  - intros c v w. destruct v as [| [| |]| | | | |]; intros Hv; try (inversion Hv; subst; reflexivity).
    destruct (c =? 0) eqn:E; [discriminate|]. inversion Hv; subst. cbn. rewrite ?E. reflexivity.
  - lia.
  - exact H.
Qed.
Example wf_old : wf_env old.
Proof.
  apply wf_ex. intros n s. unfold sch1. destruct (n =? 1); [|destruct (n =? 2)]; intros H; inversion H; subst;
  apply wf_schemab_ok; vm_compute; reflexivity.
Qed.
Example wf_new : wf_env new.
Proof.
  apply wf_ex. intros n s. unfold sch3. destruct (n =? 1); [|destruct (n =? 2)]; intros H; inversion H; subst;
  apply wf_schemab_ok; vm_compute; reflexivity.
Qed.
Example honest_old : sizes_honest old.
Proof. left. reflexivity. Qed.
Example honest_new : sizes_honest new.
Proof. left. reflexivity. Qed.
Example old_new : compatible old new.
Proof.
  repeat split; try reflexivity. intros n s. cbn [old ex_env e_sch new]. unfold sch1, sch3.
  destruct (n =? 1) eqn:E1; [|destruct (n =? 2) eqn:E2]; intros H; inversion H; subst; eexists; (split; [reflexivity|]).
  - split; [vm_compute; discriminate|]. eexists. repeat split; try (vm_compute; reflexivity). discriminate.
  - split; [vm_compute; discriminate|]. eexists. repeat split; try (vm_compute; reflexivity).
    + unfold same_wire. cbn [s_body shape1 shape2]. do 2 eexists. repeat split; vm_compute; reflexivity.
    + discriminate.
Qed.

Definition a_str (l : list N) : val := VBytes l.
Definition u_old : val := VSeq [a_str [97; 195; 169]; VInt 41; VSeq [VInt 3; VInt 65535]].
Definition score (i : N) : val := VPair (a_str [48 + i]) (VInt (Z.of_N (i * i))).
Definition u_new : val :=
  VSeq [a_str [98]; VSeq []; VSeq (map score [0;1;2;3;4;5;6;7;8]); VInt (-5);
        VVar 1 [VSeq [a_str []; VSeq [VInt 9]; VSeq []; VInt 12345678901; VVar 0 []]]].

Example wt_old : wt old 1 (TRef 1) u_old.
Proof. apply wtb_ok. vm_compute. reflexivity. Qed.
Example wt_new : wt new 2 (TRef 1) u_new.
Proof. apply wtb_ok. vm_compute. reflexivity. Qed.
Example enc_old : to_vec old 1 (TRef 1) u_old = Ok [1; 3; 97; 195; 169; 41; 0; 0; 0; 2; 3; 0; 255; 255].
Proof. reflexivity. Qed.
Example enc_new_len : rmap (@len N) (to_vec new 2 (TRef 1) u_new) = Ok 180.
Proof. vm_compute. reflexivity. Qed.
(** What the new program makes of the old program's value. *)
Example mig_old : migrate old new 1 (TRef 1) u_old =
  Ok (VSeq [a_str [97; 195; 169]; VSeq [VInt 3; VInt 65535]; VSeq []; VInt 42; VVar 0 []]).
Proof. reflexivity. Qed.
Example mig_old_dec : from_slice new 1 (TRef 1) [1; 3; 97; 195; 169; 41; 0; 0; 0; 2; 3; 0; 255; 255] = migrate old new 1 (TRef 1) u_old.
Proof. reflexivity. Qed.
Definition s_old : val := VVar 1 [].
Example wt_s_old : wt old 1 (TRef 2) s_old.
Proof. apply wtb_ok. vm_compute. reflexivity. Qed.
Example mig_s_old : migrate old new 1 (TRef 2) s_old = Ok (VVar 0 [VInt 0]).
Proof. reflexivity. Qed.
