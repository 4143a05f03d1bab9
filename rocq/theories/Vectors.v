(** The data of the tests in /repo, run through the model: the bytes, lengths, values and errors those tests assert.
    These are checks of the model against the code, not proofs of properties. *)

From Verif Require Import Base Prog Prim Utf8 Tag Endian Ty Ser De Typed Ex Ext SliceReader Skip SkipIdx Walk Hand Calls Seqs IdxWalk PropExt.
From Coq Require Import List NArith ZArith Bool String Ascii.
Import ListNotations.
Open Scope N_scope.

Fixpoint txt (s : string) : bytes := match s with EmptyString => [] | String c s' => N_of_ascii c :: txt s' end.
Definition S (s : string) : val := VBytes (txt s).
Definition I (z : Z) : val := VInt z.
Notation len := Base.len.

(** The build with default features, and the one with fixed-width-encoding as well. *)
Definition build (fw : bool) (sch : N -> option schema) : env :=
  let E := ex_env sch in mkEnv fw (e_spec E) (e_dbg E) (e_ub E) (e_mem E) (e_esize E) (e_cmp E) (e_iter E) (e_dec E) (std_ext chrono04) (e_time E) (e_sch E).
Definition types (l : list schema) (n : N) : option schema := nth_error l (N.to_nat n - 1).
Definition std (l : list schema) : env := build false (types l).
Definition fwe (l : list schema) : env := build true (types l).
Definition leg : hent := mkHent false false.
Definition opt : hent := mkHent true false.
Definition ixd : hent := mkHent true true.

(** [to_vec] gives [n] bytes, and these are read back to the value. *)
Definition sized (E : env) (t : ty) (v : val) (n : N) : bool :=
  match to_vec E 9 t v with
  | Ok b => (len b =? n) && match run (deserialize E 9 t) b with Ok (w, []) => Ex.ceq (vcmp w v) | _ => false end
            && match skip_slice E 9 t b with Ok m => m =? n | _ => false end
            && match skip_check_slice E 9 t b with Ok m => m =? n | _ => false end
  | _ => false
  end.
Definition both (t : ty) (v : val) (n m : N) : bool := sized (std []) t v n && sized (fwe []) t v m.
Definition as_err {A} (r : res A) : option err := match r with Err e => Some e | _ => None end.
Definition deser_err {A} (r : res A) : bool := match r with Err (EDeserialize _) => true | _ => false end.
Ltac run_it := vm_compute; reflexivity.

(** ** primitives.rs:693-1100 *)
Example zigzag_round : map (zigzag 64) [0; 1; -1; - 2 ^ 63; 2 ^ 63 - 1]%Z = [0; 2; 1; 2 ^ 64 - 1; 2 ^ 64 - 2]
  /\ map (gazgiz 64) [0; 2; 1; 2 ^ 64 - 1; 2 ^ 64 - 2] = [0; 1; -1; - 2 ^ 63; 2 ^ 63 - 1]%Z.
Proof. split; run_it. Qed.
Example prim_sizes :
  both TBool (VBool true) 1 1 = true /\ both TBool (VBool false) 1 1 = true
  /\ both (TInt Isize) (I (- 2 ^ 63)) 9 8 = true /\ both (TInt Isize) (I (2 ^ 63 - 1)) 9 8 = true
  /\ both (TInt I8) (I (-128)) 1 1 = true /\ both (TInt I8) (I 127) 1 1 = true
  /\ both (TInt I16) (I (-32768)) 3 2 = true /\ both (TInt I16) (I 32767) 3 2 = true
  /\ both (TInt I32) (I (- 2 ^ 31)) 5 4 = true /\ both (TInt I32) (I (2 ^ 31 - 1)) 5 4 = true
  /\ both (TInt I64) (I (- 2 ^ 63)) 9 8 = true /\ both (TInt I64) (I (2 ^ 63 - 1)) 9 8 = true
  /\ both (TInt I128) (I (- 2 ^ 127)) 17 16 = true /\ both (TInt I128) (I (2 ^ 127 - 1)) 17 16 = true
  /\ both (TInt Usize) (I 0) 1 8 = true /\ both (TInt Usize) (I (2 ^ 64 - 1)) 9 8 = true
  /\ both (TInt U8) (I 0) 1 1 = true /\ both (TInt U8) (I 255) 1 1 = true
  /\ both (TInt U16) (I 0) 1 2 = true /\ both (TInt U16) (I 65535) 3 2 = true
  /\ both (TInt U32) (I 0) 1 4 = true /\ both (TInt U32) (I (2 ^ 32 - 1)) 5 4 = true
  /\ both (TInt U64) (I 0) 1 8 = true /\ both (TInt U64) (I (2 ^ 64 - 1)) 9 8 = true
  /\ both (TInt U128) (I 0) 1 16 = true /\ both (TInt U128) (I (2 ^ 128 - 1)) 17 16 = true
  /\ both TF32 (I 4286578687) 4 4 = true /\ both TF32 (I 2139095039) 4 4 = true
  /\ both TF64 (I 18442240474082181119) 8 8 = true /\ both TF64 (I 9218868437227405311) 8 8 = true.
Proof. repeat split; run_it. Qed.

(** ** Sizes asserted by the tests of the other files of src/implementations. *)
(** tuple.rs:91-170. *)
Definition f64_a : val := I 4877358812434604953.
Example tuples :
  both (TPair TStr TBool) (VPair (S "test") (VBool true)) 6 13 = true
  /\ both (TPair TStr (TPair TBool TF64)) (VPair (S "test") (VPair (VBool true) f64_a)) 14 21 = true
  /\ both (TPair TStr (TPair TBool (TPair TF64 (TOption TChar)))) (VPair (S "test") (VPair (VBool true) (VPair f64_a (VVar 1 [I 116])))) 16 23 = true
  /\ both (TPair TStr (TPair TBool (TPair TF64 (TPair (TOption TChar) (TVec (TInt U8)))))) 
       (VPair (S "test") (VPair (VBool true) (VPair f64_a (VPair (VVar 1 [I 116]) (VSeq [I 4; I 19; I 133]))))) 20 34 = true.
Proof. repeat split; run_it. Qed.
(** option.rs:49-80, boxes.rs:61-95, arc.rs:61-95, cow.rs:70-130, string.rs:114-, path.rs:36-60. *)
Example strings :
  both (TOption TStr) (VVar 0 []) 1 1 = true /\ both (TOption TStr) (VVar 1 [S "this is a test"]) 16 23 = true
  /\ both (TWrap TStr) (S "this is a test") 15 22 = true /\ both (TWrap TStr) (S "hello world") 12 19 = true
  /\ both (TWrap (TInt U32)) (I (2 ^ 32 - 1)) 5 4 = true /\ both TPath (S "/test/path/to/file.txt") 23 30 = true.
Proof. repeat split; run_it. Qed.
(** bound.rs:52-100, result.rs:45-85. *)
Example bounds :
  both (TBound TStr) (VVar 0 []) 1 4 = true /\ both (TBound TStr) (VVar 2 [S "this is a test"]) 16 26 = true
  /\ both (TBound TStr) (VVar 1 [S "this is a test"]) 16 26 = true
  /\ both (TResult TBool TStr) (VVar 0 [VBool true]) 2 5 = true /\ both (TResult TBool TStr) (VVar 1 [S "some error"]) 12 22 = true.
Proof. repeat split; run_it. Qed.
(** duration.rs:33-60, system_time.rs:35-: a week; before 1970. *)
Example times :
  both TDuration (VPair (I 604800) (I 0)) 6 12 = true
  /\ to_vec (std []) 0 TSystemTime (VPair (I (-1)) (I 0)) = Err (ESerialize MPreEpoch).
Proof. repeat split; run_it. Qed.
(** vecs.rs:144-170, collections.rs:251-370. *)
Definition three : val := VSeq [I 4613937818241073152; I 4613937818241073152; I 4613937818241073152].
Definition two_maps : val := VSeq [VPair (S "some") three; VPair (S "test") three].
Definition two : val := VSeq [S "some"; S "test"].
Example collections :
  both (TVec TStr) (VSeq [S "this"; S "is"; S "a"; S "test"]) 16 51 = true
  /\ both (TMap KHash TStr (TVec TF64)) two_maps 61 96 = true /\ both (TMap KOrd TStr (TVec TF64)) two_maps 61 96 = true
  /\ both (TSet KHash TStr) two 11 32 = true /\ both (TSet KOrd TStr) two 11 32 = true /\ both (THeap TStr) two 11 32 = true.
Proof. repeat split; run_it. Qed.
(** uuid.rs:97-, decimal.rs:92-160, notnan.rs:39-60: f32::MAX. *)
Definition sixteen (n : N) : val := VBytes (le_bytes 16 n).
Example raws :
  both TUuid (sixteen 7) 16 16 = true /\ both (TVec TUuid) (VSeq [sixteen 1; sixteen 2; sixteen 3]) 49 56 = true
  /\ both TDecimal (sixteen 7) 16 16 = true /\ both (TVec TDecimal) (VSeq (map sixteen [1; 2; 3; 4; 5])) 81 88 = true
  /\ both (TVec TDecimal) (VSeq []) 1 8 = true /\ both notnan32_t (I 2139095039) 4 4 = true.
Proof. repeat split; run_it. Qed.
(** chrono.rs:134-270. *)
Definition chrono_sized {A} (s : env -> A -> ser) (d : env -> prog A) (same : A -> A -> bool) (x : A) (n m : N) : bool :=
  let one E k := match ser_bytes (s E x) with
                 | Ok b => (len b =? k) && match run (d E) b with Ok (y, []) => same x y | _ => false end
                 | _ => false
                 end in one (std []) n && one (fwe []) m.
Definition same2 (a b : Z * Z) : bool := ((fst a =? fst b) && (snd a =? snd b))%Z.
Definition same3 (a b : Z * Z * Z) : bool := same2 (fst a) (fst b) && (snd a =? snd b)%Z.
Example chrono_sizes : let C := chrono04 in
  chrono_sized ser_datetime (fun E => de_datetime E C) same2 (c_time_min C, 0%Z) 10 12 = true
  /\ chrono_sized ser_datetime (fun E => de_datetime E C) same2 (c_time_max C, 999999999%Z) 14 12 = true
  /\ chrono_sized ser_date (fun E => de_date E C) same3 (1, 1, 1)%Z 3 12 = true
  /\ chrono_sized ser_date (fun E => de_date E C) same3 (9999, 12, 31)%Z 5 12 = true
  /\ chrono_sized ser_time de_time same2 (0, 0)%Z 4 16 = true
  /\ chrono_sized ser_time de_time same2 (86399, 999999999)%Z 8 16 = true
  /\ chrono_sized ser_duration (fun E => de_duration E C) Z.eqb (c_dur_min C) 14 12 = true
  /\ chrono_sized ser_duration (fun E => de_duration E C) Z.eqb 0%Z 2 12 = true
  /\ chrono_sized ser_duration (fun E => de_duration E C) Z.eqb (c_dur_max C) 14 12 = true.
Proof. repeat split; run_it. Qed.
(** specialised.rs:305-470, some of the vectors. *)
Definition bulk (i : ity) (l : list Z) (n m : N) : bool := both (TVec (TInt i)) (VSeq (map VInt l)) n m.
Example bulks :
  bulk I8 [-128; -1; 0; 1; 127]%Z 6 13 = true /\ bulk U8 [0; 1; 127; 255]%Z 5 12 = true
  /\ bulk I16 [-32768; -1000; 0; 1000; 32767]%Z 11 18 = true /\ bulk U32 [0; 100000; 2147483647; 4294967295]%Z 17 24 = true
  /\ bulk I64 [- 2 ^ 63; -1000000000; 0; 1000000000; 2 ^ 63 - 1]%Z 41 48 = true /\ bulk U128 [0; 10 ^ 18; 2 ^ 127 - 1; 2 ^ 128 - 1]%Z 65 72 = true
  /\ both (TVec TBool) (VSeq (map VBool [true; false; true; true; false; false; true; false; true; true])) 3 10 = true.
Proof. repeat split; run_it. Qed.

(** ** tests/test.rs *)
Definition z0 : val := I 0.
Definition test_enum : schema :=
  let v := fun k s e fs c => mkVariant k s e (fun _ => None) None fs c in
  let none := fun _ _ => Err (EConversion (MUser 0)) in
  mkSchema [leg; leg; leg] (SEnum [
    v 0 1 None [] none;
    v 1 1 (Some 2) [fld (TInt U32) 1 None] (fun vs _ => match vs with [x] => Ok (VVar 2 [x]) | _ => Err (EConversion (MUser 0)) end);
    v 2 2 None [fld (TInt U64) 1 None] none;
    v 3 2 None [fld (TInt I64) 1 None; with_convert (fun this _ x => Ok this) (fld TF32 1 (Some 3)); with_default z0 (fld TF64 3 None); with_default (S "Foo") (fld TStr 3 None)] none;
    v 4 1 (Some 3) [] (fun _ _ => Ok (VVar 5 [z0]));
    v 5 3 None [fld (TInt Usize) 1 None] none;
    v 6 1 None [with_convert (fun this _ x => Ok [x]) (fld (TInt U64) 1 (Some 3)); fld (TInt I64) 3 None] none]).
Definition test_unit : schema := mkSchema [leg] (SStruct []).
Definition test_tuple1 : schema := mkSchema [leg] (SStruct [fld (TVec (TInt I64)) 1 None]).
Definition p (t : ty) : field := fld t 1 None.
Definition tester1 : schema := mkSchema [leg] (SStruct (map p [TInt Usize; TInt U16; TInt U64; TInt I8; TInt I32; TF32; TF64; TChar; TStr; TRef 1; TOption (TInt U8); TWrap TStr])).
Definition tester2 : schema := mkSchema [leg; leg] (SStruct (fld (TInt Usize) 2 None :: map p
  [TInt Isize; TInt U16; TInt U64; TInt I8; TInt I16; TInt I32; TInt I64; TF32; TF64; TChar; TBool; TStr; TRef 1; TOption (TInt U8); TWrap TStr])).
Definition tester3 : schema := mkSchema [leg; leg; leg] (SStruct (fld (TInt Usize) 3 None :: map p
  [TInt Isize; TInt U16; TInt I8; TInt I32; TF32; TF64; TChar; TBool; TStr; TRef 1; TOption (TInt U8); TVec TChar; TRef 2; TRef 3; TWrap TStr; TWrap (TInt U32)])).
Definition tup : val := VSeq [VSeq [I 1039481; I 30459830]].
Definition tester4 : schema := mkSchema [leg; leg; leg; leg] (SStruct [
  p (TInt Usize); fld (TInt Isize) 2 (Some 4); p (TInt U16); fld (TInt U64) 1 (Some 3); p (TInt I8); fld (TInt I16) 2 (Some 3); p (TInt I32);
  fld (TInt I64) 2 (Some 3); p TF32; p TF64; p TChar; with_default (VBool true) (fld TBool 2 None); p TStr; p (TRef 1); p (TOption (TInt U8));
  fld (TVec TChar) 3 (Some 4); with_default (VSeq []) (fld (TRef 2) 3 None); with_default tup (fld (TRef 3) 3 None); p (TWrap TStr);
  with_default (I 19348719) (fld (TWrap (TInt U32)) 3 None)]).
Definition testers : list schema := [test_enum; test_unit; test_tuple1; tester1; tester2; tester3; tester4].
Definition f32_v : val := I 1254992899.
Definition f64_v : val := I 4735404216543918705.
Definition vzero : val := VVar 0 [].
Definition ver1 : val := VSeq [I 57918374; I 19357; I 194712409848; I 123; I 5283715; f32_v; f64_v; I 120; S "this is a test"; vzero; VVar 1 [I 17]; S "this was a test"].
Definition ver2 : val := VSeq [I 57918374; I 18540294; I 19357; I 194712409848; I 123; I 32753; I 5283715; I 194738194731; f32_v; f64_v; I 120; VBool true;
  S "this is a test"; vzero; VVar 1 [I 17]; S "this was a test"].
Definition ver3 : val := VSeq [I 57918374; I 18540294; I 19357; I 123; I 5283715; f32_v; f64_v; I 120; VBool true; S "this is a test"; vzero; VVar 1 [I 17];
  VSeq [I 97; I 98; I 99]; VSeq []; tup; S "this was a test"; I 19348719].
Definition ver4 : val := VSeq [I 57918374; I 19357; I 123; I 5283715; f32_v; f64_v; I 120; VBool true; S "this is a test"; vzero; VVar 1 [I 17];
  VSeq []; tup; S "this was a test"; I 19348719].
(** [data] written by type [n], read as type [m]. *)
Definition across (E : env) (n m : N) (v : val) : res (val * bytes) := rbind (to_vec E 9 (TRef n) v) (fun b => run (deserialize E 9 (TRef m)) b).
(** test.rs:268-398, under both encodings. *)
Example test_enum_migrations : Forall (fun E =>
  across E 4 4 ver1 = Ok (ver1, []) /\ across E 5 5 ver2 = Ok (ver2, []) /\ across E 6 6 ver3 = Ok (ver3, []) /\ across E 7 7 ver4 = Ok (ver4, [])
  /\ across E 4 7 ver1 = Ok (ver4, []) /\ across E 5 7 ver2 = Ok (ver4, []) /\ across E 6 7 ver3 = Ok (ver4, [])) [std testers; fwe testers].
Proof. repeat constructor; repeat split; run_it. Qed.
(** test.rs:400-432. *)
Definition one_usize : schema := mkSchema [leg] (SStruct [p (TInt Usize)]).
Example serialize_disabled : sized (std [one_usize]) (TRef 1) (VSeq [I 57918374]) 6 = true /\ sized (fwe [one_usize]) (TRef 1) (VSeq [I 57918374]) 10 = true.
Proof. split; run_it. Qed.

(** ** tests/migration.rs *)
Definition u32 : ty := TInt U32.
Definition ab (h : list hent) : schema := mkSchema h (SStruct [p u32; p u32]).
Definition grows : schema := mkSchema [leg; opt] (SStruct [p u32; with_default (I 42) (fld u32 2 None)]).
Definition only_a : schema := mkSchema [leg] (SStruct [p u32]).
Definition lifecycle : schema := mkSchema [leg; opt] (SEnum [
  mkVariant 0 1 (Some 2) (fun _ => None) (Some (SFixed 8)) [p (TArray 8 (TInt U8))] (fun vs _ => Ok (VVar 1 vs));
  mkVariant 1 1 None (fun _ => None) (Some (SFixed 8)) [p (TArray 8 (TInt U8))] (fun _ _ => Err (EConversion (MUser 0)))]).
Definition shadow : schema := mkSchema [leg] (SEnum [var 0 1 None None [p (TArray 8 (TInt U8))]; var 1 1 None None [p (TArray 8 (TInt U8))]]).
Definition pin_enum : schema := mkSchema [opt] (SEnum [var 0 1 None (Some SVarlen) [p TStr]]).
Definition migs : list schema := [ab [leg]; ab [leg; opt]; ab [opt]; ab [leg; leg; opt]; grows; ab [leg; leg]; only_a; lifecycle; shadow; pin_enum;
  mkSchema [ixd] (SStruct [p u32; p u32; p u32]); mkSchema [leg] (SStruct [p u32; p (TRef 2)]); mkSchema [leg; opt] (SStruct [p u32; p (TRef 1)])].
Definition M : env := std migs.
Definition ab_v (a b : Z) : val := VSeq [I a; I b].
Definition arr8 : val := VSeq (map VInt [1; 2; 3; 4; 5; 6; 7; 8]%Z).
(** 66-214, 333-469. *)
Example migrations :
  across M 1 2 (ab_v 100 200) = Ok (ab_v 100 200, []) /\ across M 2 2 (ab_v 100 200) = Ok (ab_v 100 200, [])
  /\ rmap (hd 0) (to_vec M 9 (TRef 2) (ab_v 1 2)) = Ok 2 /\ across M 3 3 (ab_v 999 1000) = Ok (ab_v 999 1000, [])
  /\ across M 1 4 (ab_v 7 8) = Ok (ab_v 7 8, []) /\ across M 6 4 (ab_v 9 10) = Ok (ab_v 9 10, []) /\ across M 4 4 (ab_v 11 12) = Ok (ab_v 11 12, [])
  /\ across M 7 5 (VSeq [I 50]) = Ok (ab_v 50 42, []) /\ across M 5 5 (ab_v 60 70) = Ok (ab_v 60 70, [])
  /\ across M 9 8 (VVar 0 [arr8]) = Ok (VVar 1 [arr8], [])
  /\ across M 12 12 (VSeq [I 170; ab_v 1 2]) = Ok (VSeq [I 170; ab_v 1 2], []) /\ across M 13 13 (VSeq [I 187; ab_v 3 4]) = Ok (VSeq [I 187; ab_v 3 4], [])
  /\ rmap (hd 0) (to_vec M 9 (TRef 12) (VSeq [I 170; ab_v 1 2])) = Ok 1 /\ rmap (hd 0) (to_vec M 9 (TRef 13) (VSeq [I 187; ab_v 3 4])) = Ok 2.
Proof. repeat split; run_it. Qed.
(** 233-331, the pinned bytes. *)
Definition pinned (n : N) (b : bytes) (v : val) : Prop := from_slice M 9 (TRef n) b = Ok v /\ (n <> 2 -> to_vec M 9 (TRef n) v = Ok b).
Example pins : pinned 2 [1; 1; 2] (ab_v 1 2) /\ pinned 3 [1; 2; 0; 0; 0; 7; 11] (ab_v 7 11)
  /\ pinned 11 [1; 15; 0; 0; 0; 12; 0; 0; 0; 13; 0; 0; 0; 14; 0; 0; 0; 7; 11; 19] (VSeq [I 7; I 11; I 19])
  /\ pinned 10 [1; 64; 3; 0; 0; 0; 2; 104; 105] (VVar 0 [S "hi"]).
Proof. repeat split; try run_it; intros H; try run_it. exfalso; apply H; reflexivity. Qed.

(** ** tests/optimised.rs, envelope.rs:102-, tag.rs:117- *)
Example envelopes : ser_bytes (encode_inline 0) = Ok [0]
  /\ rmap len (ser_bytes (encode_fixed 5 (sall (le_bytes 8 123456789)))) = Ok 9
  /\ rmap len (ser_bytes (encode_varlen 7 (sall (txt "hello world")))) = Ok 16
  /\ run read_optimised_tag [69; 1] = Ok ((69, CVarlen), [1]) /\ variant_id 69 = 5.
Proof. repeat split; run_it. Qed.
Example tags : as_err (size_class 96) = Some (EInvalidTag 96) /\ forallb (fun i => forallb (fun c => (variant_id (tag_new i c) =? i)
    && match size_class (tag_new i c) with Ok c' => sclass_eqb c c' | _ => false end && negb (is_extended (tag_new i c))) [CInline; CFixed; CVarlen]) (map N.of_nat (seq 0 32)) = true.
Proof. split; run_it. Qed.

(** ** tests/per_field_fixed.rs, per_field_specialised.rs *)
Definition mixed : schema := mkSchema [leg] (SStruct [p u32; fixedf (p u32)]).
Definition all_ints : schema := mkSchema [leg] (SStruct (map (fun i => fixedf (p (TInt i))) [U32; I32; U64; I64; U128; I128])).
Definition specd : schema := mkSchema [leg] (SStruct [mkField (TVec u32) 1 None (dflt VUnit) keep false true INone]).
Example per_field : to_vec (std [mixed]) 9 (TRef 1) (ab_v 1 42) = Ok [1; 1; 42; 0; 0; 0]
  /\ sized (std [all_ints]) (TRef 1) (VSeq (map VInt [1; -2; 3; -4; 5; -6]%Z)) 57 = true
  /\ to_vec (std [specd]) 9 (TRef 1) (VSeq [VSeq (map VInt [287454020; 1432778632; 2578103244]%Z)])
     = Ok [1; 3; 68; 51; 34; 17; 136; 119; 102; 85; 204; 187; 170; 153].
Proof. repeat split; run_it. Qed.

(** ** tests/corruption.rs *)
Definition le32 (n : N) : bytes := le_bytes 4 n.
Definition bad_map (keys : bytes) : bytes := [1; 2] ++ flat_map le32 [0; 0; 1; 1] ++ le32 2 ++ le32 2 ++ keys ++ txt "XY".
Example corruptions : let E := std [] in
  as_err (struct_open true (le32 999 ++ le32 0) 1) = Some (EOffsetRange 999 8)
  /\ as_err (struct_open true (le32 20 ++ le32 10 ++ repeat 0 16) 2) = Some ENonMonotonic
  /\ as_err (struct_open true [0; 0; 0] 4) = Some ESubReaderOverrun
  /\ as_err (seq_open E true [1; 251; 232; 3]) = Some ESubReaderOverrun /\ as_err (seq_open E true []) = Some ESubReaderOverrun
  /\ as_err (seq_open E true [1; 254]) = Some EInvalidInt
  /\ as_err (map_open E true (bad_map (txt "ba"))) = Some EKeysNotAscending /\ as_err (map_open E true (bad_map (txt "aa"))) = Some EKeysNotAscending
  /\ as_err (map_open E true (bad_map (txt "ab"))) = None
  /\ as_err (map_open E true ([1; 2] ++ repeat 0 8)) = Some ESubReaderOverrun.
Proof. repeat split; run_it. Qed.

(** ** validation.rs:141-220 *)
Definition offs (l : list N) : bytes := flat_map le32 l.
Example validations :
  validate_prologue (offs [0; 4; 12; 20]) 4 4 24 = Ok tt /\ validate_prologue (offs [0; 4; 100]) 3 4 50 = Err (EOffsetRange 100 50)
  /\ validate_prologue (offs [0; 4; 4; 8]) 4 4 16 = Err ENonMonotonic /\ validate_prologue (offs [8; 4]) 2 4 16 = Err ENonMonotonic
  /\ validate_map_prologue (std []) (repeat 0 16) 3 16 16 = Err ENonMonotonic
  /\ validate_ascending (txt "abc") (offs [0; 0; 1; 1; 2; 2]) 3 = Ok tt /\ validate_ascending (txt "ba") (offs [0; 0; 1; 1]) 2 = Err EKeysNotAscending
  /\ validate_ascending (txt "aa") (offs [0; 0; 1; 1]) 2 = Err EKeysNotAscending /\ validate_ascending [] [] 0 = Ok tt /\ validate_ascending (txt "a") (offs [0; 0]) 1 = Ok tt.
Proof. repeat split; run_it. Qed.

(** ** map_walk.rs:464-710, tests/indexed.rs *)
Definition key_is (k : bytes) (x : bytes) : comparison := bcmp x k.
Fixpoint place {A} (f : A -> N) (o : N) (l : list A) : list N := match l with [] => [] | x :: l' => o :: place f (o + f x) l' end.
Definition indexed_map (l : list (bytes * bytes)) : bytes :=
  [1; len l] ++ flat_map (fun q => le32 (fst q) ++ le32 (snd q)) (combine (place (fun e => len (fst e)) 0 l) (place (fun e => len (snd e)) 0 l))
  ++ le32 (len (flat_map fst l)) ++ le32 (len (flat_map snd l)) ++ flat_map fst l ++ flat_map snd l.
Definition foobar : bytes := indexed_map [(txt "bar", txt "7"); (txt "baz", txt "99"); (txt "foo", txt "42")].
(** The key offset of entry 1 replaced by u32::MAX. *)
Definition spoilt : bytes := firstn 10 foobar ++ le32 (2 ^ 32 - 1) ++ skipn 14 foobar.
Definition found (v : bool) (b k : bytes) : res (option bytes) := rbind (map_open (std []) v b) (fun w => find_value_bytes w (key_is k)).
Definition hinted (v : bool) (b : bytes) (h : option N) (k : bytes) : res (option bytes * option N) :=
  rbind (map_open (std []) v b) (fun w => find_value_bytes_with_hint w h (key_is k)).
Example map_walks :
  rmap mw_len (map_open (std []) true foobar) = Ok 3 /\ found true foobar (txt "baz") = Ok (Some (txt "99")) /\ found true foobar (txt "foo") = Ok (Some (txt "42"))
  /\ found true foobar (txt "missing") = Ok None
  /\ rmap entries (map_open (std []) true foobar) = Ok (Some (Ok [(txt "bar", txt "7"); (txt "baz", txt "99"); (txt "foo", txt "42")]))
  /\ map_open (std []) true [0; 2; 170; 187] = Ok (mkMapW [170; 187] None 2) /\ deser_err (found true [0; 2; 170; 187] (txt "x")) = true
  /\ (exists e, map_open (std []) true spoilt = Err e) /\ found false spoilt (txt "baz") = Err (EOffsetRange 6 9)
  /\ (exists l, rmap entries (map_open (std []) false spoilt) = Ok (Some (Ok l)) /\ len l = 3 /\ existsb (fun e => len (fst e) =? 0) l = true)
  /\ hinted true foobar None (txt "baz") = Ok (Some (txt "99"), Some 1) /\ hinted true foobar (Some 1) (txt "baz") = Ok (Some (txt "99"), Some 1)
  /\ hinted true foobar (Some 0) (txt "foo") = Ok (Some (txt "42"), Some 2) /\ hinted true foobar (Some 1) (txt "missing") = Ok (None, Some 1)
  /\ hinted true foobar (Some 50) (txt "foo") = Ok (Some (txt "42"), Some 2) /\ hinted true foobar None (txt "bar") = Ok (Some (txt "7"), Some 0)
  /\ deser_err (hinted true [0; 2; 170; 187] None (txt "x")) = true
  /\ (exists x y, hinted false spoilt (Some 1) (txt "foo") = Err (EOffsetRange x y)) /\ hinted false spoilt (Some 2) (txt "foo") = Ok (Some (txt "42"), Some 2).
Proof.
  repeat match goal with |- _ /\ _ => split end; try run_it.
  - exists (EOffsetRange (2 ^ 32 - 1) 9). run_it.
  - exists [([], txt "7"); ([], txt "99"); (txt "foo", txt "42")]. repeat split; run_it.
  - exists 6, 9. run_it.
Qed.
Definition sixteen_keys : bytes := indexed_map (map (fun c => ([c], [c - 97])) (map N.of_nat (seq 97 16))).
Example sixteen_found : found true sixteen_keys (txt "j") = Ok (Some [9]) /\ found true sixteen_keys (txt "z") = Ok None.
Proof. split; run_it. Qed.

(** ** serialize.rs:934-1100: thresholds *)
Definition idxm : schema := mkSchema [opt] (SStruct [idxd IMap (p (TMap KOrd TStr u32)); idxd ISeq (p (TVec u32))]).
Definition keys (n : nat) : val := VSeq (map (fun i => VPair (VBytes [97 + N.of_nat i]) (I (Z.of_nat i))) (seq 0 n)).
Definition nums (n : nat) : val := VSeq (map (fun i => I (Z.of_nat i)) (seq 0 n)).
Definition body_flags (n : nat) : res (N * N) :=
  rbind (ser_bytes (ser_mode (std []) (ser_ref (std []) 0) MIdxMap (TMap KOrd TStr u32) (keys n))) (fun b =>
  rbind (ser_bytes (ser_mode (std []) (ser_ref (std []) 0) MIdxSeq (TVec u32) (nums n))) (fun c =>
  rbind (map_open (std []) true b) (fun m => rbind (seq_open (std []) true c) (fun s =>
  Ok (if mw_pro m then 1 else 0, if sw_offs s then 1 else 0))))).
Example thresholds : body_flags 3 = Ok (0, 0) /\ body_flags 7 = Ok (0, 0) /\ body_flags 8 = Ok (1, 1)
  /\ across (std [idxm]) 1 1 (VSeq [keys 4; nums 5]) = Ok (VSeq [keys 4; nums 5], []) /\ across (std [idxm]) 1 1 (VSeq [keys 20; nums 300]) = Ok (VSeq [keys 20; nums 300], []).
Proof. repeat split; run_it. Qed.

(** ** slice_reader.rs:419-560 *)
Example slice_readers :
  map (fun n => sr_position (snd (sr_consume n (sr_new [1; 2; 3; 4; 5])))) [2; 3] = [2; 3]
  /\ rmap sr_inner (sr_sub 64 2 3 (sr_new [0; 1; 2; 3; 4; 5])) = Ok [2; 3; 4]
  /\ as_err (sr_sub 64 2 3 (sr_new [0; 1; 2; 3])) = Some ESubReaderOverrun
  /\ rmap sr_inner (sr_sub 64 3 2 (snd (sr_consume 2 (sr_new [0; 1; 2; 3; 4; 5])))) = Ok [3; 4]
  /\ as_err (sr_sub 64 1 1 (snd (sr_consume 2 (sr_new [0; 1; 2; 3; 4; 5])))) = Some EIoInput
  /\ take_slice 2 [1; 2; 3] = (Ok [1; 2], [3]) /\ take_slice 4 [1; 2; 3] = (Err EIo, [1; 2; 3]).
Proof. repeat split; run_it. Qed.

(** ** tests/skip.rs *)
Definition evolving : schema := mkSchema [leg; leg] (SStruct [p u32; with_default (I 0) (fld (TInt U16) 2 None)]).
Definition evolving_enum : schema := mkSchema [leg; leg] (SEnum [
  mkVariant 0 1 (Some 2) (fun _ => None) None [p (TInt U8)] (fun _ _ => Ok (VVar 1 [I 0]));
  mkVariant 1 2 None (fun _ => None) None [p (TInt U64)] (fun _ _ => Err (EConversion (MUser 0)))]).
Example skips : let E := std [evolving; evolving_enum] in
  sized E (TRef 1) (VSeq [I 91; I 7]) 3 = true
  /\ skip_slice E 9 (TRef 1) [1; 42] = Ok 2 /\ from_slice E 9 (TRef 1) [1; 42] = Ok (VSeq [I 42; I 0])
  /\ skip_slice E 9 (TRef 2) [1; 0; 19] = Ok 3 /\ from_slice E 9 (TRef 2) [1; 0; 19] = Ok (VVar 1 [I 0])
  /\ as_err (from_slice E 9 TStr [3; 255; 255; 255]) = Some EUtf8 /\ rmap snd (run (skip E 9 TStr) [3; 255; 255; 255]) = Ok []
  /\ as_err (run (skip_check E 9 TStr) [3; 255; 255; 255]) = Some EUtf8
  /\ deser_err (run (skip E 9 (TOption u32)) [2]) = true /\ deser_err (run (skip_check E 9 (TOption u32)) [2]) = true
  /\ sized E (TPair (TInt I64) (TPair (TVec (TInt U64)) (TOption TStr))) (VPair (I (-7)) (VPair (VSeq [I 42; I (2 ^ 64 - 1)]) (VVar 1 [S "nest"]))) 24 = true
  /\ sized E (TPair (TInt U64) (TInt U64)) (VPair (I 42) (I 99)) 2 = true /\ sized E TSystemTime (VPair (I 12345) (I 987654321)) 8 = true
  /\ as_err (run (skip E 9 (TInt U64)) []) = Some EIo /\ as_err (from_slice E 9 (TInt U64) []) = Some EIo.
Proof. repeat split; run_it. Qed.

(** ** tests/walk.rs *)
Definition walked (E : env) (t : ty) (v : val) (w : act) : res (obs * bytes) :=
  rbind (to_vec E 9 t v) (fun b => rmap (fun q => (fst q, sr_inner (snd q))) (walk_with E 9 9 t w (sr_new b))).
Definition on_bytes (E : env) (t : ty) (b : bytes) (w : act) : res (obs * bytes) := rmap (fun q => (fst q, sr_inner (snd q))) (walk_with E 9 9 t w (sr_new b)).
(** 20-86. *)
Example walk_leaves : let E := std [] in
  walked E (TInt U64) (I 42) Decode = Ok (OVal (I 42), []) /\ walked E (TInt U128) (I (2 ^ 128 - 1)) Skip = Ok (ODone, [])
  /\ walked E (TOption u32) (VVar 1 [I 7]) Decode = Ok (OVal (VVar 1 [I 7]), []) /\ walked E (TOption u32) (VVar 1 [I 7]) Skip = Ok (ODone, [])
  /\ walked E (TOption u32) (VVar 1 [I 7]) (Into 1 Decode) = Ok (OVal (I 7), []) /\ walked E (TOption u32) (VVar 0 []) Skip = Ok (ODone, [])
  /\ walked E TStr (S "hello, walker") Bytes = Ok (OBytes (txt "hello, walker"), []) /\ walked E TPath (S "/etc/passwd") Bytes = Ok (OBytes (txt "/etc/passwd"), []).
Proof. repeat split; run_it. Qed.
(** 92-117, 651-700, 745-815. *)
Definition five : val := VSeq (map S ["one"; "two"; "three"; "four"; "five"]%string).
Definition greek : val := VSeq (map S ["alpha"; "beta"; "gamma"; "delta"]%string).
Definition seq_of (E : env) (t : ty) (v : val) (ops : list sop) : res (list (res obs) * option (bytes * N)) :=
  rbind (to_vec E 9 t v) (fun b => rmap (fun q => (fst q, option_map (fun s => (sr_inner (ss_reader s), ss_remaining s)) (snd q))) (seq_session E 9 9 t ops (sr_new b))).
Example walk_seqs : let E := std [] in
  walked E (TVec TStr) five (Item Decode (Item Decode (Item Decode Rest))) = Ok (OCons (OVal (S "one")) (OCons (OVal (S "two")) (OCons (OVal (S "three")) ODone)), [])
  /\ seq_of E (TVec TStr) five [SRemaining; SNext; SDecode; SNext; SDecode; SNext; SDecode; SRemaining]
     = Ok ([Ok (OVal (I 5)); Ok ODone; Ok (OVal (S "one")); Ok ODone; Ok (OVal (S "two")); Ok ODone; Ok (OVal (S "three")); Ok (OVal (I 2))],
           Some ([4; 102; 111; 117; 114; 4; 102; 105; 118; 101], 2))
  /\ seq_of E (TVec TStr) greek [SNext; SBytes; SNext; SDecode; SNext; SSkip; SNext; SBytes]
     = Ok ([Ok ODone; Ok (OBytes (txt "alpha")); Ok ODone; Ok (OVal (S "beta")); Ok ODone; Ok ODone; Ok ODone; Ok (OBytes (txt "delta"))], Some ([], 0))
  /\ deser_err (walked E (TVec u32) (VSeq [I 1; I 2; I 3]) (Item Decode Rest)) = true
  /\ deser_err (walked E (TVec TUuid) (VSeq [sixteen 0; sixteen 0]) Rest) = true /\ deser_err (walked E (TVec TDecimal) (VSeq [sixteen 0; sixteen 1]) Rest) = true
  /\ walked (mkEnv false false (e_dbg E) (e_ub E) (e_mem E) (e_esize E) (e_cmp E) (e_iter E) (e_dec E) (e_ext E) (e_time E) (e_sch E)) (TVec u32) (VSeq [I 7; I 8]) (Item Decode (Item Decode Rest))
     = Ok (OCons (OVal (I 7)) (OCons (OVal (I 8)) ODone), [])
  /\ seq_of E (TSet KOrd u32) (VSeq [I 1; I 2; I 3; I 4]) [SRemaining; SNext; SDecode; SNext; SDecode; SNext; SDecode; SNext; SDecode; SNext]
     = Ok ([Ok (OVal (I 4)); Ok ODone; Ok (OVal (I 1)); Ok ODone; Ok (OVal (I 2)); Ok ODone; Ok (OVal (I 3)); Ok ODone; Ok (OVal (I 4)); Ok OEnd], Some ([], 0))
  /\ rmap snd (seq_of E (THeap (TInt I32)) (VSeq (map VInt [1; 1; 3; 4; 5]%Z)) [SNext; SSkip; SNext; SSkip; SNext; SSkip; SNext; SSkip; SNext; SSkip; SNext]) = Ok (Some ([], 0)).
Proof. repeat split; run_it. Qed.
(** 119-221, 560-650, 855-874. *)
Definition greek_map : val := VSeq [VPair (S "alpha") (I 1); VPair (S "beta") (I 2); VPair (S "delta") (I 3); VPair (S "epsilon") (I 4)].
Definition map_t : ty := TMap KOrd TStr u32.
Definition finding (k : bytes) : res (option obs * bytes) := rbind (to_vec (std []) 9 map_t greek_map) (fun b => rmap (fun q => (fst q, sr_inner (snd q)))
  (map_find (std []) 9 9 TStr u32 (fun x => match x with VBytes y => bcmp y k | _ => Eq end) Decode (sr_new b))).
Definition finding_bytes (k : bytes) : res (option obs * bytes) := rbind (to_vec (std []) 9 map_t greek_map) (fun b => rmap (fun q => (fst q, sr_inner (snd q)))
  (map_find_bytes (std []) 9 9 TStr u32 (fun y => bcmp y k) Decode (sr_new b))).
Definition map_of (v : val) (ops : list mop) : res (list (res obs) * option bytes) :=
  rbind (to_vec (std []) 9 map_t v) (fun b => rmap (fun q => (fst q, option_map (fun s => sr_inner (ms_reader s)) (snd q))) (map_session (std []) 9 9 TStr u32 ops (sr_new b))).
Example walk_maps :
  walked (std []) map_t greek_map (Entry Decode Decode (Entry Skip Decode (Entry Bytes Skip Rest)))
     = Ok (OCons (OCons (OVal (S "alpha")) (OVal (I 1))) (OCons (OCons ODone (OVal (I 2))) (OCons (OCons (OBytes (txt "delta")) ODone) ODone)), [])
  /\ finding (txt "delta") = Ok (Some (OVal (I 3)), [7; 101; 112; 115; 105; 108; 111; 110; 4]) /\ finding (txt "zzz") = Ok (None, [])
  /\ finding_bytes (txt "delta") = finding (txt "delta") /\ finding_bytes (txt "zzz") = Ok (None, [])
  /\ (exists m, map_of (VSeq [VPair (S "only") (I 42)]) [NextEntry; SkipKey; DecodeKey; DecodeValue] = Ok ([Ok ODone; Ok ODone; Err (EDeserialize m); Ok (OVal (I 42))], Some [])).
Proof. repeat match goal with |- _ /\ _ => split end; try run_it. exists (MOther 9). run_it. Qed.
(** 223-421: Document, Shape, Outer, NewShape; 424-510: ConvertedFoo; 818-853: Sandwich. *)
Definition document : schema := mkSchema [leg] (SStruct [p TStr; p u32]).
Definition shape : schema := mkSchema [leg] (SEnum [var 0 1 None None [p u32]; var 1 1 None None [p u32; p u32]; var 2 1 None None [p u32]]).
Definition outer : schema := mkSchema [leg] (SStruct [p (TInt U16); p map_t]).
Definition new_shape : schema := mkSchema [leg; leg] (SStruct [p (TInt U8); with_default (I 0) (fld (TInt U8) 2 None)]).
Definition converted_foo : schema := mkSchema [leg; leg] (SStruct [
  with_convert (fun _ _ x => match x with VInt z => Ok [I (z * 10); I (z + 1)] | _ => Err (EConversion (MUser 0)) end) (fld u32 1 (Some 2));
  with_default (I 0) (fld u32 2 None); with_default (I 0) (fld u32 2 None)]).
Definition sandwich : schema := mkSchema [leg] (SStruct [p (TInt U16); p map_t; p u32]).
Definition W : env := std [document; shape; outer; new_shape; converted_foo; sandwich].
Definition ab_map : val := VSeq [VPair (S "a") (I 1); VPair (S "b") (I 2)].
Example walk_derived :
  walked W (TRef 1) (VSeq [S "hello"; I 42]) (Field Decode (Field Decode Rest)) = Ok (OCons (OVal (S "hello")) (OCons (OVal (I 42)) ODone), [])
  /\ walked W (TRef 1) (VSeq [S "skip-me"; I 99]) (Field Skip (Field Decode Rest)) = Ok (OCons ODone (OCons (OVal (I 99)) ODone), [])
  /\ field_names document 1 = [0; 1]%nat /\ map fst (variant_table shape 1) = [0; 1; 2] /\ variant_name shape 1 2 = Some 2
  /\ walked W (TRef 2) (VVar 2 [I 7]) (Is 2 (IntoVar 2 Decode) Rest) = Ok (OVal (I 7), []) /\ walked W (TRef 2) (VVar 0 [I 13]) (IntoVar 0 Skip) = Ok (ODone, [])
  /\ walked W (TRef 3) (VSeq [I 7; ab_map]) (Field Decode (Field (Walk (Entry Decode Decode (Entry Decode Decode Rest))) Rest))
     = Ok (OCons (OVal (I 7)) (OCons (OCons (OCons (OVal (S "a")) (OVal (I 1))) (OCons (OCons (OVal (S "b")) (OVal (I 2))) ODone)) ODone), [])
  /\ on_bytes W (TRef 4) [1; 3] (Field Decode (Field Decode Rest)) = Ok (OCons (OVal (I 3)) (OCons (OVal (I 0)) ODone), [])
  /\ deser_err (on_bytes W (TRef 4) [99; 0] (Field Decode Rest)) = true /\ from_slice W 9 (TRef 4) [1; 3] = Ok (VSeq [I 3; I 0])
  /\ on_bytes W (TRef 5) [1; 5] (Field Decode (Field Decode Rest)) = Ok (OCons (OVal (I 50)) (OCons (OVal (I 6)) ODone), [])
  /\ (exists m, on_bytes W (TRef 5) [1; 5] (Field (Walk Decode) Rest) = Err (EConversion m))
  /\ walked W (TRef 5) (VSeq [I 42; I 99]) (Field Decode (Field Decode Rest)) = Ok (OCons (OVal (I 42)) (OCons (OVal (I 99)) ODone), [])
  /\ walked W (TRef 6) (VSeq [I 7; ab_map; I 99]) (Field Decode (Field (Walk (Entry Decode Decode (Entry Decode Decode Rest))) (Field Decode Rest)))
     = Ok (OCons (OVal (I 7)) (OCons (OCons (OCons (OVal (S "a")) (OVal (I 1))) (OCons (OCons (OVal (S "b")) (OVal (I 2))) ODone)) (OCons (OVal (I 99)) ODone)), []).
Proof. repeat match goal with |- _ /\ _ => split end; try run_it. exists (MOther 7). run_it. Qed.

(** ** tests/walker_optimised.rs *)
Definition opt_enum : schema := mkSchema [opt] (SEnum [var 0 1 None (Some SInline) []; var 1 1 None (Some SVarlen) [p TStr]]).
Definition O : env := std [ab [opt]; mkSchema [ixd] (SStruct [p u32; p u32; p u32]); ab [leg; opt]; opt_enum; mkSchema [leg] (SEnum [var 0 1 None None []; var 1 1 None None [p (TInt U64)]]);
  mkSchema [opt] (SEnum [var 0 1 None (Some SInline) []; var 1 1 None (Some SVarlen) [p (TVec u32)]])].
Example walk_optimised :
  walked O (TRef 1) (ab_v 42 100) (Field Decode (Field Decode Rest)) = Ok (OCons (OVal (I 42)) (OCons (OVal (I 100)) ODone), [])
  /\ walked O (TRef 2) (VSeq [I 10; I 20; I 30]) (Field Decode (Field Decode (Field Decode Rest))) = Ok (OCons (OVal (I 10)) (OCons (OVal (I 20)) (OCons (OVal (I 30)) ODone)), [])
  /\ walked O (TRef 3) (ab_v 7 11) (Field Decode (Field Decode Rest)) = Ok (OCons (OVal (I 7)) (OCons (OVal (I 11)) ODone), [])
  /\ on_bytes O (TRef 3) [1; 7; 11] (Field Decode (Field Decode Rest)) = Ok (OCons (OVal (I 7)) (OCons (OVal (I 11)) ODone), [])
  /\ walked O (TRef 4) (VVar 1 [S "hello"]) (DecodeVar 1) = Ok (OVal (S "hello"), [])
  /\ walked O (TRef 4) (VVar 1 [S "hello"]) (ViewVar 1) = Ok (OBytes (5 :: txt "hello"), [])
  /\ walked O (TRef 5) (VVar 1 [I 3735928559]) (DecodeVar 1) = Ok (OVal (I 3735928559), [])
  /\ deser_err (walked O (TRef 4) (VVar 0 []) (DecodeVar 1)) = true
  /\ walked O (TRef 6) (VVar 1 [VSeq [I 1; I 2; I 3; I 4; I 5]]) (ViewVar 1) = Ok (OBytes (5 :: flat_map le32 [1; 2; 3; 4; 5]), []).
Proof. repeat split; run_it. Qed.
(** 259-400: [into_<field>_bytes]. *)
Definition guarded : schema := mkSchema [leg; leg] (SStruct [p u32; with_default (I 0) (fld u32 2 None)]).
Definition into (E : env) (t : ty) (b : bytes) (cs : list bool) : res obs := rmap fst (walk_into_bytes E 9 9 t cs (sr_new b)).
Example into_bytes : 
  into O (TRef 2) [1; 15; 0; 0; 0; 12; 0; 0; 0; 13; 0; 0; 0; 14; 0; 0; 0; 11; 22; 33] [true] = Ok (OBytes [22])
  /\ into O (TRef 2) [1; 15; 0; 0; 0; 12; 0; 0; 0; 13; 0; 0; 0; 14; 0; 0; 0; 11; 22; 33] [] = Ok (OBytes [11])
  /\ into O (TRef 2) [1; 17; 0; 0; 0; 12; 0; 0; 0; 13; 0; 0; 0; 14; 0; 0; 0; 100; 200; 251; 44; 1] [true; true] = Ok (OBytes [251; 44; 1])
  /\ into O (TRef 1) [1; 2; 0; 0; 0; 42; 100] [] = Ok (OBytes [42]) /\ into O (TRef 3) [2; 2; 0; 0; 0; 7; 11] [] = Ok (OBytes [7])
  /\ (exists m, into (std [guarded]) (TRef 1) [1; 99] [true] = Err (EConversion m)).
Proof. repeat match goal with |- _ /\ _ => split end; try run_it. exists (MOther 1). run_it. Qed.

(** ** tests/multi_field_variant_walk.rs, macro_optimised.rs *)
Definition value : schema := mkSchema [opt] (SEnum [var 0 1 None (Some SInline) []; var 1 1 None (Some SVarlen) [p u32; p TStr]; var 2 1 None (Some SVarlen) [p u32; p TStr]]).
Definition optimised_enum : schema := mkSchema [opt] (SEnum [var 0 1 None (Some SInline) []; var 1 1 None (Some (SFixed 8)) [p (TArray 8 (TInt U8))];
  var 2 1 None (Some SVarlen) [p TStr]; var 3 1 None (Some SVarlen) [p u32; p u32]]).
Definition V : env := std [value; optimised_enum; ab [opt]].
Example variants :
  walked V (TRef 1) (VVar 1 [I 42; S "hello"]) (ViewVar 1) = Ok (OBytes (42 :: 5 :: txt "hello"), [])
  /\ walked V (TRef 1) (VVar 2 [I 7; S "world"]) (ViewVar 2) = Ok (OBytes (7 :: 5 :: txt "world"), [])
  /\ deser_err (walked V (TRef 1) (VVar 0 []) (ViewVar 1)) = true
  /\ sized V (TRef 2) (VVar 0 []) 2 = true /\ sized V (TRef 2) (VVar 1 [arr8]) 10 = true /\ sized V (TRef 2) (VVar 2 [S "hello, optimised world"]) 29 = true
  /\ sized V (TRef 2) (VVar 3 [I 1; I 2]) 8 = true
  /\ rbind (to_vec V 9 (TRef 2) (VVar 2 [S "payload"])) (fun b => rmap snd (run (skip V 9 (TRef 2)) (b ++ [252; 239; 190; 173; 222]))) = Ok [252; 239; 190; 173; 222]
  /\ rbind (to_vec V 9 (TRef 3) (ab_v 1 2)) (fun b => rmap snd (run (skip V 9 (TRef 3)) (b ++ [252; 239; 190; 173; 222]))) = Ok [252; 239; 190; 173; 222]
  /\ forallb (fun q => sized V (TRef 3) (ab_v (fst q) (snd q)) (5 + len (ser_int false U32 (fst q)) + len (ser_int false U32 (snd q)))) [(0, 0); (1, 1); (4294967295, 0); (12345, 67890)]%Z = true.
Proof. repeat split; run_it. Qed.

(** ** tests/indexed_fields.rs, walk_field_wire_zero_copy.rs *)
Definition doc : schema := mkSchema [opt] (SStruct [p u32; idxd IMap (p map_t); p TStr; idxd ISeq (p (TVec TStr))]).
Definition sdoc : schema := mkSchema [opt] (SStruct [p u32; idxd IMap (p map_t); idxd ISeq (p (TVec TStr))]).
Definition F : env := std [doc; sdoc; mkSchema [opt] (SStruct [idxd IMap (p (TMap KHash TStr u32))]); mkSchema [opt] (SStruct [idxd ISet (p (TSet KOrd TStr))]);
  mkSchema [opt] (SStruct [idxd ISet (p (TSet KHash (TInt U64)))]); mkSchema [opt] (SStruct [idxd ISeq (p (TImVec TStr))])].
Definition nato : list string := ["alpha"; "bravo"; "charlie"; "delta"; "echo"; "foxtrot"; "golf"; "hotel"]%string.
Definition nato_map (f : nat -> string -> Z) (n : nat) : val := VSeq (firstn n (map (fun q => VPair (S (snd q)) (I (f (fst q) (snd q)))) (combine (seq 0 8) nato))).
Definition by_place (i : nat) (_ : string) : Z := Z.of_nat i.
Definition by_length (_ : nat) (s : string) : Z := Z.of_N (len (txt s)).
Definition ten_tags : val := VSeq (map (fun i => VBytes (txt "tag-" ++ [48 + N.of_nat i])) (seq 0 10)).
(** What a view of the field shows, and a function of it. *)
Definition viewed {A} (n : N) (v : val) (w : act) (f : bytes -> res A) : res A :=
  rbind (walked F (TRef n) v w) (fun q =>
  let fix go (o : obs) := match o with OBytes b => Some b | OCons a b => match go a with Some x => Some x | None => go b end | _ => None end in
  match go (fst q) with Some b => f b | None => Panic PType end).
Example indexed_field_values :
  across F 1 1 (VSeq [I 42; nato_map by_place 3; S "test doc"; VSeq (map S ["one"; "two"; "three"]%string)])
    = Ok (VSeq [I 42; nato_map by_place 3; S "test doc"; VSeq (map S ["one"; "two"; "three"]%string)], [])
  /\ across F 1 1 (VSeq [I 7; VSeq []; S "empty doc"; VSeq []]) = Ok (VSeq [I 7; VSeq []; S "empty doc"; VSeq []], [])
  /\ viewed 1 (VSeq [I 0; nato_map by_place 8; S ""; VSeq []]) (Field Skip (Field View Rest)) (fun b => found true b (5 :: txt "delta")) = Ok (Some [3])
  /\ viewed 1 (VSeq [I 0; VSeq []; S ""; ten_tags]) (Field Skip (Field Skip (Field Skip (Field View Rest)))) 
       (fun b => rbind (seq_open F true b) (fun w => rmap (fun e => (sw_len w, e)) (element_bytes w 5))) = Ok (10, 5 :: txt "tag-5")
  /\ viewed 2 (VSeq [I 42; nato_map by_length 8; ten_tags]) (Field Skip (Field View (Field View Rest))) (fun b => found true b (5 :: txt "delta")) = Ok (Some [5])
  /\ across F 3 3 (VSeq [nato_map by_place 4]) = Ok (VSeq [nato_map by_place 4], []) /\ across F 4 4 (VSeq [VSeq (map S nato)]) = Ok (VSeq [VSeq (map S nato)], [])
  /\ across F 5 5 (VSeq [nums 10]) = Ok (VSeq [nums 10], []) /\ across F 6 6 (VSeq [VSeq (map S ["one"; "two"; "three"]%string)]) = Ok (VSeq [VSeq (map S ["one"; "two"; "three"]%string)], []).
Proof. repeat split; run_it. Qed.

(** ** tests/skip_indexed_fast_path.rs: what follows is left alone *)
Definition sentinel : bytes := le32 3405691582.
Definition skipped_map (a b : ty) (v : val) : res bytes := rbind (ser_bytes (ser_mode (std []) (ser_ref (std []) 0) MIdxMap (TMap KOrd a b) v)) (fun x =>
  rmap (fun q => sr_inner (snd q)) (skip_indexed_map (std []) 9 a b (sr_new (x ++ sentinel)))).
Definition skipped_seq (m : fmode) (t a : ty) (v : val) : res bytes := rbind (ser_bytes (ser_mode (std []) (ser_ref (std []) 0) m t v)) (fun x =>
  rmap (fun q => sr_inner (snd q)) (skip_indexed_seq (std []) 9 a (sr_new (x ++ sentinel)))).
Definition tails (n : nat) : val := VSeq (map (fun i => VBytes (txt "element-" ++ repeat 112 i)) (seq 0 n)).
Example fast_skips :
  forallb (fun n => match skipped_map TStr u32 (keys n) with Ok x => Ex.ceq (bcmp x sentinel) | _ => false end) [0; 3; 7; 8; 12; 16]%nat = true
  /\ forallb (fun n => match skipped_seq MIdxSeq (TVec u32) u32 (nums n) with Ok x => Ex.ceq (bcmp x sentinel) | _ => false end) [0; 3; 7; 8; 32]%nat = true
  /\ forallb (fun n => match skipped_seq MIdxSeq (TVec TStr) TStr (tails n) with Ok x => Ex.ceq (bcmp x sentinel) | _ => false end) [0; 7; 8; 16]%nat = true
  /\ forallb (fun n => match skipped_seq MIdxSet (TSet KOrd (TInt I64)) (TInt I64) (VSeq (map (fun i => I (Z.of_nat i * 13 - 7)) (seq 0 n))) with Ok x => Ex.ceq (bcmp x sentinel) | _ => false end) [4; 24]%nat = true.
Proof. repeat split; run_it. Qed.
