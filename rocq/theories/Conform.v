(** The expectations of the unit tests of the library, computed in the model.

    These are tests of the model, not proofs of properties: each Example computes what a test in
    tests/unit computes and compares it with what the test expects. *)
From Coq Require Import List NArith Arith Bool.
From Coq.Strings Require Import Byte.
From Verif Require Import Base Syntax Prog Serializers Traverse Api Registry RegistryFacts Spec Examples.
Import ListNotations.
Local Open Scope N_scope.

(** The classes of the tests: members, and those that serialize visits in each mode. *)
Definition plain_class (sz : N) (ts : list ty) (ser : mode -> list nat) (init : list val) : class := {|
  csize := sz; cvirt := false; cbyte := false; cparent := None; cfields := ts; cser := ser;
  ctag := None; crecon := None; cdefault := Some [init] |}.
Definition every (n : nat) : mode -> list nat := fun _ => seq 0 n.
Definition except (m0 : mode) (n : nat) (m : nat) : mode -> list nat :=
  fun md => match md, m0 with
            | MPacking, MPacking | MUnpacking, MUnpacking => seq 0 n
            | _, _ => seq 0 m
            end.
Definition FLOAT := TPrim 7 4.
Definition LLONG := TPrim 8 8.

Definition unit_cls (c : nat) : option class :=
  match c with
  (* test_serialization_error_checking.cc:59-106 *)
  | 0 => Some (plain_class 4 [OINT] (every 1) [w4 0])
  | 1 => Some (plain_class 16 [DBL; TClass 0] (every 2) [w8 1; VObj 0 [[w4 0]]])
  | 2 => Some (plain_class 24 [DBL; TClass 1] (every 2) [w8 2; VObj 1 [[w8 1; VObj 0 [[w4 0]]]]])
  | 3 => Some (plain_class 32 [DBL; TClass 2] (every 2)
                 [w8 3; VObj 2 [[w8 2; VObj 1 [[w8 1; VObj 0 [[w4 0]]]]]]])
  | 4 => Some (plain_class 40 [DBL; TClass 3] (every 2)
                 [w8 4; VObj 3 [[w8 3; VObj 2 [[w8 2; VObj 1 [[w8 1; VObj 0 [[w4 0]]]]]]]]])
  (* test_serialization_error_checking.cc:117-139 *)
  | 5 => Some {| csize := 16; cvirt := true; cbyte := false; cparent := None; cfields := [OINT];
                 cser := every 1; ctag := None; crecon := None; cdefault := Some [[w4 3]] |}
  | 6 => Some {| csize := 16; cvirt := true; cbyte := false; cparent := Some 5%nat; cfields := [OINT];
                 cser := every 1; ctag := None; crecon := None; cdefault := Some [[w4 3]; [w4 4]] |}
  (* test_serialization_error_checking.cc:159-229 *)
  | 7 => Some (plain_class 16 [SIZE; SIZE] (every 2) [w8 123; w8 456])
  | 8 => Some (plain_class 16 [SIZE; SIZE] (except MPacking 1 2) [w8 123; w8 456])
  | 9 => Some (plain_class 16 [SIZE; SIZE] (except MUnpacking 1 2) [w8 123; w8 456])
  | 10 => Some (plain_class 16 [CHAR; DBL] (except MUnpacking 1 2) [VB [x01]; w8 2])
  | 11 => Some (plain_class 32 [SIZE; SIZE; TClass 10] (every 3) [w8 3; w8 4; VObj 10 [[VB [x01]; w8 2]]])
  | 12 => Some (plain_class 32 [TClass 11] (every 1) [VObj 11 [[w8 3; w8 4; VObj 10 [[VB [x01]; w8 2]]]]])
  (* test_sizer.cc:86-227 *)
  | 13 => Some (plain_class 8 [OINT; OINT] (every 2) [w4 0; w4 0])
  | 14 => Some (plain_class 12 [OINT; OINT; OINT] (every 3) [w4 0; w4 0; w4 0])
  | 15 => Some (plain_class 16 [OINT; OINT; OINT; OINT] (every 4) [w4 0; w4 0; w4 0; w4 0])
  | 16 => Some (plain_class 8 [OINT; TArray 3 CHAR] (every 2) [w4 0; VSeq (repeat (VB [x00]) 3)])
  | 17 => Some (plain_class 32 [DBL; TVector FLOAT] (every 2) [w8 3; VVec 7 (repeat (w4 1) 7)])
  (* test_footprinter.cc:75-82 *)
  | 18 => Some (plain_class 4 [FLOAT] (every 1) [w4 0])
  (* test_footprinter.cc:84-119 *)
  | 19 => Some {| csize := 16; cvirt := true; cbyte := false; cparent := None; cfields := [OINT];
                 cser := every 1; ctag := None; crecon := None; cdefault := Some [[w4 0]] |}
  | 20 => Some {| csize := 40; cvirt := true; cbyte := false; cparent := Some 19%nat;
                 cfields := [TShared OINT; TRaw OINT]; cser := fun _ => [1; 0]%nat;
                 ctag := Some [[w4 0]; [VOpt (Some (w4 5)); VOpt None]]; crecon := None; cdefault := None |}
  | _ => None
  end%nat.

(** sizeof on x86-64 with libstdc++. *)
Definition unit_szof (t : ty) : N :=
  match t with
  | TString => 32 | TVector _ => 24 | TVecBool => 40
  | TArray n (TPrim _ sz) => N.of_nat n * N.of_nat sz
  | TList true _ => 80 | TList false _ => 24 | TQueue _ => 80
  | TAssoc (AOrd _ _) _ => 48 | TAssoc (AHash _ _) _ => 56
  | TUnique _ | TRaw _ => 8 | TShared _ => 16
  | TPair (TPrim _ 4) (TPrim _ 1) => 8
  | TPair _ _ => 16
  | TTuple _ => 48
  | TOptional (TPrim _ 1) => 2 | TOptional (TPrim _ _) => 16 | TOptional _ => 40
  | TAdaptor _ => 32
  | _ => 64
  end.

Definition unit_env (checking : bool) : env := {|
  cls := unit_cls; szof := unit_szof;
  tix := fun t => type_index (match t with
    | TClass c => N.of_nat c + 1 | TUnique (TClass c) => N.of_nat c + 100
    | TPrim i _ => N.of_nat i + 200 | _ => 300 end);
  chk := checking; asserts := true; defc := fun _ => true; copyc := fun _ => true; movec := fun _ => true;
  less := less (ex checking); keq := keq (ex checking); hplace := hplace (ex checking);
  oreg := fun r => match r with 5 => [5; 6] | 19 => [19; 20] | _ => [] end%nat
|}.

Definition foot (b : bool) (t : ty) (v : val) : option N :=
  match get_footprint (unit_env b) 12 t v 0 with Ok (_, n) => Some n | Err _ => None end.
Definition size (b : bool) (t : ty) (v : val) : option N :=
  match get_size (unit_env b) 12 t v with Ok (_, n) => Some n | Err _ => None end.
Notation so b t := (sizeof (unit_env b) t).
Ltac both := intros b; destruct b; repeat split; vm_compute; reflexivity.

(** ** tests/unit/test_footprinter.cc *)

(* test_footprinter.cc:122-177 *)
Example foot_fundamental : forall b,
  foot b OINT (w4 0) = Some (so b OINT) /\ foot b DBL (w8 0) = Some (so b DBL) /\
  get_footprint (unit_env b) 12 OINT (w4 0) 7 = Ok (w4 0, so b OINT + 7) /\
  get_footprint (unit_env b) 12 DBL (w8 0) 7 = Ok (w8 0, so b DBL + 7) /\
  foot b (TRaw CHAR) (VOpt (Some (VB [x31]))) = Some (so b (TRaw CHAR) + so b CHAR) /\
  foot b (TRaw OINT) (VOpt None) = Some (so b (TRaw OINT)) /\
  foot b (TRaw OINT) (VOpt (Some (w4 0))) = Some (so b (TRaw OINT) + so b OINT) /\
  foot b (TCounted 0 8) (w8 0) = Some 8.
Proof. both. Qed.
(* test_footprinter.cc:179-193 *)
Example foot_array : forall b, foot b (TArray 3 OINT) (VSeq [w4 1; w4 2; w4 3]) = Some (3 * so b OINT) /\
  foot b (TCounted 1 1) (VB [x00]) = Some (so b BOOL).
Proof. both. Qed.
(* test_footprinter.cc:195-200, 227-251 *)
Example foot_chrono_enum : forall b, foot b (TChrono 0 8 8) (w8 1) = Some (so b LLONG) /\
  foot b (TEnum 0 6 4) (w4 0) = Some 4 /\ foot b (TEnum 1 4 1) (VB [x67]) = Some (so b CHAR).
Proof. both. Qed.
(* test_footprinter.cc:219-225, 267-273 *)
Example foot_deque_list : forall b dq,
  foot b (TList dq OINT) (VSeq [w4 1; w4 2; w4 3]) = Some (so b (TList dq OINT) + 3 * so b OINT).
Proof. intros b dq. destruct b, dq; vm_compute; reflexivity. Qed.
(* test_footprinter.cc:281-334 *)
Definition entries (k : N -> N) : list val := map (fun i => VSeq [w4 (k i); VB [x61]]) [1; 2; 3].
Definition P := TPair OINT CHAR.
Example foot_map : forall b, let n t := Some (so b t + 3 * (so b P + so b OINT + so b CHAR)) in
  (let t := TAssoc (AOrd false true) P in foot b t (VSeq (entries (fun i => i))) = n t) /\
  (let t := TAssoc (AHash false true) P in foot b t (VBag (entries (fun i => i))) = n t) /\
  (let t := TAssoc (AOrd true true) P in foot b t (VSeq (entries (fun _ => 1))) = n t) /\
  (let t := TAssoc (AHash true true) P in foot b t (VBag (entries (fun _ => 1))) = n t) /\
  (let e := TPair OINT (TUnique DBL) in let t := TAssoc (AHash false true) e in
   foot b t (VBag (map (fun i => VSeq [w4 i; VOpt (Some (w8 (10 * i)))]) [1; 2; 3])) =
   Some (so b t + 3 * (so b e + so b OINT + so b (TUnique DBL) + so b DBL))).
Proof. both. Qed.
(* test_footprinter.cc:336-349 *)
Example foot_shared : forall b, foot b (TShared (TClass 18)) (VOpt None) = Some (so b (TShared (TClass 18))) /\
  foot b (TShared (TClass 18)) (VOpt (Some (VObj 18 [[w4 0]]))) =
  Some (so b (TShared (TClass 18)) + so b (TClass 18)).
Proof. both. Qed.
(* test_footprinter.cc:351-375, 425-437 *)
Example foot_queue : forall b, let l := [w4 1; w4 2; w4 3] in
  foot b (TQueue OINT) (VSeq l) = Some (so b (TQueue OINT) + 3 * so b OINT) /\
  foot b (TAdaptor OINT) (VSeq l) = Some (so b (TAdaptor OINT) + 3 * so b OINT).
Proof. both. Qed.
(* test_footprinter.cc:377-423 *)
Example foot_set : forall b, let l := [w4 1; w4 2; w4 3] in let l1 := repeat (w4 1) 3 in
  (let t := TAssoc (AOrd false false) OINT in foot b t (VSeq l) = Some (so b t + 3 * so b OINT)) /\
  (let t := TAssoc (AHash false false) OINT in foot b t (VBag l) = Some (so b t + 3 * so b OINT)) /\
  (let t := TAssoc (AOrd true false) OINT in foot b t (VSeq l1) = Some (so b t + 3 * so b OINT)) /\
  (let t := TAssoc (AHash true false) OINT in foot b t (VBag l1) = Some (so b t + 3 * so b OINT)) /\
  (let t := TAssoc (AOrd false false) (TUnique OINT) in
   foot b t (VSeq (map (fun i => VOpt (Some (w4 i))) [100; 200; 300])) =
   Some (so b t + 3 * (so b (TUnique OINT) + so b OINT))).
Proof. both. Qed.
(* test_footprinter.cc:440-446, 458-467 *)
Definition s9 : val := VStr 15 [x31; x32; x33; x34; x35; x36; x37; x38; x39].
Example foot_string_tuple : forall b, foot b TString s9 = Some (so b TString + 15) /\
  foot b (TTuple [OINT; DBL; TString]) (VSeq [w4 1; w8 3; s9]) = Some (so b OINT + so b DBL + so b TString + 15).
Proof. both. Qed.
(* test_footprinter.cc:469-490, without the class that calls addBytes *)
Example foot_unique : forall b, foot b (TUnique (TClass 18)) (VOpt None) = Some (so b (TUnique (TClass 18))) /\
  foot b (TUnique (TClass 18)) (VOpt (Some (VObj 18 [[w4 0]]))) =
  Some (so b (TUnique (TClass 18)) + so b (TClass 18)).
Proof. both. Qed.
(* test_footprinter.cc:492-531, without the class that calls addBytes *)
Example foot_vector : forall b,
  foot b (TVector OINT) (VVec 5 (map w4 [1; 2; 3; 4; 5])) = Some (so b (TVector OINT) + 5 * so b OINT) /\
  foot b (TVector (TRaw (TClass 18))) (VVec 2 [VOpt (Some (VObj 18 [[w4 0]])); VOpt None]) =
    Some (so b (TVector OINT) + 2 * so b (TRaw (TClass 18)) + so b (TClass 18)) /\
  foot b TVecBool (VVec 64 (map (fun c => VB [c]) [x00; x01; x00; x01; x01])) = Some (so b TVecBool) /\
  foot b (TVector (TClass 20)) (VVec 3 []) = Some (so b (TVector (TClass 20)) + 3 * so b (TClass 20)).
Proof. both. Qed.
(* test_footprinter.cc:533-552 *)
Example foot_optional : forall b,
  foot b (TOptional BOOL) (VOpt (Some (VB [x01]))) = Some (so b (TOptional BOOL) + so b BOOL) /\
  foot b (TOptional BOOL) (VOpt None) = Some (so b (TOptional BOOL)) /\
  foot b (TOptional LLONG) (VOpt (Some (w8 123))) = Some (so b (TOptional LLONG) + so b LLONG) /\
  foot b (TOptional LLONG) (VOpt None) = Some (so b (TOptional LLONG)) /\
  foot b (TOptional TString) (VOpt (Some (VStr 15 [x39; x39; x39]))) = Some (so b (TOptional TString) + so b TString) /\
  foot b (TOptional TString) (VOpt None) = Some (so b (TOptional TString)).
Proof. both. Qed.
(* test_footprinter.cc:554-564 *)
Example foot_virtual : forall b, let v := VObj 20 [[w4 0]; [VOpt (Some (w4 5)); VOpt None]] in
  foot b (TUnique (TClass 19)) (VOpt (Some v)) <> None /\ foot b (TShared (TClass 19)) (VOpt (Some v)) <> None.
Proof. intros b. destruct b; split; vm_compute; discriminate. Qed.
(* test_footprinter.cc:566-632 *)
Definition NOSER := TOpaque 0 16.
Example foot_no_serialize : forall b, let x := w8 0 in
  foot b (TVector (TCounted 2 8)) (VVec 3 (repeat (w8 0) 3)) = Some (so b (TVector OINT) + 3 * 8) /\
  foot b (TVector NOSER) (VVec 7 (repeat x 7)) = Some (so b (TVector NOSER) + 7 * 16) /\
  (let e := TPair OINT NOSER in let t := TAssoc (AHash false true) e in
   foot b t (VBag (map (fun i => VSeq [w4 i; x]) [1; 2; 3])) =
   Some (so b t + 3 * (so b e + so b OINT + 16))).
Proof. both. Qed.

(** ** tests/unit/test_sizer.cc:64-265 *)

(** sizeof(DecodedIndex) + sizeof(SerialSizeType) *)
Definition rec_size : N := 4 + 8.
Definition expected (b : bool) (data frames : N) : option N :=
  Some (data + (if b then frames else 1) * rec_size).
Example sizes : forall b,
  size b (TClass 0) (VObj 0 [[w4 0]]) = expected b 4 2 /\
  size b (TClass 13) (VObj 13 [repeat (w4 0) 2]) = expected b (2 * 4) 3 /\
  size b (TClass 14) (VObj 14 [repeat (w4 0) 3]) = expected b (3 * 4) 4 /\
  size b (TClass 15) (VObj 15 [repeat (w4 0) 4]) = expected b (4 * 4) 5 /\
  size b (TClass 16) (VObj 16 [[w4 0; VSeq (repeat (VB [x00]) 3)]]) = expected b (4 + 3) 4 /\
  size b (TClass 17) (VObj 17 [[w8 3; VVec 7 (repeat (w4 1) 7)]]) = expected b (8 + 8 + 8 + 7 * 4) 6.
Proof. both. Qed.

(** ** tests/unit/test_serialization_error_checking.cc, with error checking *)

Definition object (t : ty) : val := match recon (unit_env true) t with Some v => v | None => VB [] end.
Definition data (t : ty) (v : val) : option bytes :=
  match serialize (unit_env true) 12 t v None with Ok s => Some (s_bytes s) | Err _ => None end.
Definition throws {A} (r : res A) : bool := match r with Err (SerErr _ _) => true | _ => false end.
Definition fine {A} (r : res A) : bool := match r with Ok _ => true | Err _ => false end.
Definition reads_as (from to_ : ty) (v : val) : option (bool * bool) :=
  option_map (fun b => let r := deserialize (unit_env true) 12 to_ b 0 in (fine r, throws r)) (data from v).

(* test_serialization_error_checking.cc:108-115 *)
Example wrong_class :
  reads_as (TClass 4) (TClass 4) (object (TClass 4)) = Some (true, false) /\
  reads_as (TClass 4) (TClass 3) (object (TClass 4)) = Some (false, true).
Proof. split; vm_compute; reflexivity. Qed.
(* test_serialization_error_checking.cc:141-157 *)
Example wrong_pointer : let p := VOpt (Some (object (TClass 6))) in let from := TUnique (TClass 5) in
  reads_as from from p = Some (true, false) /\
  reads_as from (TUnique (TClass 6)) p = Some (false, true) /\
  reads_as from (TClass 5) p = Some (false, true) /\ reads_as from (TClass 6) p = Some (false, true).
Proof. repeat split; vm_compute; reflexivity. Qed.
(* test_serialization_error_checking.cc:231-268 *)
Example wrong_usage :
  reads_as (TClass 7) (TClass 7) (object (TClass 7)) = Some (true, false) /\
  throws (serialize (unit_env true) 12 (TClass 8) (object (TClass 8)) None) = true /\
  reads_as (TClass 9) (TClass 9) (object (TClass 9)) = Some (false, true) /\
  reads_as (TClass 12) (TClass 12) (object (TClass 12)) = Some (false, true).
Proof. repeat split; vm_compute; reflexivity. Qed.
