(** A concrete program: a class table with recursive and polymorphic classes, and
    values of many types.  Used to show that the hypotheses of the theorems are
    met by non-trivial cases. *)
From Coq Require Import List NArith Arith Bool Lia Permutation.
From Coq.Strings Require Import Byte.
From Verif Require Import Base Syntax Prog Serializers Traverse Spec EnvFacts ValFacts Registry
  RegistryFacts.
Import ListNotations.
Local Open Scope N_scope.

Definition DBL := TPrim 5 8.
Definition OINT := TPrim 6 4.
Definition zeros (n : nat) : bytes := repeat x00 n.
Definition w4 (n : N) : val := VB (le 4 n).
Definition w8 (n : N) : val := VB (le 8 n).

(** struct Node { double x; std::vector<std::string> names; std::unique_ptr<Node> next; } *)
Definition cNode : class := {|
  csize := 40; cvirt := false; cbyte := false; cparent := None;
  cfields := [DBL; TVector TString; TUnique (TClass 0)];
  cser := fun _ => [0; 1; 2]%nat;
  ctag := None; crecon := None;
  cdefault := Some [[VB (zeros 8); VVec 0 []; VOpt None]] |}.
(** struct Shape { int id; std::string name; }, polymorphic root; members are
    serialized in the order name, id *)
Definition cShape : class := {|
  csize := 48; cvirt := true; cbyte := false; cparent := None;
  cfields := [OINT; TString];
  cser := fun _ => [1; 0]%nat;
  ctag := None; crecon := None;
  cdefault := Some [[VB (zeros 4); VStr 15 []]] |}.
(** struct Circle : Shape { double r; std::map<int, std::string> tags; } *)
Definition cCircle : class := {|
  csize := 104; cvirt := true; cbyte := false; cparent := Some 1%nat;
  cfields := [DBL; TAssoc (AOrd false true) (TPair OINT TString)];
  cser := fun _ => [0; 1]%nat;
  ctag := Some [[VB (le 4 7); VStr 15 []]; [VB (zeros 8); VSeq []]]; crecon := None;
  cdefault := Some [[VB (zeros 4); VStr 15 []]; [VB (zeros 8); VSeq []]] |}.
(** struct Ring : Circle { std::optional<int> hole; } *)
Definition cRing : class := {|
  csize := 112; cvirt := true; cbyte := false; cparent := Some 2%nat;
  cfields := [TOptional OINT];
  cser := fun _ => [0]%nat;
  ctag := None;
  crecon := Some [[VB (zeros 4); VStr 15 []]; [VB (zeros 8); VSeq []]; [VOpt None]];
  cdefault := None |}.
(** struct Box : Shape { std::array<int, 2> side; } *)
Definition cBox : class := {|
  csize := 56; cvirt := true; cbyte := false; cparent := Some 1%nat;
  cfields := [TArray 2 OINT];
  cser := fun _ => [0]%nat;
  ctag := None; crecon := None;
  cdefault := Some [[VB (zeros 4); VStr 15 []]; [VSeq [VB (zeros 4); VB (zeros 4)]]] |}.
(** struct Pod { int a, b; }, byte-copyable *)
Definition cPod : class := {|
  csize := 8; cvirt := false; cbyte := true; cparent := None;
  cfields := []; cser := fun _ => [];
  ctag := None; crecon := None; cdefault := None |}.

(** struct Flat : Shape { int v; }, polymorphic and also declared byte-copyable *)
Definition cFlat : class := {|
  csize := 56; cvirt := true; cbyte := true; cparent := Some 1%nat;
  cfields := [OINT]; cser := fun _ => [0]%nat;
  ctag := None; crecon := None;
  cdefault := Some [[VB (zeros 4); VStr 15 []]; [VB (zeros 4)]] |}.
(** struct Disc : Shape { double r; } *)
Definition cDisc : class := {|
  csize := 56; cvirt := true; cbyte := false; cparent := Some 1%nat;
  cfields := [DBL]; cser := fun _ => [0]%nat;
  ctag := None; crecon := None;
  cdefault := Some [[VB (zeros 4); VStr 15 []]; [VB (zeros 8)]] |}.

(** struct Husk : Shape { double r; Husk(double); }: no way to construct it *)
Definition cHusk : class := {|
  csize := 56; cvirt := true; cbyte := false; cparent := Some 1%nat;
  cfields := [DBL]; cser := fun _ => [0]%nat;
  ctag := None; crecon := None; cdefault := None |}.

(** Classes with a serialize function that depends on the mode (the members are
    an int, a double and a string):
    Long reads fewer members than it writes, Short more, Swapped others;
    Fickle sizes fewer members than it packs, Stingy more. *)
Definition cOdd (ser : mode -> list nat) : class := {|
  csize := 48; cvirt := false; cbyte := false; cparent := None;
  cfields := [OINT; DBL; TString]; cser := ser;
  ctag := None; crecon := None;
  cdefault := Some [[VB (zeros 4); VB (zeros 8); VStr 15 []]] |}.
Definition cLong := cOdd (fun m => match m with MUnpacking => [0; 1]%nat | _ => [0; 1; 2]%nat end).
Definition cShort := cOdd (fun m => match m with MUnpacking => [0; 1; 2]%nat | _ => [0; 1]%nat end).
Definition cSwapped := cOdd (fun m => match m with MUnpacking => [1; 0]%nat | _ => [0; 1]%nat end).
Definition cFickle := cOdd (fun m => match m with MSizing => [0]%nat | _ => [0; 1; 2]%nat end).
Definition cStingy := cOdd (fun m => match m with MSizing => [0; 1; 2]%nat | _ => [0; 2]%nat end).

(** [flat]: the program has the class Flat. *)
Definition ex_cls (flat : bool) (c : nat) : option class :=
  match c with
  | 0 => Some cNode | 1 => Some cShape | 2 => Some cCircle
  | 3 => Some cRing | 4 => Some cBox | 5 => Some cPod
  | 6 => if flat then Some cFlat else None | 7 => Some cDisc
  | 8 => Some cLong | 9 => Some cShort | 10 => Some cSwapped
  | 11 => Some cFickle | 12 => Some cStingy | 13 => Some cHusk
  | _ => None
  end%nat.

Definition ex_szof (t : ty) : N :=
  match t with
  | TString => 32
  | TVector _ => 24
  | TVecBool => 40
  | TArray n t' => 8 * N.of_nat n
  | TList true _ => 80
  | TList false _ => 24
  | TQueue _ => 80
  | TAssoc (AOrd _ _) _ => 48
  | TAssoc (AHash _ _) _ => 56
  | TUnique _ | TRaw _ => 8
  | TShared _ => 16
  | TVariant _ => 40
  | _ => 64
  end.

(** The types of the program, in an arbitrary registration order. *)
Definition ex_types : list ty :=
  [TClass 3; SIZE; TString; TVector TString; BOOL; CHAR; OINT; DBL; TClass 0;
   TUnique (TClass 0); TUnique (TClass 1); TClass 1; TClass 2; INT; TOptional OINT;
   TPair OINT TString; TAssoc (AOrd false true) (TPair OINT TString); TArray 2 OINT;
   TClass 4; TClass 5; TVector (TUnique (TClass 1)); TAssoc (AHash true false) OINT;
   TVariant [OINT; TString]; TList false TString; TVector DBL; TVecBool;
   TQueue OINT; TEnum 0 6 4; TChrono 0 5 8; TVector (TClass 5);
   TTuple [OINT; TString]; TVector OINT; TClass 6; TClass 7;
   TClass 8; TClass 9; TClass 10; TClass 11; TClass 12; TVector (TClass 9);
   TClass 13].

Definition ex_regs : list nat := [2; 1; 4; 3; 6; 7; 13]%nat.
Definition ex_base (flat : bool) (c : nat) : nat :=
  match c with 1 | 2 | 3 | 4 | 7 | 13 => 1 | 6 => if flat then 1 else 6 | _ => c end%nat.

(** Comparators look at the first scalar of an element (a map's key). *)
Fixpoint ekey (v : val) : N :=
  match v with
  | VB b => unle b
  | VStr _ b => unle b
  | VSeq (x :: _) => ekey x
  | _ => 0
  end.

Definition ex_with (flat checking debug : bool) : env := {|
  cls := ex_cls flat;
  szof := ex_szof;
  tix := fun t => match get_type_idx (treg_of ex_types) t with
                  | Some i => i | None => type_index 65535 end;
  chk := checking;
  asserts := debug;
  defc := fun t => match t with TClass 3 => false | _ => true end;
  copyc := fun t => match t with TUnique _ | TClass 0 => false | _ => true end;
  movec := fun _ => true;
  less := fun _ v w => ekey v <? ekey w;
  keq := fun _ v w => ekey v =? ekey w;
  hplace := fun _ l x => x :: l;
  oreg := fun r => map oe_class (or_reg (oregs_of (ex_base flat) ex_regs) r)
|}.
Definition ex (checking : bool) : env := ex_with true checking true.
(** The same program compiled with NDEBUG, where checkpointAssert only prints. *)
Definition ex_release (checking : bool) : env := ex_with true checking false.
(** The program without the class Flat. *)
Definition ex_plain (checking : bool) : env := ex_with false checking true.

Lemma find_ty_index : forall l t i,
  get_type_idx (treg_of l) t = Some i -> exists j, i = type_index j.
Proof.
  intros l. induction l as [|x l IH] using rev_ind; intros t i H; [discriminate|].
  rewrite treg_snoc in H. unfold get_type_idx in H. cbn [tr_idx treg_add find_ty] in H.
  destruct (ty_eqb x t); [|eauto]. inversion H. rewrite treg_next. exists (len l). reflexivity.
Qed.

Lemma ekey_same : forall v w, same v w -> ekey v = ekey w.
Proof.
  intros v. induction v using val_ind'; intros w Hw; inversion Hw; subst; auto.
  match goal with H : Forall _ l, H' : Forall2 _ l _ |- _ => inversion H'; subst; auto; inversion H; subst end.
  cbn. auto.
Qed.

Lemma ex_root : forall a b d c, ex_base a c = root (ex_with a b d) c.
Proof.
  intros a b d c. destruct a; do 14 (destruct c as [|c]; [reflexivity|]); reflexivity.
Qed.

Ltac fields := repeat (constructor; try reflexivity; try lia).

Lemma ex_with_wf : forall a b d (F : N -> Prop), F 0 -> wf_env F (ex_with a b d).
Proof.
  intros a b d F HF. split.
  - intros c k p H Hp. destruct a.
    all: do 14 (destruct c as [|c]; [first [discriminate|inversion H; subst; cbn in Hp; try discriminate;
      inversion Hp; subst;
      (split; [lia|split; [reflexivity|eexists; split; reflexivity]])]|]).
    all: discriminate.
  - intros c k ls H Hl. destruct a.
    all: do 14 (destruct c as [|c]; [first [discriminate|inversion H; subst; cbn in Hl;
      destruct Hl as [Hl|[Hl|Hl]]; try discriminate; inversion Hl; subst; clear Hl H;
      cbn; repeat (first [ constructor; [eexists; split; [reflexivity|cbn;
        repeat (first [constructor; [fields; auto|] | apply Forall2_nil])]|] | apply Forall2_nil ])]|]).
    all: discriminate.
  - intros t. cbn [tix ex_with].
    destruct (get_type_idx (treg_of ex_types) t) as [i|] eqn:E.
    + apply find_ty_index in E. destruct E as (j & ->). split; [apply type_index_bound|].
      pose proof (type_index_valid j) as H. unfold validate_index in H.
      apply N.eqb_eq in H. symmetry. exact H.
    + split; vm_compute; reflexivity.
  - intros t v v' w w' H H'. cbn. now rewrite (ekey_same _ _ H), (ekey_same _ _ H').
  - intros t v v' w w' H H'. cbn. now rewrite (ekey_same _ _ H), (ekey_same _ _ H').
  - intros. cbn. apply Permutation_refl.
  - intros r. apply (oregs_env (ex_base a) (ex_with a b d) ex_regs).
    + apply ex_root.
    + repeat (constructor; [cbn; intuition lia|]). constructor.
    + reflexivity.
  - exact HF.
Qed.

Lemma ex_wf : forall b (F : N -> Prop), F 0 -> wf_env F (ex b).
Proof. intros. now apply ex_with_wf. Qed.

(** ** Values *)
Ltac side := first [ reflexivity | discriminate | (vm_compute; reflexivity)
  | (vm_compute; discriminate) | (intros; lia) | (intros; discriminate) ].
Ltac wfc := split; cbn; try reflexivity;
  [repeat (constructor; [cbn; intuition lia|]); constructor | intros; lia].
Ltac ht :=
  match goal with
  | |- has_ty ?E ?t ?v => let t' := eval hnf in t in let v' := eval hnf in v in
    change (has_ty E t' v')
  | _ => idtac
  end;
  match goal with
  | |- has_ty _ (TPrim _ _) _ => apply HtPrim; reflexivity
  | |- has_ty _ (TEnum _ _ _) _ => apply HtEnum; reflexivity
  | |- has_ty _ (TChrono _ _ _) _ => apply HtChrono; reflexivity
  | |- has_ty _ TString _ => apply HtString; side
  | |- has_ty _ (TVector _) _ => apply HtVector; [side|side|side|side|hts]
  | |- has_ty _ TVecBool _ => apply HtVecBool; [side|side|repeat (constructor; auto)]
  | |- has_ty _ (TArray _ _) _ => apply HtArray; [side|side|hts]
  | |- has_ty _ (TList _ _) _ => apply HtList; [side|side|hts]
  | |- has_ty _ (TQueue _) _ => apply HtQueue; [side|side|hts]
  | |- has_ty _ (TAssoc (AOrd _ _) _) _ => apply HtOrd; [side|side|hts|
      cbn; repeat split; repeat constructor; side]
  | |- has_ty _ (TAssoc (AHash _ _) _) _ => apply HtHash; [side|side|hts|side]
  | |- has_ty _ (TPair _ _) _ => apply HtPair; ht
  | |- has_ty _ (TTuple _) _ => apply HtTuple; hts
  | |- has_ty _ (TOptional _) (VOpt None) => apply HtNone
  | |- has_ty _ (TOptional _) _ => apply HtSome; [side|ht]
  | |- has_ty _ (TVariant _) (VVar _ _) => eapply HtVariant; [side|side|side|side|ht]
  | |- has_ty _ (TUnique _) (VOpt None) => apply HtNull
  | |- has_ty _ (TUnique _) _ =>
    first [ apply HtUnique; [reflexivity|side|ht]
          | eapply HtUniqueV; [reflexivity|cbn; auto 10|reflexivity|side|reflexivity|side|ht] ]
  | |- has_ty _ (TClass _) (VB _) => eapply HtClassB; [reflexivity|side|side|side]
  | |- has_ty _ (TClass _) (VObj _ _) => apply HtClass; [side|
      cbn; repeat first [ apply Forall2_nil | apply Forall2_cons;
        [eexists; split; [reflexivity|split; [reflexivity|split; [wfc|cbn; hts]]]|] ] ]
  end
with hts :=
  repeat first [ apply Forall_nil | apply Forall2_nil
               | apply Forall_cons; [ht|] | apply Forall2_cons; [ht|] ].

(** Strings *)
Definition s_ab : val := VStr 15 [x61; x62].
Definition s_long : val := VStr 40 [x68; x65; x6c; x6c; x6f].

(** A linked list of two nodes. *)
Definition v_node : val :=
  VObj 0 [[w8 77; VVec 4 [s_ab; s_long];
           VOpt (Some (VObj 0 [[w8 78; VVec 0 []; VOpt None]]))]].
Lemma v_node_ty : forall b, has_ty (ex b) (TClass 0) v_node.
Proof. intros b. destruct b; ht. Qed.

(** Polymorphic objects behind base pointers. *)
Definition v_ring : val :=
  VObj 3 [[w4 1; s_ab]; [w8 2; VSeq [VSeq [w4 5; s_long]; VSeq [w4 9; s_ab]]]; [VOpt (Some (w4 3))]].
Definition v_box : val := VObj 4 [[w4 4; s_long]; [VSeq [w4 10; w4 20]]].
Definition v_circle : val := VObj 2 [[w4 11; s_ab]; [w8 12; VSeq []]].
Definition v_shape : val := VObj 1 [[w4 6; s_ab]].
Definition t_shapes : ty := TVector (TUnique (TClass 1)).
Definition v_shapes : val :=
  VVec 8 [VOpt (Some v_ring); VOpt None; VOpt (Some v_box); VOpt (Some v_shape)].
Lemma v_shapes_ty : forall b, has_ty (ex b) t_shapes v_shapes.
Proof. intros b. destruct b; ht. Qed.

(** Everything else. *)
Definition t_misc : ty := TTuple
  [TVector DBL; TVecBool; TAssoc (AHash true false) OINT; TVariant [OINT; TString];
   TList false TString; TQueue OINT; TEnum 0 6 4; TChrono 0 5 8; TVector (TClass 5);
   TOptional OINT; TAssoc (AOrd true false) OINT; TArray 2 OINT; TList true (TClass 0)].
Definition v_misc : val := VSeq
  [VVec 3 [w8 1; w8 2]; VVec 64 [VB [x01]; VB [x00]; VB [x01]];
   VBag [w4 3; w4 1; w4 3]; VVar 1 s_ab; VSeq [s_ab; s_long]; VSeq [w4 8; w4 7];
   w4 2; w8 1000; VVec 2 [VB (le 8 5); VB (le 8 6)]; VOpt None;
   VSeq [w4 1; w4 1; w4 2]; VSeq [w4 3; w4 4]; VSeq [v_node]].
Lemma v_misc_ty : forall b, has_ty (ex b) t_misc v_misc.
Proof. intros b. destruct b; ht. Qed.
