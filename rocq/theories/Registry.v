(** The registries filled during static initialisation:
    src/checkpoint/dispatch/type_registry.h (type indices),
    src/checkpoint/dispatch/vrt/object_registry.h (constructors of polymorphic
    classes) and src/checkpoint/dispatch/vrt/serializer_registry.h (type-erased
    serialize functions); and the functions that use them.

    C++ initialises each static member template once, in an unspecified order:
    a registration history is a list without repetitions.  Using an index before
    its static initialiser ran is modelled in Startup.v. *)
From Coq Require Import List NArith Arith Bool.
From Verif Require Import Base Syntax Prog Traverse.
Import ListNotations.
Local Open Scope N_scope.
Local Open Scope prog_scope.

(** ** Type registry *)

(** [tr_next]: the uint16 counter of getIndex (type_registry.h:88-93);
    [tr_names]: getRegisteredNames (80-84), newest binding first;
    [tr_idx]: the static members Type<T>::idx (115-121). *)
Record treg := {
  tr_next : N;
  tr_names : list (N * ty);
  tr_idx : list (ty * N)
}.

(** The registry before static initialisation, type_registry.h:83-93. *)
Definition treg0 : treg := {| tr_next := 0; tr_names := []; tr_idx := [] |}.

(** Registrar<ObjT>::Registrar, type_registry.h:103-111:
    index = (getIndex() << 8) | dead_mark *)
Definition treg_add (r : treg) (t : ty) : treg :=
  let index := N.lor (N.shiftl (tr_next r) 8) dead_mark in
  {| tr_next := (tr_next r + 1) mod 65536;
     tr_names := (index, t) :: tr_names r;
     tr_idx := (t, index) :: tr_idx r |}.

(** Static initialisers run one after the other, type_registry.h:118-119. *)
Definition treg_of (l : list ty) : treg := fold_left treg_add l treg0.

(** A decision procedure for type identity (typeid)
    (typeid(ObjT), type_registry.h:107). *)
Fixpoint list_eqb {A} (eqb : A -> A -> bool) (l l' : list A) : bool :=
  match l, l' with
  | [], [] => true
  | x :: r, y :: r' => eqb x y && list_eqb eqb r r'
  | _, _ => false
  end.
(** Identity of two associative containers without their elements (type_registry.h:107). *)
Definition assoc_eqb (a b : assoc) : bool :=
  match a, b with
  | AOrd x m, AOrd y n | AHash x m, AHash y n => Bool.eqb x y && Bool.eqb m n
  | _, _ => false
  end.
(** Identity of two types (typeid(ObjT), type_registry.h:107). *)
Fixpoint ty_eqb (a b : ty) {struct a} : bool :=
  match a, b with
  | TPrim i n, TPrim j m | TCounted i n, TCounted j m | TOpaque i n, TOpaque j m =>
    Nat.eqb i j && Nat.eqb n m
  | TEnum i u n, TEnum j v m | TChrono i u n, TChrono j v m =>
    Nat.eqb i j && Nat.eqb u v && Nat.eqb n m
  | TString, TString | TVecBool, TVecBool => true
  | TVector x, TVector y | TQueue x, TQueue y | TOptional x, TOptional y
  | TUnique x, TUnique y | TShared x, TShared y | TRaw x, TRaw y
  | TAdaptor x, TAdaptor y => ty_eqb x y
  | TArray n x, TArray m y => Nat.eqb n m && ty_eqb x y
  | TList d x, TList e y => Bool.eqb d e && ty_eqb x y
  | TAssoc k x, TAssoc l y => assoc_eqb k l && ty_eqb x y
  | TPair x y, TPair x' y' => ty_eqb x x' && ty_eqb y y'
  | TTuple l, TTuple l' | TVariant l, TVariant l' =>
    (fix go (l l' : list ty) : bool :=
       match l, l' with
       | [], [] => true
       | x :: r, y :: r' => ty_eqb x y && go r r'
       | _, _ => false
       end) l l'
  | TClass c, TClass d => Nat.eqb c d
  | _, _ => false
  end.

(** Type<T>::idx of a type, type_registry.h:113-119. *)
Fixpoint find_ty (t : ty) (l : list (ty * N)) : option N :=
  match l with
  | [] => None
  | (u, i) :: r => if ty_eqb u t then Some i else find_ty t r
  end.

(** getTypeIdx<T>, type_registry.h:121-124 *)
Definition get_type_idx (r : treg) (t : ty) : option N := find_ty t (tr_idx r).

(** getTypeNameForIdx, type_registry.h:126-128.  Simplification: a lookup of an
    unknown index inserts an empty name in the source; here it is [None].  The accesses
    to the table that this makes are in Conc.v. *)
Fixpoint get_type_name (i : N) (l : list (N * ty)) : option ty :=
  match l with
  | [] => None
  | (j, t) :: r => if j =? i then Some t else get_type_name i r
  end.

(** ** Object registry *)

(** ObjectEntry, object_registry.h:58-80: the size, allocator and constructor are
    those of the class the entry was made for. *)
Record oentry := { oe_idx : nat; oe_class : nat }.

(** [or_reg r]: getRegistry<r>() (object_registry.h:95-99); [or_idx c]: the static member
    Type<c>::idx (90-93, 122-123). *)
Record oregs := {
  or_reg : nat -> list oentry;
  or_idx : nat -> option nat
}.
(** object_registry.h:93-97. *)
Definition oregs0 : oregs := {| or_reg := fun _ => []; or_idx := fun _ => None |}.

(** A static member of a class template has one value per type, object_registry.h:118-119. *)
Definition set_fun {B} (f : nat -> B) (x : nat) (b : B) : nat -> B :=
  fun y => if Nat.eqb y x then b else f y.

(** Registrar<ObjT>::Registrar, object_registry.h:99-116; [base]:
    checkpoint_base_type_t (registry_common.h:58-71). *)
Definition oreg_add (base : nat -> nat) (o : oregs) (c : nat) : oregs :=
  let b := base c in
  let i := length (or_reg o b) in
  {| or_reg := set_fun (or_reg o) b (or_reg o b ++ [{| oe_idx := i; oe_class := c |}]);
     or_idx := set_fun (or_idx o) c (Some i) |}.

(** Static initialisers run one after the other, object_registry.h:118-119. *)
Definition oregs_of (base : nat -> nat) (l : list nat) : oregs :=
  fold_left (oreg_add base) l oregs0.

(** allocateConcreteType / constructConcreteType / getSizeConcreteType,
    object_registry.h:127-140: vector::at, out_of_range for an unknown index.
    The result names the class whose allocator, constructor and size are used. *)
Definition concrete_class (o : oregs) (r : nat) (i : N) : res nat :=
  match nth_error (or_reg o r) (N.to_nat i) with
  | Some e => Ok (oe_class e)
  | None => Err RangeErr
  end.

(** ** Serializer registry *)

(** SerializerEntry, serializer_registry.h:57-73; [se_base = None]: no_type_idx;
    [se_fun]: the class and the serializer the type-erased function is for. *)
Record sentry := { se_this : nat; se_base : option nat; se_fun : nat * nat }.

(** [sr_reg c]: getRegistry<c>() (serializer_registry.h:89-93); [sr_idx c s]: Type<c, s>::idx (84-87, 127-129). *)
Record sregs := {
  sr_reg : nat -> list sentry;
  sr_idx : nat -> nat -> option nat
}.
(** serializer_registry.h:89-93. *)
Definition sregs0 : sregs := {| sr_reg := fun _ => []; sr_idx := fun _ _ => None |}.

(** Registrar<ObjT, SerializerT>::Registrar, serializer_registry.h:100-125 *)
Definition sreg_add (r : sregs) (p : nat * nat) : sregs :=
  let '(c, s) := p in
  let i := length (sr_reg r c) in
  {| sr_reg := set_fun (sr_reg r) c
       (sr_reg r c ++ [{| se_this := i; se_base := None; se_fun := (c, s) |}]);
     sr_idx := set_fun (sr_idx r) c (set_fun (sr_idx r c) s (Some i)) |}.

(** linkDerivedToBase<SerializerT, DerivedT, BaseT>,
    link_derived_to_base_idx.h:51-59.  Nothing happens for a pair that is not
    instantiated (serialize_instantiator.h:80-92). *)
Definition link (r : sregs) (s d b : nat) : sregs :=
  match sr_idx r d s, sr_idx r b s with
  | Some i, Some j =>
    match nth_error (sr_reg r d) i with
    | Some e =>
      {| sr_reg := set_fun (sr_reg r) d
           (upd (sr_reg r d) i {| se_this := se_this e; se_base := Some j; se_fun := se_fun e |});
         sr_idx := sr_idx r |}
    | None => r
    end
  | _, _ => r
  end.

(** instantiateObjSerializer<ObjT, SerializerTs...>, serialize_instantiator.h:
    102-124, with registerIt (64-77), for all serializers [ss]. *)
Definition link_all (base : nat -> nat) (ss : list nat) (r : sregs) (d : nat) : sregs :=
  fold_left (fun r s => link r s d (base d)) ss r.

(** getObjIdx<ObjT>(han), serializer_registry.h:131-145; [a]: assertions are
    compiled in, otherwise vector::at throws (line 138). *)
Definition get_obj_idx (a : bool) (r : sregs) (c : nat) (han : nat) : res (nat * nat) :=
  match nth_error (sr_reg r c) han with
  | Some e => Ok (se_fun e)
  | None => Err (if a then AssertErr else RangeErr)
  end.

(** getBaseIdx<DerivedT>(base_idx), serializer_registry.h:147-159: the first entry
    linked to [base_idx]; [a]: assertions are compiled in, otherwise the function
    returned is empty and calling it throws. *)
Fixpoint find_base (i : nat) (l : list sentry) : option sentry :=
  match l with
  | [] => None
  | e :: r =>
    match se_base e with
    | Some j => if Nat.eqb j i then Some e else find_base i r
    | None => find_base i r
    end
  end.
(** getBaseIdx, serializer_registry.h:147-159. *)
Definition get_base_idx (a : bool) (r : sregs) (d : nat) (i : nat) : res (nat * nat) :=
  match find_base i (sr_reg r d) with
  | Some e => Ok (se_fun e)
  | None => Err (if a then AssertErr else CallErr)
  end.

(** ** Dynamic serialization through the registries *)
Section Dyn.
Variable E : env.
Variable o : oregs.
Variable ss : list nat.     (* checkpoint_serializer_variadic_args(),
                               serializers_headers.h:55-64 *)
Variable s : nat.           (* the serializer that is running *)
Variable rec : ty -> list val -> prog (list val).

(** assertTypeIdxMatch<ObjT>, inheritance_assert_helpers.h:54-68; [None]:
    no_type_idx *)
Definition assert_idx (c : nat) (expected : option nat) : prog unit :=
  match expected with
  | None => Ret tt
  | Some i =>
    match or_idx o c with
    | Some j => if Nat.eqb i j || negb (asserts E) then Ret tt else Fail AssertErr
    | None => if asserts E then Fail AssertErr else Ret tt
    end
  end.

(** The type-erased function of an entry, serializer_registry.h:113-123.  Running
    the function of another serializer on this one reinterprets its memory. *)
Definition dispatcher (f : res (nat * nat)) (v : val) : prog val :=
  match f with
  | Ok (c, s') => if Nat.eqb s' s then SetV true (ser rec (TClass c) v) else Fail UB
  | Err e => Fail e
  end.

(** _checkpointDynamicSerialize of class [c], derived.h:53-81 and base.h:55-70.
    Returns the object and the registry after linking. *)
Fixpoint dyn_ser (n : nat) (c : nat) (ser_idx : nat) (expected : option nat)
  (v : val) (r : sregs) : prog (val * sregs) :=
  match n with
  | O => Fail NoFuel
  | S n' =>
    match cls E c with
    | None => Fail Stuck
    | Some k =>
      let r1 := link_all (root E) ss r c in
      assert_idx c expected;;;
      match cparent k with
      | None =>
        v' <- Note (EvRegistry c) (dispatcher (get_obj_idx (asserts E) r1 c ser_idx) v);;
        Ret (v', r1)
      | Some p =>
        x <- dyn_ser n' p ser_idx (or_idx o p) v r1;;
        let '(v1, r2) := x in
        v2 <- Note (EvRegistry c) (dispatcher (get_base_idx (asserts E) r2 c ser_idx) v1);;
        Ret (v2, r2)
      end
    end
  end.

(** virtualSerialize, virtual_serialize.h:60-66; the call is dispatched on the
    dynamic class of the object. *)
Definition virtual_serialize (v : val) (r : sregs) : prog (val * sregs) :=
  match v with
  | VObj d _ =>
    match sr_idx r (root E d) s with
    | Some i => dyn_ser (S d) d i None v r
    | None => Fail Stuck
    end
  | _ => Fail Stuck
  end.
End Dyn.
