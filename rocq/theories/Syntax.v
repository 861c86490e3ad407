(** The universe of C++ types the model covers, their values, and the
    environment (class table, traits, registries) a program is compiled in. *)
From Coq Require Import List NArith Arith Bool.
From Coq.Strings Require Import Byte.
From Verif Require Import Base.
Import ListNotations.

(** src/checkpoint/serializers/base_serializer.h:54-61 [eSerializationMode]
    ("Invalid" is not constructible by any serializer and is left out). *)
Inductive mode := MNone | MUnpacking | MPacking | MSizing | MFootprinting.

(** src/checkpoint/serializers/base_serializer.h:100-121 *)
Definition is_unpacking (m : mode) := match m with MUnpacking => true | _ => false end.
(** isPacking, base_serializer.h:107. *)
Definition is_packing (m : mode) := match m with MPacking => true | _ => false end.
(** isSizing, base_serializer.h:100. *)
Definition is_sizing (m : mode) := match m with MSizing => true | _ => false end.
(** isFootprinting, base_serializer.h:121. *)
Definition is_footprinting (m : mode) := match m with MFootprinting => true | _ => false end.

(** The eight associative containers of src/checkpoint/container/map_serialize.h:
    99-137, by ordering discipline, key uniqueness, and whether the elements are
    pairs of a constant key and a value (map) or the keys (set). *)
Inductive assoc := AOrd (multi map : bool) | AHash (multi map : bool).

(** Types.  Each constructor names the overload that serializes it.
    - [TPrim id sz]: arithmetic types and types with the byte-copy trait
      (src/checkpoint/traits/serializable_traits.h:157-159); [sz] = sizeof;
    - [TEnum id uid usz]: enum whose underlying type is [TPrim uid usz]
      (src/checkpoint/container/enum_serialize.h:54-63);
    - [TChrono id uid usz]: std::chrono::duration with that Rep
      (src/checkpoint/container/chrono_serialize.h:53-58);
    - [TString]: src/checkpoint/container/string_serialize.h;
    - [TVector], [TVecBool]: src/checkpoint/container/vector_serialize.h;
    - [TArray]: src/checkpoint/container/array_serialize.h:54-57; Kokkos::Array,
      kokkos_array.h:57-67, is serialized the same way;
    - [TList dq t]: std::list / std::deque, src/checkpoint/container/list_serialize.h;
    - [TQueue]: std::queue, src/checkpoint/container/queue_serialize.h:54-95;
    - [TAssoc k t]: sets and maps, element type [t] (a pair for maps),
      src/checkpoint/container/map_serialize.h;
    - [TPair], [TTuple]: src/checkpoint/container/tuple_serialize.h;
    - [TOptional]: src/checkpoint/container/optional_serialize.h;
    - [TVariant]: src/checkpoint/container/variant_serialize.h;
    - [TUnique]: src/checkpoint/container/unique_ptr_serialize.h;
    - [TClass c]: user class number [c] of the class table.  Kokkos::complex
      (kokkos_complex_serialize.h:59-64) and Kokkos::pair
      (kokkos_pair_serialize.h:59-70) are classes of two members, or one;
    - footprint-only types: [TShared] (shared_ptr_serialize.h), [TRaw]
      (raw_ptr_serialize.h:60-80), [TAdaptor] (stack and priority_queue,
      queue_serialize.h:97-117), [TCounted id sz] (atomic_serialize.h:53-62,
      function_serialize.h:61-76, thread_serialize.h:53-61, and void*, FILE* etc.,
      raw_ptr_serialize.h:82-117: only countBytes), [TOpaque id sz] (types without any
      serialize function, dispatch_serializer_nonbyte.h:152-172). *)
Inductive ty :=
| TPrim (id sz : nat)
| TEnum (id uid usz : nat)
| TChrono (id uid usz : nat)
| TString
| TVector (t : ty)
| TVecBool
| TArray (n : nat) (t : ty)
| TList (deque : bool) (t : ty)
| TQueue (t : ty)
| TAssoc (k : assoc) (t : ty)
| TPair (a b : ty)
| TTuple (ts : list ty)
| TOptional (t : ty)
| TVariant (ts : list ty)
| TUnique (t : ty)
| TClass (c : nat)
| TShared (t : ty)
| TRaw (t : ty)
| TAdaptor (t : ty)
| TCounted (id sz : nat)
| TOpaque (id sz : nat).

(** Values.
    - [VB b]: object representation of a scalar / byte-copyable object;
    - [VStr cap b]: string with capacity;
    - [VVec cap l]: vector with capacity;
    - [VSeq l]: array, list, deque, queue, ordered set/map, pair, tuple, stack;
    - [VBag l]: unordered container, [l] in iteration order;
    - [VOpt o]: optional, unique_ptr, shared_ptr, raw pointer;
    - [VVar i v]: variant holding alternative [i]; [VVarNone]: valueless;
    - [VObj c ls]: object of dynamic class [c]; [ls] = members of each class on
      the inheritance chain, root first.
    Simplification: pointers own their pointee (no sharing, no cycles)
    (unique_ptr_serialize.h:53-80 and the other files of container). *)
Inductive val :=
| VB (b : bytes)
| VStr (cap : N) (b : bytes)
| VVec (cap : N) (l : list val)
| VSeq (l : list val)
| VBag (l : list val)
| VOpt (o : option val)
| VVar (i : nat) (v : val)
| VVarNone
| VObj (c : nat) (ls : list (list val)).

(** Types of the words the library itself writes (common.h:126). *)
Definition SIZE := TPrim 0 8.     (* size_t: SerialSizeType, common.h:126 *)
Definition BOOL := TPrim 1 1.     (* bool *)
(** vrt::TypeIdx, registry_common.h:51. *)
Definition INT := TPrim 3 4.      (* vrt::TypeIdx = int, registry_common.h:51 *)
Definition CHAR := TPrim 4 1.     (* char *)

(** A user class.
    - [csize]: sizeof;
    - [cvirt]: has virtual serialization (virtual_serialize_traits.h:55-103);
    - [cbyte]: byte-copyable trait (serializable_traits.h:68-75, 157-159);
    - [cparent]: base class named in checkpoint_virtual_serialize_derived_from;
    - [cfields]: member types; [cser m]: indices of the members its [serialize]
      visits with [s | member], in order, when run in mode [m].
      Simplification: a user [serialize] is a straight-line sequence of
      [s | member] that may depend on the mode only (an explicit call
      Base::serialize(s) of a non-virtual base is inlined; split serialize,
      dispatch_serializer_nonbyte.h:121-127, likewise);
    - [ctag], [crecon], [cdefault]: what the tagged constructor, the reconstruct
      function and the default constructor build, if they exist
      (reconstructor.h:56-145): members of every class on the chain. *)
Record class := {
  csize : N;
  cvirt : bool;
  cbyte : bool;
  cparent : option nat;
  cfields : list ty;
  cser : mode -> list nat;
  ctag : option (list (list val));
  crecon : option (list (list val));
  cdefault : option (list (list val))
}.

(** The environment.
    - [cls]: class table (a base class has a smaller number than the classes
      derived from it);
    - [szof]: sizeof of the non-scalar types;
    - [tix]: type index of each type (type_registry.h:113-124), see Registry.v;
    - [chk]: compiled with SERIALIZATION_ERROR_CHECKING (dispatch.impl.h:142);
    - [asserts]: compiled without NDEBUG, so that a checkpointAssert that does not
      hold ends the process; otherwise a message is printed and execution goes on
      (common.h:84-103);
    - [defc], [copyc]: std::is_default_constructible / is_copy_constructible
      as used by vector_serialize.h:74-96 and list_serialize.h:63-83;
    - [movec]: moving from an object leaves it owning no storage (false: the move
      is a copy, as for a class that declares its copy constructor only);
    - [less k], [keq k]: comparator / key equality of container type [k] on
      elements; [hplace k l x]: element order of an unordered container after
      inserting [x] into [l];
    - [oreg r]: classes of the hierarchy with root [r] in registration order
      (object_registry.h:93-119), see Registry.v. *)
Record env := {
  cls : nat -> option class;
  szof : ty -> N;
  tix : ty -> N;
  chk : bool;
  asserts : bool;
  defc : ty -> bool;
  copyc : ty -> bool;
  movec : ty -> bool;
  less : ty -> val -> val -> bool;
  keq : ty -> val -> val -> bool;
  hplace : ty -> list val -> val -> list val;
  oreg : nat -> list nat
}.

(** sizeof(T) (contiguousTyped, base_serializer.h:162-165). *)
Definition sizeof (E : env) (t : ty) : N :=
  match t with
  | TPrim _ sz | TEnum _ _ sz | TChrono _ _ sz
  | TCounted _ sz | TOpaque _ sz => N.of_nat sz
  | TClass c => match cls E c with Some k => csize k | None => 0%N end
  | _ => szof E t
  end.

(** SerializableTraits<T>::is_bytecopyable,
    src/checkpoint/traits/serializable_traits.h:157-159; a variant is
    byte-copyable if all its alternatives are,
    src/checkpoint/container/variant_serialize.h:93-116. *)
Fixpoint bytecopy (E : env) (t : ty) : bool :=
  match t with
  | TPrim _ _ => true
  | TVariant ts => forallb (bytecopy E) ts
  | TClass c => match cls E c with Some k => cbyte k | None => false end
  | _ => false
  end.

(** VirtualSerializeTraits<T>::has_virtual_serialize,
    src/checkpoint/dispatch/vrt/virtual_serialize_traits.h:55-103. *)
Definition is_virtual (E : env) (t : ty) : bool :=
  match t with
  | TClass c => match cls E c with Some k => cvirt k | None => false end
  | _ => false
  end.

(** The inheritance chain of a class, root first: the classes whose
    _checkpointDynamicSerialize run, src/checkpoint/dispatch/vrt/derived.h:70-71
    (PARENT::...) down to src/checkpoint/dispatch/vrt/base.h:55-70. *)
Fixpoint chain_n (n : nat) (E : env) (c : nat) : list nat :=
  match n with
  | O => []
  | S n' =>
    match cls E c with
    | None => []
    | Some k =>
      match cparent k with
      | None => [c]
      | Some p => chain_n n' E p ++ [c]
      end
    end
  end.
(** The classes from the root to [c], derived.h:70-71, base.h:55-70. *)
Definition chain (E : env) (c : nat) : list nat := chain_n (S c) E c.

(** checkpoint_base_type_t: the root of the hierarchy,
    src/checkpoint/dispatch/vrt/registry_common.h:58-71. *)
Definition root (E : env) (c : nat) : nat := hd c (chain E c).

(** Position of the members of class [c] in the member lists of an object
    (derived.h:53-81). *)
Definition level (E : env) (c : nat) : nat := pred (length (chain E c)).

(** Position of a class in its object registry, object_registry.h:99-119. *)
Fixpoint index_of (c : nat) (l : list nat) : option nat :=
  match l with
  | [] => None
  | x :: r => if Nat.eqb x c then Some O else option_map S (index_of c r)
  end.

(** objregistry::makeObjIdx<T>, src/checkpoint/dispatch/vrt/object_registry.h:
    118-145: position of the class in the vector of its hierarchy.
    None: the class was never registered. *)
Definition obj_idx (E : env) (c : nat) : option nat :=
  index_of c (oreg E (root E c)).

(** Precedence of construction mechanisms, reconstructor.h:58-145. *)
Definition first_some {A} (a b : option A) : option A :=
  match a with Some _ => a | None => b end.

(** Sequence a list of optional results (tuple_serialize.h:63-68). *)
Fixpoint opt_all {A} (l : list (option A)) : option (list A) :=
  match l with
  | [] => Some []
  | None :: _ => None
  | Some a :: r => option_map (cons a) (opt_all r)
  end.

(** [T{}] / value-initialisation.  [None]: not default constructible (the C++
    program does not compile).  Class members: what the default constructor
    builds.  libstdc++'s empty string has capacity 15 (reconstructor.h:60-66). *)
Fixpoint dflt (E : env) (t : ty) : option val :=
  match t with
  | TPrim _ sz | TEnum _ _ sz | TChrono _ _ sz => Some (VB (repeat x00 sz))
  | TString => Some (VStr 15 [])
  | TVector _ | TVecBool => Some (VVec 0 [])
  | TArray n t' => option_map (fun v => VSeq (repeat v n)) (dflt E t')
  | TList _ _ | TQueue _ | TAssoc (AOrd _ _) _ | TAdaptor _ => Some (VSeq [])
  | TAssoc (AHash _ _) _ => Some (VBag [])
  | TPair a b =>
    match dflt E a, dflt E b with
    | Some x, Some y => Some (VSeq [x; y])
    | _, _ => None
    end
  | TTuple ts => option_map VSeq (opt_all (map (dflt E) ts))
  | TOptional _ | TUnique _ | TShared _ | TRaw _ => Some (VOpt None)
  | TVariant ts =>
    if bytecopy E t then Some (VB (repeat x00 (N.to_nat (szof E t))))
    else match ts with
         | [] => None
         | t0 :: _ => option_map (VVar 0) (dflt E t0)
         end
  | TClass c =>
    match cls E c with
    | Some k =>
      if cbyte k && negb (cvirt k)
      then Some (VB (repeat x00 (N.to_nat (csize k))))
      else option_map (VObj c) (cdefault k)
    | None => None
    end
  | TCounted _ sz | TOpaque _ sz => Some (VB (repeat x00 sz))
  end.

(** [Reconstructor<T>::construct], src/checkpoint/dispatch/reconstructor.h:
    128-145: tagged constructor, else reconstruct, else default constructor.
    For tuples CheckpointReconstructor reconstructs each element
    (src/checkpoint/container/tuple_serialize.h:63-68, 82-89). *)
Fixpoint recon (E : env) (t : ty) : option val :=
  match t with
  | TTuple ts => option_map VSeq (opt_all (map (recon E) ts))
  | TClass c =>
    match cls E c with
    | Some k =>
      if cbyte k && negb (cvirt k)
      then Some (VB (repeat x00 (N.to_nat (csize k))))
      else option_map (VObj c)
             (first_some (ctag k) (first_some (crecon k) (cdefault k)))
    | None => None
    end
  | _ => dflt E t
  end.
