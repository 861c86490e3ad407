(** Selection of the serialization mechanism: the overloads of
    src/checkpoint/dispatch/dispatch_serializer_byte.h:57-81 and
    src/checkpoint/dispatch/dispatch_serializer_nonbyte.h:70-235, and the detection
    traits of src/checkpoint/traits/serializable_traits.h:68-159, 233-234 and
    src/checkpoint/dispatch/vrt/virtual_serialize_traits.h:55-103. *)
From Coq Require Import List Bool.
From Verif Require Import Base Syntax.
Import ListNotations.
Local Open Scope bool_scope.

(** What is detected about a type; [m] stands for the class of the serializer
    (serializable_traits.h:77-159, virtual_serialize_traits.h:55-92):
    - [q_marker]: T::isByteCopyable exists and converts to true_type (77-87);
    - [q_arith]: std::is_arithmetic (153-154);
    - [q_special]: ByteCopyNonIntrusive<T>::isByteCopyable (72-75, 159);
    - [q_enum]: std::is_enum;
    - [q_member m]: x.serialize(s) is well-formed (101-105);
    - [q_free m]: serialize(s, x) is found (107-113);
    - [q_parent m], [q_this m]: x.serializeParent(s), x.serializeThis(s) (116-124);
    - [q_base], [q_dynser], [q_dynidx]: the typedef and the two functions of the
      macros for virtual serialization (virtual_serialize_traits.h:58-92). *)
Record traits := {
  q_marker : bool;
  q_arith : bool;
  q_special : bool;
  q_enum : bool;
  q_member : mode -> bool;
  q_free : mode -> bool;
  q_parent : mode -> bool;
  q_this : mode -> bool;
  q_base : bool;
  q_dynser : bool;
  q_dynidx : bool
}.

(** is_bytecopyable, serializable_traits.h:157-159 *)
Definition q_bytes (q : traits) : bool := q_marker q || q_arith q || q_special q.
(** has_split_serialize, serializable_traits.h:144-145 *)
Definition q_split (q : traits) (m : mode) : bool := q_parent q m && q_this q m.
(** is_traversable, serializable_traits.h:134-135, 233-234 *)
Definition q_traversable (q : traits) (m : mode) : bool :=
  (q_member q m || q_free q m) || q_bytes q.
(** has_virtual_serialize, virtual_serialize_traits.h:95-98 *)
Definition q_virtual (q : traits) : bool := q_dynser q && q_dynidx q && q_base q.

(** What is done to the objects at [val], ..., [val + num - 1]; numbers are
    positions from [val]
    (dispatch_serializer_byte.h:71, dispatch_serializer_nonbyte.h:62, 66, 125-126,
    138, 171, 225). *)
Inductive call :=
| Copy (num : nat)
| Member (i : nat)
| Parent (i : nat)
| This (i : nat)
| Free (i : nat)
| Enum (i : nat)
| Sizeof (num : nat)
| Dynamic (i : nat).

(** Overload resolution between function templates that differ only in the
    enable_if condition of their last parameter: exactly one must be viable, and
    only its body is instantiated.  [None]: does not compile
    (dispatch_serializer_nonbyte.h:121-234). *)
Definition resolve {A} (l : list (bool * option A)) : option A :=
  match filter fst l with
  | [(_, o)] => o
  | _ => None
  end.

(** applyElm, dispatch_serializer_nonbyte.h:121-139 *)
Definition apply_elm (q : traits) (m : mode) : option (nat -> list call) :=
  resolve
    [(q_split q m, Some (fun i => [Parent i; This i]));
     (negb (q_split q m) && negb (q_enum q), Some (fun _ => []));
     (q_enum q, Some (fun i => [Enum i]))].

(** The loops of applyStatic, dispatch_serializer_nonbyte.h:183-186, 198-200,
    212-214 *)
Fixpoint for_each (body : nat -> list call) (i num : nat) : list call :=
  match num with
  | O => []
  | S k => body i ++ for_each body (S i) k
  end.

(** applyStatic, dispatch_serializer_nonbyte.h:112-119, 152-215 *)
Definition apply_static (q : traits) (m : mode) : option (nat -> list call) :=
  resolve
    [(is_footprinting m && negb (q_traversable q m) && negb (q_enum q),
      Some (fun num => [Sizeof num]));
     (q_member q m,
      match apply_elm q m with
      | Some e => Some (for_each (fun i => Member i :: e i) 0)
      | None => None
      end);
     (q_free q m, Some (for_each (fun i => [Free i]) 0));
     (q_enum q,
      match apply_elm q m with
      | Some e => Some (for_each e 0)
      | None => None
      end)].

(** apply, dispatch_serializer_nonbyte.h:217-234: the calls, and the virtual flag
    afterwards, given the number of objects and the flag; virtualSerialize sets the
    flag itself while it runs (serializer_registry.h:116-122). *)
Definition apply (q : traits) (m : mode) : option (nat -> bool -> list call * bool) :=
  resolve
    [(q_virtual q,
      match apply_static q m with
      | Some f => Some (fun num disabled =>
          if disabled : bool then (f num, false) else ([Dynamic 0], false))
      | None => None
      end);
     (negb (q_virtual q),
      match apply_static q m with
      | Some f => Some (fun num disabled => (f num, disabled))
      | None => None
      end)].

(** SerializerDispatchByte::operator(), dispatch_serializer_byte.h:67-80, and
    SerializerDispatchNonByte::operator(), dispatch_serializer_nonbyte.h:79-82 *)
Definition dispatch (q : traits) (m : mode) : option (nat -> bool -> list call * bool) :=
  resolve
    [(q_bytes q, Some (fun num disabled => ([Copy num], disabled)));
     (negb (q_bytes q), apply q m)].

(** One class of an inheritance chain: its own typedef isByteCopyable, if any, and
    whether it declares a serialize function template of its own
    (serializable_traits.h:77-87, 101-105). *)
Record decl := {
  d_marker : option bool;
  d_serialize : bool
}.

(** Name lookup in a class given as its chain, most derived class first: the first
    declaration found hides those of the bases (serializable_traits.h:81, 103). *)
Fixpoint lookup {A} (f : decl -> option A) (l : list decl) : option A :=
  match l with
  | [] => None
  | d :: r => match f d with Some a => Some a | None => lookup f r end
  end.

(** The traits of a class without virtual serialization and without free functions:
    what serializable_traits.h:77-124 detects. *)
Definition class_traits (l : list decl) : traits := {|
  q_marker := match lookup d_marker l with Some b => b | None => false end;
  q_arith := false;
  q_special := false;
  q_enum := false;
  q_member := fun _ => existsb d_serialize l;
  q_free := fun _ => false;
  q_parent := fun _ => false;
  q_this := fun _ => false;
  q_base := false;
  q_dynser := false;
  q_dynidx := false
|}.
