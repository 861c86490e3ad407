(** Objects with raw and shared pointers that are serialized as the library documents it:
    the pattern for raw pointers in the comment of src/checkpoint/dispatch/
    dispatch_virtual.h:92-113, the one for std::shared_ptr in the comment of
    src/checkpoint/dispatch/vrt/virtual_serialize.h:190-216; both call
    reconstructPointedToObjectIfNeeded (217-230), which is [reconstruct_pointed] of
    Traverse.v.  A pointer is what it points to, or nothing; the object owns it.
    Simplification: no two pointers point to the same object. *)
From Coq Require Import List NArith Arith Bool.
From Verif Require Import Base Syntax Prog Serializers Traverse Views.
Import ListNotations.
Local Open Scope N_scope.
Local Open Scope prog_scope.

Section Pointers.
Variable E : env.
Variable m : mode.
Variable rec : ty -> list val -> prog (list val).

(** [s | *ptr], dispatch_virtual.h:110 and virtual_serialize.h:210: undefined behaviour
    if there is no object. *)
Definition follow (t : ty) (p : option val) : prog (option val) :=
  match p with
  | None => Fail UB
  | Some v => x <- ser rec t v;; Ret (Some x)
  end.

(** The member of MyObjectWithRawPointer, dispatch_virtual.h:100-112.  If the serialized
    pointer is null the member is left as it is. *)
Definition ser_raw (t : ty) (p : option val) : prog (option val) :=
  is_null <- ser_bool rec (match p with None => true | Some _ => false end);;
  if (is_null : bool) then Ret p
  else
    p1 <- reconstruct_pointed E m rec t p;;
    follow t p1.

(** The member of X, virtual_serialize.h:199-212: when unpacking over an object, the
    assignment of a second shared_ptr to the same object destroys it. *)
Definition ser_shared (t : ty) (p : option val) : prog (option val) :=
  p1 <- reconstruct_pointed E m rec t p;;
  p2 <- (if is_unpacking m then
           match p with Some _ => Fail UB | None => Ret p1 end
         else Ret p1);;
  follow t p2.

(** A member: whether it is a std::shared_ptr, and what it points to
    (dispatch_virtual.h:92-113, virtual_serialize.h:199-212). *)
Record member := { p_shared : bool; p_ty : ty }.

(** The serialize function of a class with such members: all of them in order
    (dispatch_virtual.h:92-113, virtual_serialize.h:199-212). *)
Fixpoint ser_members (ms : list member) (ps : list (option val)) : prog (list (option val)) :=
  match ms, ps with
  | k :: ms', p :: ps' =>
    x <- (if p_shared k then ser_shared (p_ty k) p else ser_raw (p_ty k) p);;
    r <- ser_members ms' ps';;
    Ret (x :: r)
  | [], [] => Ret []
  | _, _ => Fail Stuck
  end.
End Pointers.

Section PointersApi.
Variable E : env.
Variable f : nat.
(** Objects of such a class, called [name], as root objects: checkpoint_api.impl.h:56-80,
    dispatch.impl.h:236-292. *)
Definition root_pointers (m : mode) (name : ty) (ms : list member) (ps : list (option val))
  : prog (list (option val)) :=
  root_object E m name (ser_members E m (with_ E m f) ms ps).
(** serialize of such an object (checkpoint_api.impl.h:56-64). *)
Definition serialize_pointers (name : ty) (ms : list member) (ps : list (option val))
  : res (bytes * list (option val)) :=
  serialize_object (tix E name) (root_pointers MSizing name ms ps) (root_pointers MPacking name ms ps).
(** serializeToStream of such an object (checkpoint_api.impl.h:126-132). *)
Definition stream_pointers (name : ty) (ms : list member) (ps : list (option val))
  : res (bytes * list (option val)) :=
  stream_object (root_pointers MSizing name ms ps) (root_pointers MPacking name ms ps).
(** deserialize of such an object (checkpoint_api.impl.h:66-86). *)
Definition deserialize_pointers (name : ty) (ms : list member) (mem : bytes) (off : nat)
  (ws : list (option val)) : res (list (option val) * N) :=
  deserialize_object (root_pointers MUnpacking name ms ws) mem off.
End PointersApi.
