(** C52: what the statements say about raw and shared pointers. *)
From Coq Require Import List NArith Arith Bool.
From Verif Require Import Base Syntax Prog Serializers Traverse Spec ViewFacts Pointers.
Import ListNotations.
Local Open Scope N_scope.

(** The pointer [p] can be serialized as member [k]: it is null or points to an object of
    its type (a derived class if that is polymorphic), and a shared pointer is not null;
    [f] bounds the nesting of objects. *)
Definition pointer_ok (E : env) (f : nat) (k : member) (p : option val) : Prop :=
  has_ty E (TUnique (p_ty k)) (VOpt p) /\ (p_shared k = true -> p <> None) /\
  match p with Some v => (depth v < f)%nat | None => True end.

(** [p], serialized, can be read into a member [k] that is [w]: [w] is null, or [k] is a
    raw pointer and neither is null. *)
Definition over (E : env) (k : member) (p w : option val) : Prop :=
  match p with
  | None => w = None
  | Some v => if p_shared k then w = None
              else target Cany E (TUnique (p_ty k)) (VOpt (Some v)) (VOpt w)
  end.

(** Equal pointers: both null, or to equal objects. *)
Definition pointer_copy (p x : option val) : Prop := copy_of (VOpt p) (VOpt x).
