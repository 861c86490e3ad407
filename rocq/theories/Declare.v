(** Hierarchies in which some class was not declared to the library.

    A class takes part in virtual serialization by inheriting SerializableBase /
    SerializableDerived or by expanding checkpoint_virtual_serialize_root() /
    checkpoint_virtual_serialize_derived_from(PARENT) in its body:
    src/checkpoint/dispatch/vrt/base.h:54-96 and
    src/checkpoint/dispatch/vrt/derived.h:53-128.  A class that does neither
    inherits the functions of the nearest class above it that does.  Registry.v is
    about hierarchies in which every class is declared; here any class may be
    missing, and a declaration may name another class than the direct base. *)
From Coq Require Import List NArith Arith Bool.
From Verif Require Import Base Syntax Prog Traverse Registry.
Import ListNotations.
Local Open Scope N_scope.
Local Open Scope prog_scope.

Section Declare.
Variable E : env.           (* [cparent]: the direct base class in the program *)
Variable declared : nat -> bool.   (* the class overrides the functions of
                                      derived.h:54-86 or base.h:56-77 *)
Variable named : nat -> nat.       (* PARENT of derived.h:53, read for declared
                                      classes below the root only *)
Variable o : oregs.
Variable ss : list nat.
Variable s : nat.
Variable rec : ty -> list val -> prog (list val).

(** C::_checkpointDynamicSerialize for the class [c] where the call names it or
    where it is the dynamic class of the object: the body of derived.h:54-81
    (below the root) or base.h:56-70 (root) when [c] is declared, the inherited
    function otherwise.  Simplification: a root that is not declared does not
    compile ([Stuck]). *)
Fixpoint dyn_ser_decl (n : nat) (c : nat) (ser_idx : nat) (expected : option nat)
  (v : val) (r : sregs) : prog (val * sregs) :=
  match n with
  | O => Fail NoFuel
  | S n' =>
    match cls E c with
    | None => Fail Stuck
    | Some k =>
      if declared c then
        let r1 := link_all (root E) ss r c in
        assert_idx E o c expected;;;
        match cparent k with
        | None =>
          v' <- Note (EvRegistry c)
                  (dispatcher s rec (get_obj_idx (asserts E) r1 c ser_idx) v);;
          Ret (v', r1)
        | Some _ =>
          x <- dyn_ser_decl n' (named c) ser_idx (or_idx o (named c)) v r1;;
          let '(v1, r2) := x in
          v2 <- Note (EvRegistry c)
                  (dispatcher s rec (get_base_idx (asserts E) r2 c ser_idx) v1);;
          Ret (v2, r2)
        end
      else
        match cparent k with
        | None => Fail Stuck
        | Some p => dyn_ser_decl n' p ser_idx expected v r
        end
    end
  end.

(** virtualSerialize, virtual_serialize.h:60-66. *)
Definition virtual_serialize_decl (v : val) (r : sregs) : prog (val * sregs) :=
  match v with
  | VObj d _ =>
    match sr_idx r (root E d) s with
    | Some i => dyn_ser_decl (S d) d i None v r
    | None => Fail Stuck
    end
  | _ => Fail Stuck
  end.

(** The class whose index _checkpointDynamicTypeIndex returns for an object of
    class [c], derived.h:82-86 and base.h:71-75: the function is inherited like
    the one above.  This is the class a pointer to the object is restored to
    (virtual_serialize.h:105-127). *)
Fixpoint recorded_class (n : nat) (c : nat) : option nat :=
  match n with
  | O => None
  | S n' =>
    if declared c then Some c
    else match cls E c with
         | Some k => match cparent k with
                     | Some p => recorded_class n' p
                     | None => None
                     end
         | None => None
         end
  end.
End Declare.
