(** Calls made while the static initialisers of the program are still running.

    The static members that hold the indices of types and classes are initialised
    dynamically and in an unspecified order (type_registry.h:118-119,
    object_registry.h:118-119, serializer_registry.h:127-129).  Until then they are zero,
    like every object with static storage duration. *)
From Coq Require Import List NArith Arith Bool.
From Verif Require Import Base Syntax Prog Traverse Registry.
Import ListNotations.
Local Open Scope N_scope.
Local Open Scope prog_scope.

(** getTypeIdx<T>() after the initialisers of [types] have run, type_registry.h:113-124 *)
Definition type_idx_at (types : list ty) (t : ty) : N :=
  match get_type_idx (treg_of types) t with Some i => i | None => 0 end.

(** The program after the initialisers for [types] and for the polymorphic classes [regs]
    have run, type_registry.h:118-119, object_registry.h:101-119. *)
Definition at_startup (E : env) (types : list ty) (regs : list nat) : env := {|
  cls := cls E; szof := szof E; tix := type_idx_at types; chk := chk E; asserts := asserts E;
  defc := defc E; copyc := copyc E; movec := movec E; less := less E; keq := keq E;
  hplace := hplace E;
  oreg := fun r => map oe_class (or_reg (oregs_of (root E) regs) r)
|}.

(** The value of a static member whose initialiser may not have run
    (object_registry.h:118-119, serializer_registry.h:127-129). *)
Definition static_idx (o : option nat) : nat := match o with Some i => i | None => O end.

Section Early.
Variable E : env.
Variable o : oregs.
Variable ss : list nat.
Variable s : nat.
Variable rec : ty -> list val -> prog (list val).

(** linkDerivedToBase, link_derived_to_base_idx.h:51-59; getObjIdxRef asserts that the entry
    exists, otherwise vector::at throws, serializer_registry.h:131-140. *)
Definition early_link (r : sregs) (s d b : nat) : res sregs :=
  let i := static_idx (sr_idx r d s) in
  match nth_error (sr_reg r d) i with
  | Some e =>
    Ok {| sr_reg := set_fun (sr_reg r) d
            (upd (sr_reg r d) i {| se_this := se_this e;
                                   se_base := Some (static_idx (sr_idx r b s)); se_fun := se_fun e |});
          sr_idx := sr_idx r |}
  | None => Err (if asserts E then AssertErr else RangeErr)
  end.

(** instantiateObjSerializer<ObjT, SerializerTs...>, serialize_instantiator.h:64-77, 96-124.
    Simplification: the class can be serialized by all of [l]. *)
Fixpoint early_link_all (l : list nat) (r : sregs) (d : nat) : res sregs :=
  match l with
  | [] => Ok r
  | s' :: l' =>
    match early_link r s' d (root E d) with
    | Ok r' => early_link_all l' r' d
    | Err e => Err e
    end
  end.

(** assertTypeIdxMatch<ObjT>, inheritance_assert_helpers.h:54-68 *)
Definition early_assert_idx (c : nat) (expected : option nat) : prog unit :=
  match expected with
  | None => Ret tt
  | Some i => if Nat.eqb i (static_idx (or_idx o c)) || negb (asserts E) then Ret tt else Fail AssertErr
  end.

(** _checkpointDynamicSerialize of class [c], derived.h:53-81 and base.h:55-70. *)
Fixpoint early_dyn_ser (n : nat) (c : nat) (ser_idx : nat) (expected : option nat)
  (v : val) (r : sregs) : prog (val * sregs) :=
  match n with
  | O => Fail NoFuel
  | S n' =>
    match cls E c with
    | None => Fail Stuck
    | Some k =>
      match early_link_all ss r c with
      | Err e => Fail e
      | Ok r1 =>
        early_assert_idx c expected;;;
        match cparent k with
        | None =>
          v' <- Note (EvRegistry c) (dispatcher s rec (get_obj_idx (asserts E) r1 c ser_idx) v);;
          Ret (v', r1)
        | Some p =>
          x <- early_dyn_ser n' p ser_idx (Some (static_idx (or_idx o p))) v r1;;
          let '(v1, r2) := x in
          v2 <- Note (EvRegistry c) (dispatcher s rec (get_base_idx (asserts E) r2 c ser_idx) v1);;
          Ret (v2, r2)
        end
      end
    end
  end.

(** virtualSerialize, virtual_serialize.h:60-66 *)
Definition early_virtual_serialize (v : val) (r : sregs) : prog (val * sregs) :=
  match v with
  | VObj d _ => early_dyn_ser (S d) d (static_idx (sr_idx r (root E d) s)) None v r
  | _ => Fail Stuck
  end.
End Early.
