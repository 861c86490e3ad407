(** Specification of objects that contain Kokkos views and maps: which ones a program can
    hold, which may be read into, and when one is a copy of another.

    Nothing here refers to programs or serializers. *)
From Coq Require Import List NArith Arith Bool.
From Verif Require Import Base Syntax Spec Views ViewSpec KMap Members.
Import ListNotations.
Local Open Scope N_scope.

Section Spec.
Variable E : env.
Variable span : list N -> list N -> N.
Variable K : kokkos_map.
Variable f : nat.

(** Types that can be read back: views of elements that are neither constant nor
    polymorphic and can be default constructed, managed by Kokkos; maps whose keys and
    values can be constructed; vectors, optionals and pointers of types that can be default
    constructed. *)
Fixpoint kty_ok (k : kty) : Prop :=
  match k with
  | KVal _ => True
  | KView vt => vt_const vt = false /\ vt_managed vt = true /\
                is_virtual E (vt_elem vt) = false /\ dflt E (vt_elem vt) <> None
  | KDynRank vt => is_virtual E (vt_elem vt) = false /\ dflt E (vt_elem vt) <> None
  | KDynamic _ t => dflt E t <> None
  | KMap _ kt vt => constructible E kt /\ constructible E vt
  | KClass _ ms => (fix all (ks : list kty) := match ks with
                                               | [] => True
                                               | k :: r => kty_ok k /\ all r
                                               end) ms
  | KVec _ k => kty_ok k /\ blank E k <> None /\ (forall t, k <> KVal t)
  | KOpt _ k | KPtr _ k => kty_ok k /\ blank E k <> None
  end.

(** Objects that a program can hold; [f] bounds the nesting of plain values. *)
Fixpoint kheld (k : kty) (v : kval) : Prop :=
  match k, v with
  | KVal t, OVal x => has_ty E t x /\ (depth x < f)%nat
  | KView vt, OView x => view_ok E span vt f x
  | KDynRank vt, OView x => dyn_ok E span vt f x
  | KDynamic _ t, ODynamic x => dview_ok E t f x /\ d_chunk x < 2 ^ 32 /\ allocation_extent x < 2 ^ 32
  | KMap _ kt vt, OMap x => kmap_ok E K kt vt f x /\ no_leftover K x
  | KClass _ ms, OObj vs =>
      (fix all (ks : list kty) (vs : list kval) := match ks, vs with
         | [], [] => True
         | k :: ks', v :: vs' => kheld k v /\ all ks' vs'
         | _, _ => False
         end) ms vs
  | KVec _ k, OVec cap l => Forall (kheld k) l /\ len l <= cap /\ cap < two64
  | KOpt _ k, OOpt o | KPtr _ k, OOpt o => match o with Some v => kheld k v | None => True end
  | _, _ => False
  end.

(** Objects that may be overwritten with [v]: of the same type, with plain members that
    may be overwritten with those of [v], and with empty maps (except behind a pointer
    or in an optional that is not kept). *)
Fixpoint over (k : kty) (v w : kval) : Prop :=
  match k, v, w with
  | KVal t, OVal x, OVal y => target (fun _ _ => True) E t x y
  | KView _, OView _, OView _ => True
  | KDynRank _, OView _, OView _ => True
  | KDynamic _ _, ODynamic _, ODynamic _ => True
  | KMap _ _ _, OMap _, OMap y => occupied y = []
  | KClass _ ms, OObj vs, OObj ws =>
      (fix all (ks : list kty) (vs ws : list kval) := match ks, vs, ws with
         | [], [], [] => True
         | k :: ks', v :: vs', w :: ws' => over k v w /\ all ks' vs' ws'
         | _, _, _ => False
         end) ms vs ws
  | KVec _ k, OVec _ l, OVec _ l' => forall x y, In x l -> In y l' -> over k x y
  | KOpt _ _, OOpt _, OOpt _ => True
  | KPtr _ k, OOpt o, OOpt o' =>
      match o, o' with Some x, Some y => over k x y | _, _ => True end
  | _, _, _ => False
  end.

(** Copies: every view is allocated and has the label, extents and elements of the original one
    (a view of dynamic rank that never was allocated is not), every map has the keys and values, and
    every plain member is a copy. *)
Fixpoint kcopy (k : kty) (v x : kval) : Prop :=
  match k, v, x with
  | KVal _, OVal a, OVal b => copy_of a b
  | KView vt, OView a, OView b => view_copy (vt_kind vt) a b /\ v_live b = true
  | KDynRank vt, OView a, OView b =>
      (v_live a = true -> view_copy (vt_kind vt) a b /\ v_live b = true) /\ (a = no_view -> b = no_view)
  | KDynamic _ _, ODynamic a, ODynamic b =>
      d_label b = d_label a /\ d_chunk b = d_chunk a /\ Forall2 copy_of (d_elems a) (d_elems b)
  | KMap _ _ _, OMap a, OMap b => kmap_copy a b
  | KClass _ ms, OObj vs, OObj xs =>
      (fix all (ks : list kty) (vs xs : list kval) := match ks, vs, xs with
         | [], [], [] => True
         | k :: ks', v :: vs', x :: xs' => kcopy k v x /\ all ks' vs' xs'
         | _, _, _ => False
         end) ms vs xs
  | KVec _ k, OVec cap l, OVec cap' l' => cap <= cap' /\ Forall2 (kcopy k) l l'
  | KOpt _ k, OOpt o, OOpt o' | KPtr _ k, OOpt o, OOpt o' =>
      match o, o' with
      | Some a, Some b => kcopy k a b
      | None, None => True
      | _, _ => False
      end
  | _, _, _ => False
  end.
End Spec.
