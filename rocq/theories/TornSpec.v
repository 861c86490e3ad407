(** What a read that throws may leave behind: specification only.

    Nothing here refers to programs, serializers or the traversal. *)
From Coq Require Import List NArith Arith Bool.
From Verif Require Import Base Syntax Spec.
Import ListNotations.
Local Open Scope N_scope.

(** Containers whose elements are first read into memory outside the container: the element
    is put into the container when it is complete. *)
Definition in_raw (E : env) (ct t : ty) : Prop :=
  match ct with
  | TList _ t' | TQueue t' | TAssoc _ t' | TOptional t' => t = t'
  | TVariant ts => bytecopy E ct = false /\ In t ts
  | _ => False
  end.

(** Parts [vs] were to be read over [ws], in the order [order], and [xs] is what there is
    now: the first ones have been read, at most one is in between, the others are as they
    were. *)
Definition partly (order : list nat) (vs ws xs : list val) : Prop :=
  length xs = length ws /\
  exists n, forall j i v w x,
    nth_error order j = Some i ->
    nth_error vs i = Some v -> nth_error ws i = Some w -> nth_error xs i = Some x ->
    ((j < n)%nat -> copy_of v x) /\ ((n < j)%nat -> x = w).

(** Types that reading replaces whatever they held: nothing is appended to, no object behind a
    pointer that could be of another class. *)
Definition replaced (E : env) (t : ty) : Prop :=
  match t with
  | TQueue _ | TAssoc _ _ => False
  | TList _ t' => copyc E t' = true
  | TVector t' => defc E t' = true \/ copyc E t' = true
  | TUnique t' => is_virtual E t' = false
  | _ => True
  end.

(** Types whose value is assigned in one step, when all of it has been read. *)
Definition at_once (E : env) (t : ty) : Prop :=
  match t with
  | TOptional _ | TEnum _ _ _ | TChrono _ _ _ => True
  | TVariant _ => bytecopy E t = false
  | _ => False
  end.
