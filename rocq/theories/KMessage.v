(** Specification: what the message of a serialization_error has to say when objects contain
    Kokkos views and maps. *)
From Coq Require Import List NArith Arith Bool.
From Verif Require Import Base Syntax Prog Views Members Message.
Import ListNotations.
Local Open Scope N_scope.

(** Objects that are read: those without Kokkos objects in them, the others, and the layouts
    of views. *)
Inductive item :=
| IPlain (t : ty)
| IObject (k : kty)
| ILayout (name : ty).
Definition item_of (k : kty) : item := match k with KVal t => IPlain t | _ => IObject k end.
(** The type by which messages call them. *)
Definition item_name (i : item) : ty :=
  match i with IPlain t => t | IObject k => name_of k | ILayout n => n end.

(** The types of 32-bit unsigned numbers, and of the numbers of elements and dimensions. *)
Definition UINT : ty := TPrim 2 4.

(** What can be read directly on behalf of an object. *)
Definition contents_of (k : kty) : list item :=
  match k with
  | KVal _ => []
  | KView vt => [IPlain TString; IPlain INT; ILayout (vt_layout_name vt); IPlain SIZE; IPlain BOOL;
                 IPlain (vt_elem vt)]
  | KDynRank vt => [IPlain TString; IPlain UINT; ILayout (vt_layout_name vt); IPlain SIZE;
                    IPlain BOOL; IPlain (vt_elem vt)]
  | KDynamic _ t => [IPlain TString; IPlain SIZE; IPlain t]
  | KMap _ kt vt => [IPlain UINT; IPlain kt; IPlain vt]
  | KClass _ ms => map item_of ms
  | KVec _ k => [IPlain SIZE; item_of k]
  | KOpt _ k | KPtr _ k => [IPlain BOOL; item_of k]
  end.
Inductive inside (E : env) : item -> item -> Prop :=
| InPlain t u : direct E t u -> inside E (IPlain t) (IPlain u)
| InObject k i : In i (contents_of k) -> inside E (IObject k) i
| InLayout n : inside E (ILayout n) (IPlain SIZE).

(** [enclosed E i is r]: the object [i] inside the objects [is], innermost first, the
    outermost of which is the object [r] the call is about. *)
Inductive enclosed (E : env) : item -> list item -> item -> Prop :=
| EnRoot r : enclosed E r [] r
| EnIn i j is r : inside E j i -> enclosed E j is r -> enclosed E i (j :: is) r.

(** The lines [ls] of an error of depth [d] say what is wrong with which object and list the
    [d] objects around it, numbered from the inside. *)
Definition accounted (E : env) (r : item) (d : nat) (ls : list line) : Prop :=
  exists i is l, ls = l :: frames E 1 (map item_name is) /\ length is = d /\ enclosed E i is r /\
    complaint E (item_name i) l.
