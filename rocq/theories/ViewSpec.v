(** Specification of views: which index tuples a view has, row-major order, which
    views a program can hold, and when one view is a copy of another.

    Nothing here refers to programs, serializers or the traversals. *)
From Coq Require Import List NArith Arith Bool Sorted.
From Verif Require Import Base Syntax Spec Views.
Import ListNotations.
Local Open Scope N_scope.

(** Index tuples of a view with the given extents. *)
Definition in_bounds (idx ext : list N) : Prop := Forall2 N.lt idx ext.

(** Lexicographic order: the last index varies fastest. *)
Inductive lex : list N -> list N -> Prop :=
| LexHere i j a b : i < j -> lex (i :: a) (j :: b)
| LexThere i a b : lex a b -> lex (i :: a) (i :: b).

(** Every index tuple exactly once, in row-major order. *)
Definition row_major (ext : list N) (l : list (list N)) : Prop :=
  NoDup l /\ (forall idx, In idx l <-> in_bounds idx ext) /\ StronglySorted lex l.

(** What the code relies on of Kokkos: enough memory for every element. *)
Definition wf_span (span : list N -> list N -> N) : Prop :=
  forall ext str idx, length str = length ext -> in_bounds idx ext -> offset str idx < span ext str.

(** A view of type [vt] that a program can hold: [f] bounds the nesting of its
    elements.  An allocated view has memory for all of its elements. *)
Record view_ok (E : env) (span : list N -> list N -> N) (vt : vty) (f : nat) (v : view) : Prop := {
  vo_rank : length (v_ext v) = vt_rank vt;
  vo_str : length (v_str v) = vt_rank vt;
  vo_max : (vt_rank vt <= 8)%nat;
  vo_label : len (v_label v) < two64;
  vo_size : prod (v_ext v) < two64;
  vo_ext64 : Forall (fun e => e < two64) (v_ext v);
  vo_str64 : vt_kind vt = LStride -> Forall (fun e => e < two64) (v_str v);
  vo_live : v_live v = true ->
    (forall idx, in_bounds idx (v_ext v) -> offset (v_str v) idx < len (v_data v)) /\
    (contiguous span (vt_kind vt) v = true -> prod (v_ext v) <= len (v_data v)) /\
    Forall (fun x => has_ty E (vt_elem vt) x /\ (depth x < f)%nat) (v_data v)
}.

(** The same label, extents and layout, and the same elements; capacities
    inside the elements are related by [R]. *)
Record view_sim (R : N -> N -> Prop) (k : lkind) (v w : view) : Prop := {
  vc_label : v_label w = v_label v;
  vc_ext : v_ext w = v_ext v;
  vc_str : k = LStride -> v_str w = v_str v;
  vc_elems : v_live v = true -> forall idx, in_bounds idx (v_ext v) ->
    exists x y, at_ v idx = Some x /\ at_ w idx = Some y /\ sim R x y
}.
Arguments vc_label {R}.
Arguments vc_ext {R}.
Arguments vc_str {R}.
Arguments vc_elems {R}.

(** A copy: capacities at least those of the original. *)
Notation view_copy := (view_sim N.le).

(** Different elements of a view lie at different places. *)
Definition disjoint_elems (v : view) : Prop :=
  forall idx idx', in_bounds idx (v_ext v) -> in_bounds idx' (v_ext v) ->
  offset (v_str v) idx = offset (v_str v) idx' -> idx = idx'.

(** The type of a view of dynamic rank while it has rank [n]. *)
Definition at_rank (vt : vty) (n : nat) : vty := {|
  vt_elem := vt_elem vt; vt_rank := n; vt_kind := vt_kind vt; vt_managed := vt_managed vt;
  vt_layout_name := vt_layout_name vt; vt_name := vt_name vt; vt_const := vt_const vt
|}.

(** The memory of a view holds every element. *)
Definition has_memory (v : view) : Prop :=
  forall idx, in_bounds idx (v_ext v) -> offset (v_str v) idx < len (v_data v).

(** Every value of the type takes the same space. *)
Definition fixed_size (E : env) (t : ty) : Prop :=
  forall x y, has_ty E t x -> has_ty E t y -> len (encb E t x) = len (encb E t y).

(** Allocated, or without elements. *)
Definition readable (v : view) : Prop := v_live v = true \/ prod (v_ext v) = 0.

(** An allocated view of at most seven dimensions, or one that never was. *)
Definition dyn_ok (E : env) (span : list N -> list N -> N) (vt : vty) (f : nat) (v : view) : Prop :=
  v = no_view \/
  (v_live v = true /\ view_ok E span (at_rank vt (length (v_ext v))) f v /\
   (length (v_ext v) <= 7)%nat /\ Forall (fun e => e < no_dim) (v_ext v)).

(** A view of dynamic size that a program can hold. *)
Record dview_ok (E : env) (t : ty) (f : nat) (v : dview) : Prop := {
  do_label : len (d_label v) < two64;
  do_chunk : exists k, d_chunk v = 2 ^ k;
  do_chunk64 : d_chunk v < two64;
  do_alloc64 : allocation_extent v < two64;
  do_room : chunks_for (d_chunk v) (len (d_elems v)) <= d_chunks v;
  do_elems : Forall (fun x => has_ty E t x /\ (depth x < f)%nat) (d_elems v)
}.
