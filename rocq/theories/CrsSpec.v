(** Specification for the functions of Crs.v: which graphs and matrices a program can hold,
    when one is a copy of another, and what a view occupies. *)
From Coq Require Import List NArith Arith Bool.
From Verif Require Import Base Syntax Spec Views ViewSpec Crs.
Import ListNotations.
Local Open Scope N_scope.

(** What [C39] requires of a view and its type. *)
Record storable (E : env) (span : list N -> list N -> N) (f : nat) (vt : vty) (v : view) : Prop := {
  st_ok : view_ok E span vt f v;
  st_managed : vt_managed vt = true;
  st_virtual : is_virtual E (vt_elem vt) = false;
  st_default : exists d, dflt E (vt_elem vt) = Some d /\
    (vt_const vt = true -> readable v /\ has_ty E (vt_elem vt) d /\ (depth d < f)%nat /\
                           fixed_size E (vt_elem vt))
}.

(** The views of one graph are copies of those of the other. *)
Record graph_copy (ct : crs_ty) (g h : graph) : Prop := {
  gc_entries : view_copy (vt_kind (ct_entries ct)) (g_entries g) (g_entries h);
  gc_row_map : view_copy (vt_kind (ct_row_map ct)) (g_row_map g) (g_row_map h);
  gc_blocks : view_copy (vt_kind (ct_blocks ct)) (g_blocks g) (g_blocks h)
}.
(** A graph that a program can hold. *)
Record graph_ok (E : env) (span : list N -> list N -> N) (f : nat) (ct : crs_ty) (g : graph) : Prop := {
  go_entries : storable E span f (ct_entries ct) (g_entries g);
  go_row_map : storable E span f (ct_row_map ct) (g_row_map g);
  go_blocks : storable E span f (ct_blocks ct) (g_blocks g)
}.

(** [stored span vt v l]: the objects in the memory of [v] that a traversal reaches: all of
    it when the memory is dense, otherwise the elements. *)
Definition stored (span : list N -> list N -> N) (vt : vty) (v : view) (l : list val) : Prop :=
  if v_live v then
    if contiguous span (vt_kind vt) v then l = firstn (N.to_nat (prod (v_ext v))) (v_data v)
    else exists L, row_major (v_ext v) L /\ Forall2 (fun idx x => at_ v idx = Some x) L l
  else l = [].

(** Label, rank, layout, number of elements and two flags. *)
Definition header (E : env) (vt : vty) (v : view) : N :=
  szof E TString + len (v_label v) + 4 + match vt_kind vt with LStride => 128 | _ => 64 end + 8 + 1 + 1.
