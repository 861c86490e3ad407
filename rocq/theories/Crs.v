(** The remaining functions on Kokkos views: serializeExtentOnly and
    serializeContentsOnly (src/checkpoint/container/view_serialize.h:477-589), compressed
    row graphs and matrices (591-610), and the footprint of an unordered map
    (kokkos_unordered_map_serialize.h:138-155). *)
From Coq Require Import List NArith Arith Bool.
From Verif Require Import Base Syntax Prog Serializers Traverse Views.
Import ListNotations.
Local Open Scope N_scope.
Local Open Scope prog_scope.

Section Partial.
Variable E : env.
Variable span : list N -> list N -> N.
Variable m : mode.
Variable rec : ty -> list val -> prog (list val).

(** ViewType(label, e0, ...): Kokkos accepts extents without strides for LayoutLeft and
    LayoutRight only, otherwise the call does not compile (view_serialize.h:516, 533,
    551, 570-572). *)
Definition from_extents (vt : vty) (label : bytes) (ext : list N) : prog view :=
  match vt_kind vt with
  | LStride => Fail Stuck
  | _ => new_view E span vt label ext []
  end.

(** SerializeExtentOnlyImpl for one to four dimensions, view_serialize.h:505-575. *)
Definition extent_only1 (vt : vty) (v : view) (label : bytes) : prog view :=
  e0 <- ser_size rec (extent v 0);;
  if is_unpacking m then from_extents vt label [e0] else Ret v.
(** view_serialize.h:521-536. *)
Definition extent_only2 (vt : vty) (v : view) (label : bytes) : prog view :=
  e0 <- ser_size rec (extent v 0);;
  e1 <- ser_size rec (extent v 1);;
  if is_unpacking m then from_extents vt label [e0; e1] else Ret v.
(** view_serialize.h:538-554. *)
Definition extent_only3 (vt : vty) (v : view) (label : bytes) : prog view :=
  e0 <- ser_size rec (extent v 0);;
  e1 <- ser_size rec (extent v 1);;
  e2 <- ser_size rec (extent v 2);;
  if is_unpacking m then from_extents vt label [e0; e1; e2] else Ret v.
(** view_serialize.h:556-575. *)
Definition extent_only4 (vt : vty) (v : view) (label : bytes) : prog view :=
  e0 <- ser_size rec (extent v 0);;
  e1 <- ser_size rec (extent v 1);;
  e2 <- ser_size rec (extent v 2);;
  e3 <- ser_size rec (extent v 3);;
  if is_unpacking m then from_extents vt label [e0; e1; e2; e3] else Ret v.

(** serializeExtentOnly, view_serialize.h:577-581.  CountStaticDims (477-500) counts every
    dimension of the data type, whether it is fixed by the type or not; there is no
    implementation for other ranks. *)
Definition ser_extent_only (vt : vty) (v : view) (label : bytes) : prog view :=
  match vt_rank vt with
  | 1 => extent_only1 vt v label | 2 => extent_only2 vt v label
  | 3 => extent_only3 vt v label | 4 => extent_only4 vt v label
  | _ => Fail Stuck
  end%nat.

(** deepCopyWithLocalFence(v, values), view_serialize.h:101-107: Kokkos::deep_copy throws
    std::runtime_error when the extents differ. *)
Definition deep_copy_checked (dst src : view) : prog view :=
  if eqb_list (v_ext dst) (v_ext src) then deep_copy dst src else Fail RtErr.

(** serializeContentsOnly, view_serialize.h:583-589.  [values] is at first another
    reference to the memory of [v]; reading makes it refer to new memory. *)
Definition ser_contents_only (vt : vty) (v : view) : prog view :=
  values <- ser_any_view E span m rec vt v;;
  if is_unpacking m then deep_copy_checked v values else Ret v.
End Partial.

(** Kokkos::StaticCrsGraph: views of the column indices, of the offsets of the rows and of
    the offsets of the blocks of rows (view_serialize.h:592-595). *)
Record graph := { g_entries : view; g_row_map : view; g_blocks : view }.

(** KokkosSparse::CrsMatrix: numCols(), graph and values (view_serialize.h:597-609). *)
Record matrix := { m_cols : N; m_graph : graph; m_values : view }.

(** The types of the members, the names under which graph and matrix are framed, and the
    integral type of numCols() (view_serialize.h:592-609). *)
Record crs_ty := {
  ct_entries : vty; ct_row_map : vty; ct_blocks : vty; ct_values : vty;
  ct_graph : ty; ct_matrix : ty;
  ct_ord : nat; ct_ord_size : nat
}.

Section Crs.
Variable E : env.
Variable span : list N -> list N -> N.
(** The constructor of a matrix from its parts (KokkosKernels) keeps the number of columns,
    the values, and the entries and the row map of the graph; what it does with the block
    offsets is not used. *)
Variable matrix_blocks : view -> view.
Variable m : mode.
Variable rec : ty -> list val -> prog (list val).
Variable ct : crs_ty.

(** serialize(s, Kokkos::StaticCrsGraph), view_serialize.h:592-595. *)
Definition ser_graph (g : graph) : prog graph :=
  e <- ser_any_view E span m rec (ct_entries ct) (g_entries g);;
  r <- ser_any_view E span m rec (ct_row_map ct) (g_row_map g);;
  b <- ser_any_view E span m rec (ct_blocks ct) (g_blocks g);;
  Ret {| g_entries := e; g_row_map := r; g_blocks := b |}.

(** serialize(s, KokkosSparse::CrsMatrix), view_serialize.h:597-609. *)
Definition ser_matrix (a : matrix) : prog matrix :=
  cols <- ser_word rec (ct_ord ct) (ct_ord_size ct) (m_cols a);;
  g <- as_object E m (ct_graph ct) (ser_graph (m_graph a));;
  x <- ser_any_view E span m rec (ct_values ct) (m_values a);;
  Ret (if is_unpacking m
       then {| m_cols := cols;
               m_graph := {| g_entries := g_entries g; g_row_map := g_row_map g;
                             g_blocks := matrix_blocks (g_blocks g) |};
               m_values := x |}
       else a).
End Crs.

Section CrsApi.
Variable E : env.
Variable span : list N -> list N -> N.
Variable matrix_blocks : view -> view.
Variable f : nat.
Variable ct : crs_ty.
(** A graph and a matrix as root objects, view_serialize.h:592-609 under
    dispatch.impl.h:250-288. *)
Definition root_graph (m : mode) (g : graph) : prog graph :=
  root_object E m (ct_graph ct) (ser_graph E span m (with_ E m f) ct g).
(** A matrix as root object, view_serialize.h:592-609. *)
Definition root_matrix (m : mode) (a : matrix) : prog matrix :=
  root_object E m (ct_matrix ct) (ser_matrix E span matrix_blocks m (with_ E m f) ct a).
End CrsApi.

(** ** Footprints *)

(** getMemoryFootprint of an object outside of the type universe, checkpoint_api.impl.h:
    93-99; [name]: its type. *)
Definition footprint_object {A} (E : env) (name : ty) (p : prog A) (offset : N) : res (A * N) :=
  match interp footprinter p false 0 with
  | Ok (a, _, n) => Ok (a, wrap64 (offset + N.max n (sizeof E name)))
  | Err e => Err e
  end.

(** serialize(s, Kokkos::UnorderedMap) for a Footprinter,
    kokkos_unordered_map_serialize.h:138-155, with container_serialize.h:52-72; [name]: the
    type of the map. *)
Definition foot_kmap (E : env) (name kt vt : ty) (mp : kmap) : prog kmap :=
  Count (sizeof E name)
    (Count (wrap64 (len mp * sizeof E kt + len (occupied mp) * sizeof E vt)) (Ret mp)).
(** A map as root object of getMemoryFootprint (checkpoint_api.impl.h:93-99). *)
Definition root_foot_kmap (E : env) (name kt vt : ty) (mp : kmap) : prog kmap :=
  root_object E MFootprinting name (foot_kmap E name kt vt mp).
