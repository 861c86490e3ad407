(** Serialization with the recursive traversal: view_serialize.h as it is compiled with
    CHECKPOINT_KOKKOS_NDIM_TRAVERSE (view_serialize.h:84, 209-217, 398-407) defined as 1, which
    visits the elements of views that are not contiguous with TraverseRecursive of
    view_traverse_ndim.h instead of TraverseManual of view_traverse_manual.h. *)
From Coq Require Import List NArith Arith Bool.
From Verif Require Import Base Syntax Prog Serializers Traverse Views.
Import ListNotations.
Local Open Scope N_scope.
Local Open Scope prog_scope.

Section Ndim.
Variable E : env.
(** LayoutStride::span() (Kokkos), as in Views.v. *)
Variable span : list N -> list N -> N.
Variable m : mode.
Variable rec : ty -> list val -> prog (list val).
(** The dimensions of the data type of the view, [true] for a runtime (T-star) and [false] for a
    compile-time (T[N]) one. *)
Variable dims : list bool.

(** [&s](BaseType& elm){ s | elm; } for the element at [idx], view_serialize.h:403-405,
    view_traverse_ndim.h:204-217, 237-247: the serializer is given the element itself. *)
Definition ndim_elem (t : ty) (idx : list N) (v : view) : prog view :=
  x <- valid (at_ v idx);;
  y <- ser rec t x;;
  if is_unpacking m then valid (set_at v idx y) else Ret v.

(** TraverseRecurImpl<ViewT, T, TupleT, d, Callable>::apply for a single view,
    view_traverse_ndim.h:149-186, 237-247; [ds]: the dimensions left in the data type;
    [nd]: the number of runtime dimensions; [d]: the unsigned template argument.  The count it
    returns is not used. *)
Fixpoint ndim_recur (t : ty) (ds : list bool) (nd d : N) (idx : list N) (v : view) : prog view :=
  match ds with
  | [] => ndim_elem t idx v
  | _ :: ds' =>
    for_ (extent v (N.to_nat (wrap32 (nd + 4294967296 - d))))
      (fun i => ndim_recur t ds' nd (wrap32 (d + 4294967296 - 1)) (idx ++ [i])) v
  end.

(** TraverseRecursive<HostViewType, T, dims, decltype(fn)>::apply, view_traverse_ndim.h:262-273,
    view_serialize.h:399-407. *)
Definition traverse_recursive (t : ty) (v : view) : prog view :=
  ndim_recur t dims (dynamic dims) (dynamic dims) [] v.

(** serialize_impl(s, Kokkos::View), view_serialize.h:326-417. *)
Definition ndim_view (vt : vty) (v : view) : prog view :=
  (if asserts E && negb (vt_managed vt) then Fail AssertErr else Ret tt);;;
  label <- ser_label rec (v_label v);;
  ser_int rec (if is_unpacking m then 0 else N.of_nat (length (v_ext v)));;;
  layout <- as_object E m (vt_layout_name vt)
              (ser_layout rec (vt_kind vt) (if is_unpacking m then new_layout else layout_of v));;
  v1 <- (if is_unpacking m
         then new_view E span vt label (firstn (vt_rank vt) (fst layout)) (firstn (vt_rank vt) (snd layout))
         else Ret v);;
  num_elms <- ser_size rec (prod (v_ext v1));;
  is_contig <- ser_bool rec (contiguous span (vt_kind vt) v1);;
  init <- ser_bool rec (if is_unpacking m then false else v_live v);;
  if init then
    if is_contig then ser_data rec (vt_elem vt) num_elms v1
    else traverse_recursive (vt_elem vt) v1
  else Ret v1.

(** serialize_const(s, Kokkos::View), view_serialize.h:419-431. *)
Definition ndim_const_view (vt : vty) (v : view) : prog view :=
  tmp <- new_view E span vt (v_label v) (v_ext v) (v_str v);;
  tmp1 <- (if is_packing m then deep_copy tmp v else Ret tmp);;
  tmp2 <- ndim_view vt tmp1;;
  if is_unpacking m then Ret tmp2 else Ret v.
End Ndim.

(** SerializeMemory for the only element of an atomic view of rank 0, view_traverse_manual.h:82-101:
    through a local variable in either direction.  Operations of other threads on the element are
    not modelled. *)
Definition atomic_memory (E : env) (m : mode) (rec : ty -> list val -> prog (list val)) (t : ty) (v : view)
  : prog view :=
  if is_unpacking m then
    d <- of_opt (dflt E t);;
    x <- ser rec t d;;
    valid (set_at v [] x)
  else
    x <- valid (at_ v []);;
    ser rec t x;;;
    Ret v.

(** serialize(s, Kokkos::Experimental::DynamicView), view_serialize.h:150-227, whose data type has
    one runtime dimension (209-217). *)
Definition ndim_dynamic_view (E : env) (m : mode) (rec : ty -> list val -> prog (list val))
  (t : ty) (v : dview) : prog dview :=
  label <- ser_label rec (d_label v);;
  chunk_size <- ser_size rec (if is_unpacking m then 0 else d_chunk v);;
  max_extent <- ser_size rec (if is_unpacking m then 0 else allocation_extent v);;
  view_size <- ser_size rec (if is_unpacking m then 0 else len (d_elems v));;
  v1 <- (if is_unpacking m
         then
           let chunk := 2 ^ N.log2_up (wrap32 chunk_size) in
           let chunks := chunks_for chunk (wrap32 max_extent) in
           if chunks <? chunks_for chunk view_size then Fail Terminate
           else
             d <- of_opt (dflt E t);;
             Ret {| d_label := label; d_chunk := chunk; d_chunks := chunks;
                    d_elems := repeat d (N.to_nat view_size) |}
         else Ret v);;
  w <- ndim_recur m rec t [true] 1 1 []
         {| v_label := d_label v1; v_ext := [len (d_elems v1)]; v_str := [1];
            v_data := d_elems v1; v_live := true |};;
  Ret {| d_label := d_label v1; d_chunk := d_chunk v1; d_chunks := d_chunks v1;
         d_elems := v_data w |}.

Section NdimApi.
Variable E : env.
Variable span : list N -> list N -> N.
Variable f : nat.
(** Views as root objects, view_serialize.h:438-469. *)
Definition root_ndim_view (m : mode) (dims : list bool) (vt : vty) (v : view) : prog view :=
  root_object E m (vt_name vt)
    (if vt_const vt then ndim_const_view E span m (with_ E m f) dims vt v
     else ndim_view E span m (with_ E m f) dims vt v).
(** serialize of a View (checkpoint_api.impl.h:56-64). *)
Definition serialize_ndim_view (dims : list bool) (vt : vty) (v : view) : res (bytes * view) :=
  serialize_object (tix E (vt_name vt)) (root_ndim_view MSizing dims vt v) (root_ndim_view MPacking dims vt v).
(** serializeToStream of a View (checkpoint_api.impl.h:126-132). *)
Definition ndim_view_to_stream (dims : list bool) (vt : vty) (v : view) (o : ostream) : res (view * ostream) :=
  object_to_stream (root_ndim_view MSizing dims vt v) (root_ndim_view MPacking dims vt v) o.
(** deserialize of a View (checkpoint_api.impl.h:66-86). *)
Definition deserialize_ndim_view (dims : list bool) (vt : vty) (mem : bytes) (off : nat) (w : view)
  : res (view * N) := deserialize_object (root_ndim_view MUnpacking dims vt w) mem off.
(** Views of dynamic size, view_serialize.h:150-227; [name]: their own type. *)
Definition root_ndim_dynamic_view (m : mode) (name t : ty) (v : dview) : prog dview :=
  root_object E m name (ndim_dynamic_view E m (with_ E m f) t v).
(** serialize of a DynamicView (checkpoint_api.impl.h:56-64). *)
Definition serialize_ndim_dynamic_view (name t : ty) (v : dview) : res (bytes * dview) :=
  serialize_object (tix E name) (root_ndim_dynamic_view MSizing name t v)
    (root_ndim_dynamic_view MPacking name t v).
(** deserialize of a DynamicView (checkpoint_api.impl.h:66-86). *)
Definition deserialize_ndim_dynamic_view (name t : ty) (mem : bytes) (off : nat) (w : dview)
  : res (dview * N) := deserialize_object (root_ndim_dynamic_view MUnpacking name t w) mem off.
End NdimApi.
