(** Kokkos views in memory that the host cannot access (a device): the traversal works on
    a mirror in host memory, src/checkpoint/container/view_serialize.h:101-107, 229-431.
    Views.v models the case in which create_mirror_view returns the view itself.
    Simplification: element access from the host is not modelled as a fault, so that what
    is shown here is that the code goes through the mirror with the right contents. *)
From Coq Require Import List NArith Arith Bool.
From Verif Require Import Base Syntax Prog Serializers Traverse Views.
Import ListNotations.
Local Open Scope N_scope.
Local Open Scope prog_scope.

Section Device.
Variable E : env.
Variable span : list N -> list N -> N.
Variable m : mode.
Variable rec : ty -> list val -> prog (list val).

(** The elements of the view [v] through the mirror [h], view_serialize.h:285-322 and
    382-415: the mirror gets the contents of the view when packing only, and the view gets
    those of the mirror when unpacking only. *)
Definition ser_mirrored (t : ty) (dims : nat) (is_contig : bool) (num_elms : N) (h v : view)
  : prog view :=
  h1 <- (if is_packing m then deep_copy h v else Ret h);;
  h2 <- (if is_contig then ser_data rec t num_elms h1
         else traverse_manual E m rec dims t h1);;
  if is_unpacking m then deep_copy v h2 else Ret v.

(** create_mirror_view(view): new host memory with the extents and the layout of the view
    and default elements (view_serialize.h:382). *)
Definition mirror (vt : vty) (v : view) : prog view :=
  new_view E span vt (v_label v) (v_ext v) (v_str v).

(** serialize_impl(s, Kokkos::View), view_serialize.h:326-417. *)
Definition ser_device_view (vt : vty) (v : view) : prog view :=
  (if asserts E && negb (vt_managed vt) then Fail AssertErr else Ret tt);;;
  label <- ser_label rec (v_label v);;
  ser_int rec (if is_unpacking m then 0 else N.of_nat (length (v_ext v)));;;
  layout <- as_object E m (vt_layout_name vt)
              (ser_layout rec (vt_kind vt) (if is_unpacking m then new_layout else layout_of v));;
  v1 <- (if is_unpacking m
         then new_view E span vt label (firstn (vt_rank vt) (fst layout)) (firstn (vt_rank vt) (snd layout))
         else Ret v);;
  num_elms <- ser_size rec (prod (v_ext v1));;
  is_contig <- ser_bool rec (contiguous span (vt_kind vt) v1);;
  init <- ser_bool rec (if is_unpacking m then false else v_live v);;
  if init then
    h <- mirror vt v1;;
    ser_mirrored (vt_elem vt) (vt_rank vt) is_contig num_elms h v1
  else Ret v1.

(** serialize_const(s, Kokkos::View), view_serialize.h:419-431: the temporary is in the
    memory of the device as well. *)
Definition ser_device_const_view (vt : vty) (v : view) : prog view :=
  tmp <- new_view E span vt (v_label v) (v_ext v) (v_str v);;
  tmp1 <- (if is_packing m then deep_copy tmp v else Ret tmp);;
  tmp2 <- ser_device_view vt tmp1;;
  if is_unpacking m then Ret tmp2 else Ret v.

(** The contents of memory that was not initialized. *)
Variable junk : nat -> val.

(** create_mirror_view(Kokkos::WithoutInitializing, view): as above, the elements are
    whatever the memory holds (view_serialize.h:286, CHECKPOINT_KOKKOS_WITHOUTINIT,
    67-75).  Simplification: for elements that are not byte-copyable the mirror would have
    to hold objects, which it does not. *)
Definition raw_mirror (vt : vty) (v : view) : prog view :=
  if bytecopy E (vt_elem vt) then
    h <- new_view E span vt (v_label v) (v_ext v) (v_str v);;
    Ret (with_data h (map junk (seq 0 (length (v_data h)))))
  else Fail UB.

(** serialize_impl(s, Kokkos::DynRankView), view_serialize.h:229-324. *)
Definition ser_device_dyn_view (vt : vty) (v : view) : prog view :=
  label <- ser_label rec (v_label v);;
  dims <- ser_word rec 2 4 (if is_unpacking m then 0 else N.of_nat (length (v_ext v)));;
  layout <- as_object E m (vt_layout_name vt)
              (ser_layout rec (vt_kind vt) (if is_unpacking m then new_layout else layout_of v));;
  num_elms <- ser_size rec (dyn_size v);;
  let is_uninitialized := (dims =? 0) && (num_elms =? 0) in
  v1 <- (if is_unpacking m
         then if is_uninitialized then Ret no_view
              else let ext := valid_dims (fst layout) in
                   new_view E span vt label ext (firstn (length ext) (snd layout))
         else Ret v);;
  if is_uninitialized then Ret v1
  else
    is_contig <- ser_bool rec (contiguous span (vt_kind vt) v1);;
    init <- ser_bool rec (if is_unpacking m then false else v_live v);;
    if init then
      h <- raw_mirror vt v1;;
      let d := N.to_nat dims in
      if (is_contig || (Nat.leb 1 d && Nat.leb d 7))%bool
      then ser_mirrored (vt_elem vt) d is_contig num_elms h v1
      else if asserts E then Fail AssertErr
      else if is_unpacking m then deep_copy v1 h else Ret v1
    else Ret v1.
End Device.

Section DeviceApi.
Variable E : env.
Variable span : list N -> list N -> N.
Variable junk : nat -> val.
Variable f : nat.
(** Such views as root objects, view_serialize.h:438-475. *)
Definition root_device_view (m : mode) (vt : vty) (v : view) : prog view :=
  root_object E m (vt_name vt)
    (if vt_const vt then ser_device_const_view E span m (with_ E m f) vt v
     else ser_device_view E span m (with_ E m f) vt v).
(** serialize of such a View (checkpoint_api.impl.h:56-64). *)
Definition serialize_device_view (vt : vty) (v : view) : res (bytes * view) :=
  serialize_object (tix E (vt_name vt)) (root_device_view MSizing vt v) (root_device_view MPacking vt v).
(** serializeToStream of such a View (checkpoint_api.impl.h:126-132). *)
Definition stream_device_view (vt : vty) (v : view) : res (bytes * view) :=
  stream_object (root_device_view MSizing vt v) (root_device_view MPacking vt v).
(** deserialize of such a View (checkpoint_api.impl.h:66-86). *)
Definition deserialize_device_view (vt : vty) (mem : bytes) (off : nat) (w : view) : res (view * N) :=
  deserialize_object (root_device_view MUnpacking vt w) mem off.
(** Such a DynRankView as root object, view_serialize.h:229-324. *)
Definition root_device_dyn_view (m : mode) (vt : vty) (v : view) : prog view :=
  root_object E m (vt_name vt) (ser_device_dyn_view E span m (with_ E m f) junk vt v).
(** serialize of such a DynRankView (checkpoint_api.impl.h:56-64). *)
Definition serialize_device_dyn_view (vt : vty) (v : view) : res (bytes * view) :=
  serialize_object (tix E (vt_name vt)) (root_device_dyn_view MSizing vt v) (root_device_dyn_view MPacking vt v).
(** serializeToStream of such a DynRankView (checkpoint_api.impl.h:126-132). *)
Definition stream_device_dyn_view (vt : vty) (v : view) : res (bytes * view) :=
  stream_object (root_device_dyn_view MSizing vt v) (root_device_dyn_view MPacking vt v).
(** deserialize of such a DynRankView (checkpoint_api.impl.h:66-86). *)
Definition deserialize_device_dyn_view (vt : vty) (mem : bytes) (off : nat) (w : view)
  : res (view * N) :=
  deserialize_object (root_device_dyn_view MUnpacking vt w) mem off.
End DeviceApi.
