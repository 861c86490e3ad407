(** Kokkos views and maps: src/checkpoint/container/view_serialize.h,
    view_traverse_manual.h, view_traverse_ndim.h, view_equality.h and
    kokkos_unordered_map_serialize.h.

    Kokkos itself is not part of /repo.  What the code above uses of it is written
    down here: a view is a label, extents, strides and the elements reachable from
    data(); operator() multiplies indices with strides.
    Simplifications: the memory space is accessible from the host, so that
    create_mirror_view returns the view itself and deepCopyWithLocalFence between
    the two does nothing (view_serialize.h:101-107, 384-389, 413-415); views are
    not embedded in the type universe of Syntax.v, so that the functions below
    are the bodies run for a view by the traversal of Traverse.v. *)
From Coq Require Import List NArith Arith Bool.
From Verif Require Import Base Syntax Prog Serializers Traverse.
Import ListNotations.
Local Open Scope N_scope.
Local Open Scope prog_scope.

(** ** Views *)

(** Kokkos::LayoutLeft, LayoutRight and LayoutStride (view_serialize.h:117-137). *)
Inductive lkind := LLeft | LRight | LStride.

(** A view type: element type, rank, layout, managed or not
    (view_serialize.h:331-336), the names under which the view and its layout are
    framed (dispatch.impl.h:136-167), whether its elements are constant
    (view_serialize.h:433-436). *)
Record vty := {
  vt_elem : ty;
  vt_rank : nat;
  vt_kind : lkind;
  vt_managed : bool;
  vt_layout_name : ty;
  vt_name : ty;
  vt_const : bool
}.

(** A view object.  [v_data]: the elements from data() on; [v_live]: use_count() > 0
    or data() is not null (view_serialize.h:379). *)
Record view := {
  v_label : bytes;
  v_ext : list N;
  v_str : list N;
  v_data : list val;
  v_live : bool
}.
(** The view after its elements were assigned, view_traverse_manual.h:118-344. *)
Definition with_data (v : view) (l : list val) : view :=
  {| v_label := v_label v; v_ext := v_ext v; v_str := v_str v; v_data := l;
     v_live := v_live v |}.

(** The product of the extents: Kokkos::View::size() (view_serialize.h:349-376). *)
Definition prod (l : list N) : N := fold_right N.mul 1 l.

(** Strides of a newly allocated LayoutRight / LayoutLeft view (Kokkos; the library
    never asks for padding) (ViewType(label, layout), view_serialize.h:349-376). *)
Fixpoint right_strides (ext : list N) : list N :=
  match ext with [] => [] | _ :: r => prod r :: right_strides r end.
(** Those of LayoutLeft (view_serialize.h:349-376). *)
Fixpoint left_strides (a : N) (ext : list N) : list N :=
  match ext with [] => [] | e :: r => a :: left_strides (a * e) r end.
(** Those of either (view_serialize.h:349-376). *)
Definition natural (k : lkind) (ext : list N) : list N :=
  match k with LLeft => left_strides 1 ext | _ => right_strides ext end.

(** Position of an element in memory: View::operator() (Kokkos)
    (view_traverse_manual.h:118-344). *)
Fixpoint offset (str idx : list N) : N :=
  match str, idx with
  | s :: str', i :: idx' => s * i + offset str' idx'
  | _, _ => 0
  end.

(** v(i, j, ...), None if it lies outside of the memory of the view (undefined
    behaviour), and assignment to it (view_traverse_manual.h:118-344). *)
Definition at_ (v : view) (idx : list N) : option val :=
  nth_error (v_data v) (N.to_nat (offset (v_str v) idx)).
(** Assignment to v(i, j, ...) (view_traverse_manual.h:118-344). *)
Definition set_at (v : view) (idx : list N) (x : val) : option view :=
  let o := N.to_nat (offset (v_str v) idx) in
  if Nat.ltb o (length (v_data v)) then Some (with_data v (upd (v_data v) o x)) else None.

(** v.extent(i): 1 for dimensions the view does not have (Kokkos)
    (view_traverse_manual.h:118-344). *)
Definition extent (v : view) (i : nat) : N := nth i (v_ext v) 1.

(** Comparison of extents, view_equality.h:283-292. *)
Fixpoint eqb_list (a b : list N) : bool :=
  match a, b with
  | [], [] => true
  | x :: a', y :: b' => (x =? y) && eqb_list a' b'
  | _, _ => false
  end.

(** Access that is undefined behaviour when it fails (view_traverse_manual.h:118-344). *)
Definition valid {A} (o : option A) : prog A :=
  match o with Some a => Ret a | None => Fail UB end.

(** for (SizeType i = 0; i < n; i++) body (view_traverse_manual.h:118-344). *)
Definition for_ {S} (n : N) (body : N -> S -> prog S) (s : S) : prog S :=
  foldP (fun s i => body (N.of_nat i) s) (seq 0 (N.to_nat n)) s.

(** An unused entry of a layout: KOKKOS_INVALID_INDEX (view_serialize.h:117-137). *)
Definition no_dim : N := two64 - 1.
(** The arrays of a layout have eight entries (ARRAY_LAYOUT_MAX_RANK)
    (view_serialize.h:117-137). *)
Definition pad8 (d : N) (l : list N) : list N := l ++ repeat d (8 - length l).

Section Views.
Variable E : env.
(** Memory (in elements) that Kokkos allocates for a LayoutStride view of the given
    extents and strides: LayoutStride::span(). *)
Variable span : list N -> list N -> N.
Variable m : mode.
Variable rec : ty -> list val -> prog (list val).

(** An object of a type with its own serialize function, dispatch.impl.h:136-167. *)
Definition as_object {A} (t : ty) (p : prog A) : prog A :=
  if chk E then
    with_type_idx E m t;;;
    a <- catch (tix E t) p;;
    with_mem_used E m t 1;;;
    Ret a
  else p.

(** View::span() and View::span_is_contiguous() (Kokkos): a view with LayoutLeft or
    LayoutRight is contiguous if its strides are those of a new view, one with
    LayoutStride if its span is its size
    (view_serialize.h:373-381, view_equality.h:297-304). *)
Definition view_span (k : lkind) (v : view) : N :=
  match k with LStride => span (v_ext v) (v_str v) | _ => prod (v_ext v) end.
(** view.span_is_contiguous() (view_serialize.h:373-381, view_equality.h:297-304). *)
Definition contiguous (k : lkind) (v : view) : bool :=
  match k with
  | LStride => span (v_ext v) (v_str v) =? prod (v_ext v)
  | _ => eqb_list (v_str v) (natural k (v_ext v))
  end.

(** ViewType(label, layout): allocates and default-constructs the elements
    (view_serialize.h:349-376). *)
Definition new_view (vt : vty) (label : bytes) (ext str : list N) : prog view :=
  d <- of_opt (dflt E (vt_elem vt));;
  let str' := match vt_kind vt with LStride => str | k => natural k ext end in
  let n := match vt_kind vt with LStride => span ext str | _ => prod ext end in
  Ret {| v_label := label; v_ext := ext; v_str := str'; v_data := repeat d (N.to_nat n);
         v_live := true |}.

(** serialize(s, Kokkos::LayoutStride / LayoutLeft / LayoutRight), view_serialize.h:
    117-137. *)
Definition ser_layout (k : lkind) (l : list N * list N) : prog (list N * list N) :=
  match k with
  | LStride =>
    ps <- mapP (fun p => d <- ser_size rec (fst p);; s <- ser_size rec (snd p);; Ret (d, s))
            (combine (fst l) (snd l));;
    Ret (split ps)
  | _ => ds <- mapP (ser_size rec) (fst l);; Ret (ds, snd l)
  end.

(** view.layout() of a view; a layout object before it is read
    (view_serialize.h:349-376). *)
Definition layout_of (v : view) : list N * list N := (pad8 no_dim (v_ext v), pad8 0 (v_str v)).
(** A layout object before it is read (view_serialize.h:349-376). *)
Definition new_layout : list N * list N := (repeat no_dim 8, repeat 0 8).

(** serializeViewLabel, view_serialize.h:139-148. *)
Definition ser_label (b : bytes) : prog bytes :=
  v <- ser rec TString (VStr (len b) b);;
  match v with VStr _ b' => Ret b' | _ => Fail Stuck end.

(** The body of the loops of TraverseManual, e.g. view_traverse_manual.h:152-159. *)
Definition visit (t : ty) (idx : list N) (v : view) : prog view :=
  if is_unpacking m then
    d <- of_opt (dflt E t);;
    x <- ser rec t d;;
    valid (set_at v idx x)
  else
    x <- valid (at_ v idx);;
    ser rec t x;;;
    Ret v.

(** SerializeMemory, view_traverse_manual.h:103-113: the element itself is passed to
    the serializer.  The variant for atomic views (82-101) is [atomic_memory] of Ndim.v. *)
Definition visit0 (t : ty) (v : view) : prog view :=
  x <- valid (at_ v []);;
  y <- ser rec t x;;
  if is_unpacking m then valid (set_at v [] y) else Ret v.

(** TraverseManual<SerializerT, ViewType, dims>::apply for dims = 0 .. 8,
    view_traverse_manual.h:118-344. *)
Definition trav0 t v := visit0 t v.
(** view_traverse_manual.h:146-162. *)
Definition trav1 t v :=
  for_ (extent v 0) (fun i => visit t [i]) v.
(** view_traverse_manual.h:164-182. *)
Definition trav2 t v :=
  for_ (extent v 0) (fun i =>
  for_ (extent v 1) (fun j => visit t [i; j])) v.
(** view_traverse_manual.h:184-204. *)
Definition trav3 t v :=
  for_ (extent v 0) (fun i =>
  for_ (extent v 1) (fun j =>
  for_ (extent v 2) (fun k => visit t [i; j; k]))) v.
(** view_traverse_manual.h:206-228. *)
Definition trav4 t v :=
  for_ (extent v 0) (fun i =>
  for_ (extent v 1) (fun j =>
  for_ (extent v 2) (fun k =>
  for_ (extent v 3) (fun l => visit t [i; j; k; l])))) v.
(** view_traverse_manual.h:230-254. *)
Definition trav5 t v :=
  for_ (extent v 0) (fun i =>
  for_ (extent v 1) (fun j =>
  for_ (extent v 2) (fun k =>
  for_ (extent v 3) (fun l =>
  for_ (extent v 4) (fun m => visit t [i; j; k; l; m]))))) v.
(** view_traverse_manual.h:256-282. *)
Definition trav6 t v :=
  for_ (extent v 0) (fun i =>
  for_ (extent v 1) (fun j =>
  for_ (extent v 2) (fun k =>
  for_ (extent v 3) (fun l =>
  for_ (extent v 4) (fun m =>
  for_ (extent v 5) (fun n => visit t [i; j; k; l; m; n])))))) v.
(** view_traverse_manual.h:284-312. *)
Definition trav7 t v :=
  for_ (extent v 0) (fun i =>
  for_ (extent v 1) (fun j =>
  for_ (extent v 2) (fun k =>
  for_ (extent v 3) (fun l =>
  for_ (extent v 4) (fun m =>
  for_ (extent v 5) (fun n =>
  for_ (extent v 6) (fun o => visit t [i; j; k; l; m; n; o]))))))) v.
(** view_traverse_manual.h:314-344. *)
Definition trav8 t v :=
  for_ (extent v 0) (fun i =>
  for_ (extent v 1) (fun j =>
  for_ (extent v 2) (fun k =>
  for_ (extent v 3) (fun l =>
  for_ (extent v 4) (fun m =>
  for_ (extent v 5) (fun n =>
  for_ (extent v 6) (fun o =>
  for_ (extent v 7) (fun p => visit t [i; j; k; l; m; n; o; p])))))))) v.
(** TraverseManual<SerializerT, ViewType, rank_val>, view_serialize.h:396-410. *)
Definition traverse_manual (dims : nat) (t : ty) (v : view) : prog view :=
  match dims with
  | 0 => trav0 t v | 1 => trav1 t v | 2 => trav2 t v | 3 => trav3 t v | 4 => trav4 t v
  | 5 => trav5 t v | 6 => trav6 t v | 7 => trav7 t v | 8 => trav8 t v
  | _ => Fail Stuck
  end%nat.

(** dispatch::serializeArray(s, view.data(), n), view_serialize.h:394. *)
Definition ser_data (t : ty) (n : N) (v : view) : prog view :=
  if len (v_data v) <? n then Fail UB
  else
    l <- ser_array rec t (firstn (N.to_nat n) (v_data v));;
    Ret (with_data v (l ++ skipn (N.to_nat n) (v_data v))).

(** serialize_impl(s, Kokkos::View), view_serialize.h:326-417. *)
Definition ser_view (vt : vty) (v : view) : prog view :=
  (if asserts E && negb (vt_managed vt) then Fail AssertErr else Ret tt);;;
  label <- ser_label (v_label v);;
  ser_int rec (if is_unpacking m then 0 else N.of_nat (length (v_ext v)));;;
  layout <- as_object (vt_layout_name vt)
              (ser_layout (vt_kind vt) (if is_unpacking m then new_layout else layout_of v));;
  v1 <- (if is_unpacking m
         then new_view vt label (firstn (vt_rank vt) (fst layout)) (firstn (vt_rank vt) (snd layout))
         else Ret v);;
  num_elms <- ser_size rec (prod (v_ext v1));;
  is_contig <- ser_bool rec (contiguous (vt_kind vt) v1);;
  init <- ser_bool rec (if is_unpacking m then false else v_live v);;
  if init then
    if is_contig then ser_data (vt_elem vt) num_elms v1
    else traverse_manual (vt_rank vt) (vt_elem vt) v1
  else Ret v1.

(** deepCopyWithLocalFence(dst, src) of two views of equal extents, view_serialize.h:
    101-107: element by element. *)
Fixpoint indices (ext : list N) : list (list N) :=
  match ext with
  | [] => [[]]
  | e :: r => flat_map (fun i => map (cons (N.of_nat i)) (indices r)) (seq 0 (N.to_nat e))
  end.
(** deepCopyWithLocalFence, view_serialize.h:101-107. *)
Definition deep_copy (dst src : view) : prog view :=
  foldP (fun d idx => x <- valid (at_ src idx);; valid (set_at d idx x)) (indices (v_ext src)) dst.

(** serialize_const(s, Kokkos::View), view_serialize.h:419-431. *)
Definition ser_const_view (vt : vty) (v : view) : prog view :=
  tmp <- new_view vt (v_label v) (v_ext v) (v_str v);;
  tmp1 <- (if is_packing m then deep_copy tmp v else Ret tmp);;
  tmp2 <- ser_view vt tmp1;;
  if is_unpacking m then Ret tmp2 else Ret v.

(** SerializeConst and serialize(s, Kokkos::View), view_serialize.h:438-469, as an
    object of its own. *)
Definition ser_any_view (vt : vty) (v : view) : prog view :=
  as_object (vt_name vt) (if vt_const vt then ser_const_view vt v else ser_view vt v).

(** ** Kokkos::DynRankView *)

(** The rank of a view made from a layout is the number of its valid entries (Kokkos)
    (view_serialize.h:229-324). *)
Fixpoint valid_dims (l : list N) : list N :=
  match l with
  | [] => []
  | d :: r => if d =? no_dim then [] else d :: valid_dims r
  end.
(** A default-constructed view, view_serialize.h:229-324. *)
Definition no_view : view :=
  {| v_label := []; v_ext := []; v_str := []; v_data := []; v_live := false |}.
(** size() of a DynRankView: 0 if it was never allocated (view_serialize.h:229-324). *)
Definition dyn_size (v : view) : N := if v_live v then prod (v_ext v) else 0.

(** serialize_impl(s, Kokkos::DynRankView), view_serialize.h:229-324. *)
Definition ser_dyn_view (vt : vty) (v : view) : prog view :=
  label <- ser_label (v_label v);;
  dims <- ser_word rec 2 4 (if is_unpacking m then 0 else N.of_nat (length (v_ext v)));;
  layout <- as_object (vt_layout_name vt)
              (ser_layout (vt_kind vt) (if is_unpacking m then new_layout else layout_of v));;
  num_elms <- ser_size rec (dyn_size v);;
  let is_uninitialized := (dims =? 0) && (num_elms =? 0) in
  v1 <- (if is_unpacking m
         then if is_uninitialized then Ret no_view
              else let ext := valid_dims (fst layout) in
                   new_view vt label ext (firstn (length ext) (snd layout))
         else Ret v);;
  if is_uninitialized then Ret v1
  else
    is_contig <- ser_bool rec (contiguous (vt_kind vt) v1);;
    init <- ser_bool rec (if is_unpacking m then false else v_live v);;
    if init then
      if is_contig then ser_data (vt_elem vt) num_elms v1
      else
        let d := N.to_nat dims in
        if (Nat.leb 1 d && Nat.leb d 7)%bool then traverse_manual d (vt_elem vt) v1
        else if asserts E then Fail AssertErr else Ret v1
    else Ret v1.
End Views.

(** ** Kokkos::Experimental::DynamicView *)

(** A one-dimensional view made of chunks (Kokkos).
    - [d_chunk]: chunk_size(), a power of two;
    - [d_chunks]: number of chunks it may have at most, which is fixed at construction;
    - [d_elems]: the elements; as many chunks are allocated as they need.
    Simplification: resize_serial gives new elements their default value, while the
    chunks are raw memory in Kokkos (view_serialize.h:150-227). *)
Record dview := {
  d_label : bytes;
  d_chunk : N;
  d_chunks : N;
  d_elems : list val
}.

(** unsigned arithmetic of 32 bits
    (unsigned, view_serialize.h:150-227, view_traverse_ndim.h:110-147). *)
Definition wrap32 (n : N) : N := n mod 4294967296.

(** Number of chunks of size [c] for [n] elements; allocation_extent() (Kokkos)
    (view_serialize.h:150-227). *)
Definition chunks_for (c n : N) : N := (n + (c - 1)) / c.
(** view.allocation_extent() (view_serialize.h:150-227). *)
Definition allocation_extent (v : dview) : N := chunks_for (d_chunk v) (len (d_elems v)) * d_chunk v.

(** serialize(s, Kokkos::Experimental::DynamicView), view_serialize.h:150-227.  The
    constructor of Kokkos rounds the chunk size up to a power of two, resize_serial
    aborts when the chunks do not suffice.  The traversal of the elements is that of a
    view of rank 1. *)
Definition ser_dynamic_view (E : env) (m : mode) (rec : ty -> list val -> prog (list val))
  (t : ty) (v : dview) : prog dview :=
  label <- ser_label rec (d_label v);;
  chunk_size <- ser_size rec (if is_unpacking m then 0 else d_chunk v);;
  max_extent <- ser_size rec (if is_unpacking m then 0 else allocation_extent v);;
  view_size <- ser_size rec (if is_unpacking m then 0 else len (d_elems v));;
  v1 <- (if is_unpacking m
         then
           let chunk := 2 ^ N.log2_up (wrap32 chunk_size) in
           let chunks := chunks_for chunk (wrap32 max_extent) in
           if chunks <? chunks_for chunk view_size then Fail Terminate
           else
             d <- of_opt (dflt E t);;
             Ret {| d_label := label; d_chunk := chunk; d_chunks := chunks;
                    d_elems := repeat d (N.to_nat view_size) |}
         else Ret v);;
  w <- trav1 E m rec t
         {| v_label := d_label v1; v_ext := [len (d_elems v1)]; v_str := [1];
            v_data := d_elems v1; v_live := true |};;
  Ret {| d_label := d_label v1; d_chunk := d_chunk v1; d_chunks := d_chunks v1;
         d_elems := v_data w |}.

(** ** Entry points for objects outside of the type universe *)

(** serializeType / deserializeType (dispatch.impl.h:250-288) start the traversal at a
    root object of type [t]: with_root of Traverse.v for a given body. *)
Definition root_object {A} (E : env) (m : mode) (t : ty) (p : prog A) : prog A :=
  if chk E then as_object E m t p
  else
    with_type_idx E m t;;;
    a <- p;;
    with_mem_used E m t 1;;;
    Ret a.

(** serialize into a ManagedBuffer, dispatch.impl.h:236-273, checkpoint_api.impl.h:56-64;
    [i]: the index of the type of the object; [ps] and [pp]: the traversals of the sizer
    and of the packer. *)
Definition serialize_object {A} (i : N) (ps pp : prog A) : res (bytes * A) :=
  match interp sizer ps false 0 with
  | Err e => Err e
  | Ok (_, _, size) =>
    match interp packer pp false
            {| p_buf := repeat Byte.x00 (N.to_nat size); p_cur := 0; p_used := 0 |} with
    | Err e => Err e
    | Ok (a, _, s) => if p_used s =? size then Ok (p_buf s, a) else Err (SerErr 0 [Sized i size (p_used s)])
    end
  end.

(** serializeToStream, checkpoint_api.impl.h:126-132, and Standard::pack,
    dispatch.impl.h:208-211; [ps] and [pp]: the traversals of the sizer and of the packer. *)
Definition object_to_stream {A} (ps pp : prog A) (o : ostream) : res (A * ostream) :=
  match interp sizer ps false 0 with
  | Err e => Err e
  | Ok _ =>
    match interp stream_packer pp false o with
    | Ok (a, _, o') => Ok (a, o')
    | Err e => Err e
    end
  end.

(** serializeToStream with a stream that is empty and takes everything
    (checkpoint_api.impl.h:126-132): what the stream holds afterwards. *)
Definition stream_object {A} (ps pp : prog A) : res (bytes * A) :=
  match object_to_stream ps pp {| o_data := []; o_room := None; o_bad := false; o_nbytes := 0 |} with
  | Ok (a, o) => Ok (o_data o, a)
  | Err e => Err e
  end.

(** deserialize / deserializeInPlace, dispatch.impl.h:275-288, checkpoint_api.impl.h:66-86,
    with the number of bytes consumed. *)
Definition deserialize_object {A} (pu : prog A) (mem : bytes) (off : nat) : res (A * N) :=
  match interp unpacker pu false {| u_buf := mem; u_cur := off; u_used := 0 |} with
  | Ok (a, _, s) => Ok (a, N.of_nat (u_cur s - off))
  | Err e => Err e
  end.

Section ViewApi.
Variable E : env.
Variable span : list N -> list N -> N.
Variable f : nat.
(** Views and views of dynamic rank as root objects, view_serialize.h:438-469, 229-324. *)
Definition root_view (m : mode) (vt : vty) (v : view) : prog view :=
  root_object E m (vt_name vt)
    (if vt_const vt then ser_const_view E span m (with_ E m f) vt v
     else ser_view E span m (with_ E m f) vt v).
(** serialize of a View (checkpoint_api.impl.h:56-64). *)
Definition serialize_view (vt : vty) (v : view) : res (bytes * view) :=
  serialize_object (tix E (vt_name vt)) (root_view MSizing vt v) (root_view MPacking vt v).
(** serializeToStream of a View (checkpoint_api.impl.h:126-132). *)
Definition stream_view (vt : vty) (v : view) : res (bytes * view) :=
  stream_object (root_view MSizing vt v) (root_view MPacking vt v).
(** deserialize of a View (checkpoint_api.impl.h:66-86). *)
Definition deserialize_view (vt : vty) (mem : bytes) (off : nat) (w : view) : res (view * N) :=
  deserialize_object (root_view MUnpacking vt w) mem off.
(** A view of dynamic rank, view_serialize.h:229-324. *)
Definition root_dyn_view (m : mode) (vt : vty) (v : view) : prog view :=
  root_object E m (vt_name vt) (ser_dyn_view E span m (with_ E m f) vt v).
(** serialize of a DynRankView (checkpoint_api.impl.h:56-64). *)
Definition serialize_dyn_view (vt : vty) (v : view) : res (bytes * view) :=
  serialize_object (tix E (vt_name vt)) (root_dyn_view MSizing vt v) (root_dyn_view MPacking vt v).
(** serializeToStream of a DynRankView (checkpoint_api.impl.h:126-132). *)
Definition stream_dyn_view (vt : vty) (v : view) : res (bytes * view) :=
  stream_object (root_dyn_view MSizing vt v) (root_dyn_view MPacking vt v).
(** deserialize of a DynRankView (checkpoint_api.impl.h:66-86). *)
Definition deserialize_dyn_view (vt : vty) (mem : bytes) (off : nat) (w : view) : res (view * N) :=
  deserialize_object (root_dyn_view MUnpacking vt w) mem off.
(** Views of dynamic size, view_serialize.h:150-227; [name]: their own type. *)
Definition root_dynamic_view (m : mode) (name t : ty) (v : dview) : prog dview :=
  root_object E m name (ser_dynamic_view E m (with_ E m f) t v).
(** serialize of a DynamicView (checkpoint_api.impl.h:56-64). *)
Definition serialize_dynamic_view (name t : ty) (v : dview) : res (bytes * dview) :=
  serialize_object (tix E name) (root_dynamic_view MSizing name t v) (root_dynamic_view MPacking name t v).
(** serializeToStream of a DynamicView (checkpoint_api.impl.h:126-132). *)
Definition stream_dynamic_view (name t : ty) (v : dview) : res (bytes * dview) :=
  stream_object (root_dynamic_view MSizing name t v) (root_dynamic_view MPacking name t v).
(** deserialize of a DynamicView (checkpoint_api.impl.h:66-86). *)
Definition deserialize_dynamic_view (name t : ty) (mem : bytes) (off : nat) (w : dview)
  : res (dview * N) :=
  deserialize_object (root_dynamic_view MUnpacking name t w) mem off.
End ViewApi.

(** ** ViewEquality *)

Section Equality.
Variable E : env.
Variable span : list N -> list N -> N.
(** The equality operator on elements. *)
Variable eq : val -> val -> bool.

(** What the recursion returns when it ends normally: a count, or the truth value
    of the operator converted to a number. *)

(** TraverseRecurImpl<ViewT, T, TupleT, d, Callable>::apply on a pair of views,
    view_traverse_ndim.h:110-147, 171-248, with the operator of view_equality.h:
    326-332.  [dims]: the dimensions left in the data type, [true] for a runtime
    (T-star) and [false] for a compile-time (T[N]) one; [nd]: number of runtime
    dimensions; [d]: the unsigned template argument. *)
Fixpoint recur (dims : list bool) (nd d : N) (v1 v2 : view) (idx : list N) : res N :=
  match dims with
  | [] =>
    match at_ v1 idx, at_ v2 idx with
    | Some a, Some b => Ok (if eq a b then 1 else 0)
    | _, _ => Err UB
    end
  | _ :: dims' =>
    let k := N.to_nat (wrap32 (nd + 4294967296 - d)) in
    let ex1 := extent v1 k in
    let ex2 := extent v2 k in
    if negb (ex1 =? ex2) && asserts E then Err AssertErr
    else
      fold_left
        (fun neq i =>
           match neq with
           | Err e => Err e
           | Ok n =>
             match recur dims' nd (wrap32 (d + 4294967296 - 1)) v1 v2 (idx ++ [N.of_nat i]) with
             | Ok ret => Ok (wrap64 (n + (if ret =? 0 then 1 else 0)))
             | Err e => Err e
             end
           end) (seq 0 (N.to_nat ex1)) (Ok 0)
  end.

(** CountDims<...>::dynamic, view_traits_extract.h:87-116. *)
Definition dynamic (dims : list bool) : N := len (filter (fun b => b) dims).

(** compareData, view_equality.h:312-341. *)
Definition compare_data (dims : list bool) (v1 v2 : view) : res bool :=
  match recur dims (dynamic dims) (dynamic dims) v1 v2 [] with
  | Ok neq => Ok (neq =? 0)
  | Err e => Err e
  end.

(** compareExtents, view_equality.h:283-292. *)
Definition compare_extents (v1 v2 : view) : bool := eqb_list (v_ext v1) (v_ext v2).

(** Comparison of labels, view_equality.h:297-304. *)
Fixpoint eqb_bytes (a b : bytes) : bool :=
  match a, b with
  | [], [] => true
  | x :: a', y :: b' => Byte.eqb x y && eqb_bytes a' b'
  | _, _ => false
  end.

(** compareMeta, view_equality.h:297-304. *)
Definition compare_meta (k : lkind) (v1 v2 : view) : bool :=
  eqb_bytes (v_label v1) (v_label v2) &&
  (prod (v_ext v1) =? prod (v_ext v2)) &&
  Bool.eqb (contiguous span k v1) (contiguous span k v2) &&
  (view_span span k v1 =? view_span span k v2).

(** Which overload of ViewEqualityStatic::operator() is chosen for a data type with [p]
    runtime and [q] compile-time dimensions, and what it compares: pairs of a position in
    the extents of the view and the position of a compile-time extent
    (view_equality.h:119-178).  The patterns are T[N] (154-159), T-star [N] (147-152),
    T-star-star [N] (140-145), T[N][M] (132-138) and T-star [N][M] (124-130), in which T may
    itself be a pointer or an array; the compiler takes the most special one that
    fits.  Other views and dynamic views are not looked at (161-178). *)
Definition static_checks (p q : nat) : list (nat * nat) :=
  match q, p with
  | 0, _ => []
  | 1, 0 => [(0, p)]
  | 1, 1 => [(1, p)]
  | 1, _ => [(2, p)]
  | 2, S _ => [(1, p); (2, S p)]
  | _, _ => [(0, p); (1, S p)]
  end%nat.
(** compareStaticDim, view_equality.h:273-277.  Kokkos keeps the extents of the compile-time
    dimensions equal to those in the type, so these are taken from the view. *)
Definition compare_static (dims : list bool) (v : view) : bool :=
  let p := N.to_nat (dynamic dims) in
  forallb (fun c => extent v (fst c) =? extent v (snd c)) (static_checks p (length dims - p)).

(** ViewEquality::compare, view_equality.h:248-267. *)
Definition compare (k : lkind) (dims : list bool) (v1 v2 : view) : res bool :=
  if negb (compare_static dims v1) then Ok false
  else if negb (compare_static dims v2) then Ok false
  else if negb (compare_extents v1 v2) then Ok false
  else if negb (compare_meta k v1 v2) then Ok false
  else compare_data dims v1 v2.
End Equality.

(** ** Kokkos::UnorderedMap *)

(** The arrays of a map (Kokkos): one key and one value per slot, and a bit telling
    whether the slot is occupied.  Slots that are not hold whatever was there
    before, initially default-constructed keys
    (kokkos_unordered_map_serialize.h:59-79). *)
Record slot := { s_key : val; s_val : val; s_occ : bool }.
(** A map: its slots (kokkos_unordered_map_serialize.h:59-79). *)
Definition kmap := list slot.
(** The slots for which map.valid_at(i) holds (kokkos_unordered_map_serialize.h:115-136). *)
Definition occupied (mp : kmap) : list slot := filter s_occ mp.

(** What the code uses of Kokkos::UnorderedMap besides the arrays.
    - [k_eq]: the EqualTo of the map;
    - [k_rehash mp n]: the arrays after rehash(n);
    - [k_place mp k]: the slot at which a new key is inserted, if any is free
    (kokkos_unordered_map_serialize.h:59-113). *)
Record kokkos_map := {
  k_eq : val -> val -> bool;
  k_rehash : kmap -> N -> kmap;
  k_place : kmap -> val -> option nat
}.

Section Map.
Variable E : env.
Variable K : kokkos_map.
Variable m : mode.
Variable rec : ty -> list val -> prog (list val).
Variable kt vt : ty.

(** find(k) / exists(k) / value_at(find(k)) (kokkos_unordered_map_serialize.h:72-73). *)
Definition kfind (mp : kmap) (k : val) : option slot :=
  find (fun s => s_occ s && k_eq K k (s_key s)) mp.

(** insert(k, v): nothing if the key is present or there is no room
    (kokkos_unordered_map_serialize.h:111). *)
Definition kinsert (mp : kmap) (k v : val) : kmap :=
  match kfind mp k with
  | Some _ => mp
  | None =>
    match k_place K mp k with
    | Some i => upd mp i {| s_key := k; s_val := v; s_occ := true |}
    | None => mp
    end
  end.

(** serializeKokkosUnorderedMapElems, kokkos_unordered_map_serialize.h:59-79:
    key_at(i) returns the key of a slot whether it is occupied or not. *)
Definition ser_kmap_elems (mp : kmap) : prog unit :=
  mapP (fun s =>
    match kfind mp (s_key s) with
    | Some s' => ser rec kt (s_key s);;; ser rec vt (s_val s');;; Ret tt
    | None => Ret tt
    end) mp;;;
  Ret tt.

(** deserializeInsertElems, kokkos_unordered_map_serialize.h:81-113. *)
Definition deser_kmap_elems (size cap : N) (mp : kmap) : prog kmap :=
  foldP (fun mp _ =>
    k0 <- construct E kt;;
    v0 <- construct E vt;;
    k <- ser rec kt k0;;
    v <- ser rec vt v0;;
    leave E kt k (leave E vt v (Ret (kinsert mp k v))))
    (repeat tt (N.to_nat size)) (k_rehash K mp cap).

(** serialize(s, Kokkos::UnorderedMap), kokkos_unordered_map_serialize.h:115-136,
    with container_serialize.h:52-72; the size_type of the map is uint32_t. *)
Definition ser_kmap (mp : kmap) : prog kmap :=
  size <- ser_word rec 2 4 (len (occupied mp));;
  cap <- ser_word rec 2 4 (len mp);;
  if is_unpacking m then deser_kmap_elems size cap mp
  else ser_kmap_elems mp;;; Ret mp.
End Map.

(** A map as root object; [name]: its own type. *)
Section MapApi.
Variable E : env.
Variable K : kokkos_map.
Variable f : nat.
Variable name kt vt : ty.
(** kokkos_unordered_map_serialize.h:115-136 under dispatch.impl.h:250-288 *)
Definition root_kmap (m : mode) (mp : kmap) : prog kmap :=
  root_object E m name (ser_kmap E K m (with_ E m f) kt vt mp).
(** serialize of a map (checkpoint_api.impl.h:56-64). *)
Definition serialize_kmap (mp : kmap) : res (bytes * kmap) :=
  serialize_object (tix E name) (root_kmap MSizing mp) (root_kmap MPacking mp).
(** serializeToStream of a map (checkpoint_api.impl.h:126-132). *)
Definition stream_kmap (mp : kmap) : res (bytes * kmap) :=
  stream_object (root_kmap MSizing mp) (root_kmap MPacking mp).
(** deserialize of a map (checkpoint_api.impl.h:66-86). *)
Definition deserialize_kmap (mem : bytes) (off : nat) (mp : kmap) : res (kmap * N) :=
  deserialize_object (root_kmap MUnpacking mp) mem off.
End MapApi.
