(** Objects that contain Kokkos views and maps: classes with such members, vectors of
    them, and any nesting of these.

    A class with a serialize function that visits its members one after the other has no
    code of its own in the library: every member goes through operator| and from there
    through Traverse::with, which finds the serialize function of its type. *)
From Coq Require Import List NArith Arith Bool.
From Verif Require Import Base Syntax Prog Serializers Traverse Views Crs.
Import ListNotations.
Local Open Scope N_scope.
Local Open Scope prog_scope.

(** The type of an object.
    - [KVal]: a type without Kokkos objects in it;
    - [KView], [KDynRank], [KDynamic], [KMap]: the Kokkos types (view_serialize.h:150-469,
      kokkos_unordered_map_serialize.h:115-136);
    - [KClass]: a class that visits its members in order, or a std::tuple
      (tuple_serialize.h:56-61, 70-73);
    - [KVec]: std::vector (vector_serialize.h:109-121);
    - [KOpt]: std::optional (optional_serialize.h:53-91);
    - [KPtr]: std::unique_ptr (unique_ptr_serialize.h:53-80).
    The first argument of the last six is the type itself, as an index. *)
Inductive kty :=
| KVal (t : ty)
| KView (vt : vty)
| KDynRank (vt : vty)
| KDynamic (name t : ty)
| KMap (name kt vt : ty)
| KClass (name : ty) (members : list kty)
| KVec (name : ty) (elem : kty)
| KOpt (name : ty) (elem : kty)
| KPtr (name : ty) (elem : kty).

(** An object of such a type (same lines). *)
Inductive kval :=
| OVal (v : val)
| OView (v : view)
| ODynamic (v : dview)
| OMap (mp : kmap)
| OObj (members : list kval)
| OVec (cap : N) (elems : list kval)
| OOpt (o : option kval).

(** CleanT of an object (dispatch.impl.h:136-139). *)
Definition name_of (k : kty) : ty :=
  match k with
  | KVal t => t
  | KView vt | KDynRank vt => vt_name vt
  | KDynamic n _ | KMap n _ _ | KClass n _ | KVec n _ | KOpt n _ | KPtr n _ => n
  end.

Section Members.
Variable E : env.
Variable span : list N -> list N -> N.
Variable K : kokkos_map.
Variable m : mode.
Variable rec : ty -> list val -> prog (list val).

(** A default-constructed object, as made by vec.resize (vector_serialize.h:71-77) and by
    the Reconstructor of default constructible types (reconstructor.h:142-145): no view of
    it has memory. *)
Fixpoint blank (k : kty) : option kval :=
  match k with
  | KVal t => match dflt E t with Some d => Some (OVal d) | None => None end
  | KView vt =>
      Some (OView {| v_label := []; v_ext := repeat 0 (vt_rank vt);
                     v_str := repeat 0 (vt_rank vt); v_data := []; v_live := false |})
  | KDynRank _ => Some (OView no_view)
  | KDynamic _ _ => Some (ODynamic {| d_label := []; d_chunk := 1; d_chunks := 0; d_elems := [] |})
  | KMap _ _ _ => Some (OMap [])
  | KClass _ ms =>
      match (fix all (ks : list kty) : option (list kval) :=
               match ks with
               | [] => Some []
               | k :: r =>
                   match blank k, all r with
                   | Some d, Some l => Some (d :: l)
                   | _, _ => None
                   end
               end) ms with
      | Some l => Some (OObj l)
      | None => None
      end
  | KVec _ _ => Some (OVec 0 [])
  | KOpt _ _ | KPtr _ _ => Some (OOpt None)
  end.

(** s | member (operator|, dispatch.impl.h:56-59; Traverse::with, dispatch.impl.h:136-167);
    [p]: the serialize function of the member. *)
Definition member (k : kty) (v : kval) (p : prog kval) : prog kval :=
  match k, v with
  | KVal t, OVal x => y <- ser rec t x;; Ret (OVal y)
  | KVal _, _ => Fail Stuck
  | _, _ => as_object E m (name_of k) p
  end.

(** serializeArray of objects, dispatch.impl.h:229-234 with 136-167; [p]: the serialize
    function of an element (the loop is dispatch_serializer_nonbyte.h:174-201). *)
Definition array_of (k : kty) (p : kval -> prog kval) (l : list kval) : prog (list kval) :=
  match l with
  | [] => Ret []
  | _ =>
      if chk E then
        with_type_idx E m (name_of k);;;
        l' <- catch (tix E (name_of k)) (mapP p l);;
        with_mem_used E m (name_of k) (length l);;;
        Ret l'
      else mapP p l
  end.

(** The serialize function of an object: the classes of the library as cited at [kty]; a
    class visits its members, which is what the functions of tuple_serialize.h:56-61, 70-73 do
    too.  For a Footprinter: vector_serialize.h:147-155, optional_serialize.h:76-80,
    unique_ptr_serialize.h:56-57, kokkos_unordered_map_serialize.h:138-155.
    Simplification: the elements of vectors, optionals and pointers are default constructible,
    and vectors of types without Kokkos objects are [KVal]. *)
Fixpoint own (k : kty) (v : kval) : prog kval :=
  match k, v with
  | KView vt, OView x =>
      y <- (if vt_const vt then ser_const_view E span m rec vt x
            else ser_view E span m rec vt x);; Ret (OView y)
  | KDynRank vt, OView x => y <- ser_dyn_view E span m rec vt x;; Ret (OView y)
  | KDynamic _ t, ODynamic x => y <- ser_dynamic_view E m rec t x;; Ret (ODynamic y)
  | KMap name kt vt, OMap x =>
      y <- (if is_footprinting m then foot_kmap E name kt vt x else ser_kmap E K m rec kt vt x);;
      Ret (OMap y)
  | KClass _ ms, OObj vs =>
      ys <- (fix visit (ks : list kty) (vs : list kval) : prog (list kval) :=
               match ks, vs with
               | [], [] => Ret []
               | k :: ks', v :: vs' =>
                   y <- member k v (own k v);;
                   ys <- visit ks' vs';;
                   Ret (y :: ys)
               | _, _ => Fail Stuck
               end) ms vs;;
      Ret (OObj ys)
  | KVec name k, OVec cap l =>
      if is_footprinting m then
        Count (sizeof E name)
          (l' <- array_of k (own k) l;;
           Count (wrap64 (sizeof E (name_of k) * (cap - len l))) (Ret (OVec cap l')))
      else
        meta <- ser_vector_meta rec cap (len l);;
        let '(cap', n) := meta in
        l1 <- (if is_unpacking m
               then d <- of_opt (blank k);; Ret (resize (N.to_nat n) d l)
               else Ret l);;
        l2 <- array_of k (own k) l1;;
        Ret (OVec (N.max cap' (len l2)) l2)
  | KOpt name k, OOpt o =>
      if is_footprinting m then
        Count (sizeof E name)
          match o with
          | Some _ => Count (sizeof E (name_of k)) (Ret (OOpt o))
          | None => Ret (OOpt o)
          end
      else if is_unpacking m then
        has <- ser_bool rec false;;
        if has then
          d <- of_opt (blank k);;
          x <- member k d (own k d);;
          Ret (OOpt (Some x))
        else Ret (OOpt None)
      else
        ser_bool rec (match o with Some _ => true | None => false end);;;
        match o with
        | Some v => x <- member k v (own k v);; Ret (OOpt (Some x))
        | None => Ret (OOpt None)
        end
  | KPtr name k, OOpt o =>
      is_null <- (if is_footprinting m
                  then Count (sizeof E name) (Ret (match o with None => true | Some _ => false end))
                  else ser_bool rec (match o with None => true | Some _ => false end));;
      if (is_null : bool) then Ret (OOpt (if is_unpacking m then None else o))
      else
        match o with
        | Some v => x <- member k v (own k v);; Ret (OOpt (Some x))
        | None =>
            if is_unpacking m then
              d <- of_opt (blank k);;
              x <- member k d (own k d);;
              Ret (OOpt (Some x))
            else Fail UB
        end
  | _, _ => Fail Stuck
  end.
End Members.

Section MembersApi.
Variable E : env.
Variable span : list N -> list N -> N.
Variable K : kokkos_map.
Variable f : nat.
Variable k : kty.
(** Such an object as root, dispatch.impl.h:169-188. *)
Definition root_member (m : mode) (v : kval) : prog kval :=
  root_object E m (name_of k) (own E span K m (with_ E m f) k v).
(** serialize of such an object (checkpoint_api.impl.h:56-64). *)
Definition serialize_member (v : kval) : res (bytes * kval) :=
  serialize_object (tix E (name_of k)) (root_member MSizing v) (root_member MPacking v).
(** serializeToStream of such an object (checkpoint_api.impl.h:126-132). *)
Definition stream_member (v : kval) : res (bytes * kval) :=
  stream_object (root_member MSizing v) (root_member MPacking v).
(** getMemoryFootprint of such an object (checkpoint_api.impl.h:93-99). *)
Definition footprint_member (v : kval) (off : N) : res (kval * N) :=
  footprint_object E (name_of k) (root_member MFootprinting v) off.
(** deserializeInPlace and deserialize (checkpoint_api.impl.h:66-97); [w]: the object read
    into. *)
Definition deserialize_member (mem : bytes) (off : nat) (w : kval) : res (kval * N) :=
  deserialize_object (root_member MUnpacking w) mem off.
End MembersApi.
