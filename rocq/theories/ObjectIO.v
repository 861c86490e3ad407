(** Kokkos views and maps, and objects that contain them, on streams and in files. *)
From Coq Require Import List NArith Arith Bool.
From Verif Require Import Base Syntax Prog Serializers Traverse IO Views Members.
Import ListNotations.
Local Open Scope N_scope.
Local Open Scope io_scope.

(** deserializeInPlaceFromStream, checkpoint_api.impl.h:144-149, and Standard::unpack,
    dispatch.impl.h:218-222; deserializeFromStream, checkpoint_api.impl.h:134-142, does the
    same to a new object. *)
Definition object_from_stream {A} (pu : prog A) (i : istream) : res (A * istream) :=
  match interp stream_unpacker pu false i with
  | Ok (a, _, i') => Ok (a, i')
  | Err e => Err e
  end.

(** serializeToFile, checkpoint_api.impl.h:101-107. *)
Definition object_to_file (oracle : nat -> option N) (has_fallocate : bool) (page : nat) {A}
  (ps pp : prog A) : io A := fun w =>
  match interp sizer ps false 0 with
  | Err e => (Err e, w)
  | Ok (_, _, size) => write_mapping oracle has_fallocate page size pp w
  end.

(** The unpacker reads from the mapping, unpacker.impl.h:72-99. *)
Definition unpack_mapping (page : nat) {A} (pu : prog A) : io A := fun w =>
  match deserialize_object pu (map_mem page (contents w)) 0 with
  | Ok (a, _) => (Ok a, w)
  | Err e => (Err e, w)
  end.

(** deserializeInPlaceFromFile, checkpoint_api.impl.h:119-124; deserializeFromFile,
    checkpoint_api.impl.h:109-117, does the same to a new object. *)
Definition object_from_file (oracle : nat -> option N) (page : nat) {A} (pu : prog A) : io A :=
  setup_for_read oracle;;; scoped oracle false (unpack_mapping page pu).

Section MemberMedia.
Variable E : env.
Variable span : list N -> list N -> N.
Variable K : kokkos_map.
Variable f : nat.

(** serializeToStream, checkpoint_api.impl.h:126-132. *)
Definition member_to_stream (k : kty) (v : kval) (o : ostream) : res (kval * ostream) :=
  object_to_stream (root_member E span K f k MSizing v) (root_member E span K f k MPacking v) o.
(** deserializeInPlaceFromStream, checkpoint_api.impl.h:144-149; [w]: the object read into. *)
Definition member_from_stream (k : kty) (i : istream) (w : kval) : res (kval * istream) :=
  object_from_stream (root_member E span K f k MUnpacking w) i.

(** Several objects on one stream, one call each (checkpoint_api.impl.h:126-132). *)
Fixpoint members_to_stream (l : list (kty * kval)) (o : ostream) : res ostream :=
  match l with
  | [] => Ok o
  | (k, v) :: r =>
    match member_to_stream k v o with
    | Ok (_, o') => members_to_stream r o'
    | Err e => Err e
    end
  end.
(** checkpoint_api.impl.h:144-149; [l]: the objects read into. *)
Fixpoint members_from_stream (l : list (kty * kval)) (i : istream) : res (list kval * istream) :=
  match l with
  | [] => Ok ([], i)
  | (k, w) :: r =>
    match member_from_stream k i w with
    | Ok (x, i') =>
      match members_from_stream r i' with
      | Ok (xs, i'') => Ok (x :: xs, i'')
      | Err e => Err e
      end
    | Err e => Err e
    end
  end.

(** serializeToFile, checkpoint_api.impl.h:101-107. *)
Definition member_to_file (oracle : nat -> option N) (has_fallocate : bool) (page : nat)
  (k : kty) (v : kval) : io kval :=
  object_to_file oracle has_fallocate page
    (root_member E span K f k MSizing v) (root_member E span K f k MPacking v).
(** deserializeInPlaceFromFile, checkpoint_api.impl.h:119-124. *)
Definition member_from_file (oracle : nat -> option N) (page : nat) (k : kty) (w : kval) : io kval :=
  object_from_file oracle page (root_member E span K f k MUnpacking w).
End MemberMedia.
