(** Streams of other types than std::ostream and std::istream.

    serializeToStream and deserializeFromStream take the type of the stream from their
    argument (checkpoint_api.impl.h:126-149), so that an std::ofstream is written by
    StreamPacker<std::ofstream>.  Only StreamPacker<> and StreamUnpacker<>, which are those
    for std::ostream and std::istream (stream_serializer.h:54, 76), are among the
    serializers whose entries are linked (serializers_headers.h:55-64). *)
From Coq Require Import List NArith Arith Bool.
From Coq.Strings Require Import Byte.
From Verif Require Import Base Syntax Prog Serializers Traverse Api.
Import ListNotations.
Local Open Scope N_scope.

(** A class that uses checkpoint_virtual_serialize_derived_from, derived.h:53-86 *)
Definition derived (E : env) (c : nat) : bool :=
  match cls E c with
  | Some k => match cparent k with Some _ => true | None => false end
  | None => false
  end.

(** What happens if no entry of the derived class has the index of the root class:
    checkpointAssert, or else the call of an empty std::function,
    serializer_registry.h:146-159, derived.h:72-75 *)
Definition missing (E : env) : fail := if asserts E then AssertErr else CallErr.

(** A traversal by a serializer that is not linked: the root class is found by the index
    itself (base.h:62-68), derived classes are not found (derived.h:70-75).  That this is
    what the registries do is [unlinked_dispatch] in PropStream.v. *)
Fixpoint unlisted (E : env) {A} (p : prog A) : prog A :=
  match p with
  | Ret a => Ret a
  | Contig b k => Contig b (fun x => unlisted E (k x))
  | Count n k => Count n (unlisted E k)
  | GetV k => GetV (fun x => unlisted E (k x))
  | SetV v k => SetV v (unlisted E k)
  | Note e k =>
    match e with
    | EvRegistry c => Note e (if derived E c then Fail (missing E) else unlisted E k)
    | _ => Note e (unlisted E k)
    end
  | Fail e => Fail e
  end.

Section Streams.
Variable E : env.
(** The stream is an std::ostream or std::istream. *)
Variable listed : bool.
(** The serializer is linked or not, serializers_headers.h:55-64. *)
Definition via {A} (p : prog A) : prog A := if listed then p else unlisted E p.

(** serializeToStream, checkpoint_api.impl.h:126-132; the sizer is always linked *)
Definition to_stream (f : nat) (t : ty) (v : val) (o : ostream) : res (val * ostream) :=
  match get_size E f t v with
  | Err e => Err e
  | Ok (v1, _) =>
    match interp stream_packer (via (with_root E MPacking f t v1)) false o with
    | Ok (v2, _, o') => Ok (v2, o')
    | Err e => Err e
    end
  end.
(** deserializeInPlaceFromStream and deserializeFromStream, checkpoint_api.impl.h:134-149 *)
Definition in_place_from_stream (f : nat) (t : ty) (i : istream) (target : val)
  : res (val * istream) :=
  match interp stream_unpacker (via (with_root E MUnpacking f t target)) false i with
  | Ok (v, _, i') => Ok (v, i')
  | Err e => Err e
  end.
(** deserializeFromStream, checkpoint_api.impl.h:134-142. *)
Definition from_stream (f : nat) (t : ty) (i : istream) : res (val * istream) :=
  match recon E t with
  | Some o => in_place_from_stream f t i o
  | None => Err Stuck
  end.

(** Several objects, one call each, as in Api.v (checkpoint_api.impl.h:126-149). *)
Fixpoint to_stream_all (f : nat) (l : list (ty * val)) (o : ostream) : res ostream :=
  match l with
  | [] => Ok o
  | (t, v) :: r =>
    match to_stream f t v o with
    | Ok (_, o') => to_stream_all f r o'
    | Err e => Err e
    end
  end.
(** Several objects read, one call each (checkpoint_api.impl.h:134-149). *)
Fixpoint from_stream_all (f : nat) (ts : list ty) (i : istream) : res (list val * istream) :=
  match ts with
  | [] => Ok ([], i)
  | t :: r =>
    match from_stream f t i with
    | Ok (v, i') =>
      match from_stream_all f r i' with
      | Ok (vs, i'') => Ok (v :: vs, i'')
      | Err e => Err e
      end
    | Err e => Err e
    end
  end.
End Streams.
