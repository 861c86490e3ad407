(** The public entry points: src/checkpoint/checkpoint_api.impl.h and the
    functions of src/checkpoint/dispatch/dispatch.impl.h they call.

    Every entry point takes the recursion bound [f] of the model as first
    argument.  Entry points that take a [T&] also return the object as it is
    after the call. *)
From Coq Require Import List NArith Arith Bool.
From Coq.Strings Require Import Byte.
From Verif Require Import Base Syntax Prog Serializers Traverse.
Import ListNotations.
Local Open Scope N_scope.

Section Api.
Variable E : env.

(** Standard::size and getSize, dispatch.impl.h:195-199, checkpoint_api.impl.h:
    88-91: a Sizer starts at 0 bytes (sizer.h:82). *)
Definition get_size (f : nat) (t : ty) (v : val) : res (val * N) :=
  match interp sizer (with_root E MSizing f t v) false 0 with
  | Ok (v', _, n) => Ok (v', n)
  | Err e => Err e
  end.

(** getMemoryFootprint, checkpoint_api.impl.h:93-99; Standard::footprint,
    dispatch.impl.h:201-206. *)
Definition get_footprint (f : nat) (t : ty) (v : val) (offset : N) : res (val * N) :=
  match interp footprinter (with_root E MFootprinting f t v) false 0 with
  | Ok (v', _, n) => Ok (v', wrap64 (offset + N.max n (sizeof E t)))
  | Err e => Err e
  end.

(** Memory handed out by the caller's buffer callback: the bytes around and in
    the region it returned (BufferObtainFnType, dispatch.h:60). *)
Record region := { r_before : bytes; r_buf : bytes; r_after : bytes }.

(** What serialize returns (SerializedInfo), plus what an observer sees.
    - [s_managed]: the library allocated the buffer (ManagedBuffer) or not
      (UserBuffer);
    - [s_size]: getSize() of the returned object;
    - [s_bytes]: the [s_size] bytes at getBuffer();
    - [s_mem]: all of the memory the packer could reach;
    - [s_calls]: arguments of the calls of the buffer callback;
    - [s_obj]: the serialized object afterwards (buffer.h:54-64). *)
Record serialized := {
  s_managed : bool;
  s_size : N;
  s_bytes : bytes;
  s_mem : bytes;
  s_calls : list N;
  s_obj : val
}.

(** Standard::pack into memory followed by validatePackerBufferSize,
    dispatch.impl.h:208-211, 236-248; the packer starts at the beginning of its
    buffer with usedSize_ = 0 (memory_serializer.h:65-67, packer.h:76). *)
Definition pack_memory (f : nat) (t : ty) (v : val) (size : N) (managed : bool)
  (calls : list N) (r : region) : res serialized :=
  let start := length (r_before r) in
  match interp packer (with_root E MPacking f t v) false
          {| p_buf := r_before r ++ r_buf r ++ r_after r; p_cur := start; p_used := 0 |} with
  | Err e => Err e
  | Ok (v', _, s) =>
    if p_used s =? size
    then Ok {| s_managed := managed; s_size := size;
               s_bytes := firstn (N.to_nat size) (skipn start (p_buf s));
               s_mem := p_buf s; s_calls := calls; s_obj := v' |}
    else Err (SerErr 0 [Sized (tix E t) size (p_used s)])
  end.

(** packBuffer and serializeType / serialize, dispatch.impl.h:250-273,
    checkpoint_api.impl.h:56-64.  [fn]: the callback, if any; it returns the
    region for the requested size or null.  A ManagedBuffer is a value-
    initialised array of exactly [size] bytes (managed_buffer.h:57-59). *)
Definition serialize (f : nat) (t : ty) (v : val) (fn : option (N -> option region))
  : res serialized :=
  match get_size f t v with
  | Err e => Err e
  | Ok (v1, size) =>
    let '(user_buf, calls) :=
      match fn with
      | None => (None, [])
      | Some g => (g size, [size])
      end in
    match user_buf with
    | None =>
      pack_memory f t v1 size true calls
        {| r_before := []; r_buf := repeat x00 (N.to_nat size); r_after := [] |}
    | Some r => pack_memory f t v1 size false calls r
    end
  end.

(** Standard::unpack from memory, dispatch.impl.h:218-222: reading starts at
    offset [off] of the addressable memory [mem].  Also returns the number of
    bytes the unpacker consumed. *)
Definition unpack_memory (f : nat) (t : ty) (mem : bytes) (off : nat) (target : val)
  : res (val * N) :=
  match interp unpacker (with_root E MUnpacking f t target) false
          {| u_buf := mem; u_cur := off; u_used := 0 |} with
  | Ok (v, _, s) => Ok (v, N.of_nat (u_cur s - off))
  | Err e => Err e
  end.

(** deserializeType / deserialize, dispatch.impl.h:275-283, checkpoint_api.impl.h:
    66-81: the object is constructed in fresh memory, then unpacked into. *)
Definition deserialize (f : nat) (t : ty) (mem : bytes) (off : nat) : res (val * N) :=
  match recon E t with
  | Some o => unpack_memory f t mem off o
  | None => Err Stuck
  end.

(** deserializeInPlace, dispatch.impl.h:285-288, checkpoint_api.impl.h:83-86 *)
Definition deserialize_in_place (f : nat) (t : ty) (mem : bytes) (off : nat) (target : val)
  : res (val * N) := unpack_memory f t mem off target.

(** serializeToStream, checkpoint_api.impl.h:126-132: the size is computed first
    (and only stored in the packer). *)
Definition serialize_to_stream (f : nat) (t : ty) (v : val) (o : ostream) : res (val * ostream) :=
  match get_size f t v with
  | Err e => Err e
  | Ok (v1, _) =>
    match interp stream_packer (with_root E MPacking f t v1) false o with
    | Ok (v2, _, o') => Ok (v2, o')
    | Err e => Err e
    end
  end.

(** deserializeInPlaceFromStream and deserializeFromStream, checkpoint_api.impl.h:
    134-149 *)
Definition deserialize_in_place_from_stream (f : nat) (t : ty) (i : istream) (target : val)
  : res (val * istream) :=
  match interp stream_unpacker (with_root E MUnpacking f t target) false i with
  | Ok (v, _, i') => Ok (v, i')
  | Err e => Err e
  end.
(** deserializeFromStream, checkpoint_api.impl.h:134-142. *)
Definition deserialize_from_stream (f : nat) (t : ty) (i : istream) : res (val * istream) :=
  match recon E t with
  | Some o => deserialize_in_place_from_stream f t i o
  | None => Err Stuck
  end.

(** Several objects written to / read from one stream, one call each
    (checkpoint_api.impl.h:126-132). *)
Fixpoint write_all (f : nat) (l : list (ty * val)) (o : ostream) : res ostream :=
  match l with
  | [] => Ok o
  | (t, v) :: r =>
    match serialize_to_stream f t v o with
    | Ok (_, o') => write_all f r o'
    | Err e => Err e
    end
  end.
(** checkpoint_api.impl.h:134-142. *)
Fixpoint read_all (f : nat) (ts : list ty) (i : istream) : res (list val * istream) :=
  match ts with
  | [] => Ok ([], i)
  | t :: r =>
    match deserialize_from_stream f t i with
    | Ok (v, i') =>
      match read_all f r i' with
      | Ok (vs, i'') => Ok (v :: vs, i'')
      | Err e => Err e
      end
    | Err e => Err e
    end
  end.

(** ** Ownership of the memory of the object being rebuilt *)

(** - [HAlloc]: std::allocator<T>{}.allocate(1) (dispatch.impl.h:213-216);
    - [HConstruct]: Reconstructor runs on the memory;
    - [HDestroy]: the object's destructor runs;
    - [HFree user]: the memory is passed to operator delete; [user]: it is the
      caller's;
    - [HReturn]: the pointer is handed to the caller. *)
Inductive hevent := HAlloc | HConstruct | HDestroy | HFree (user : bool) | HReturn.

(** The caller can observe that an exception passed (checkpoint_api.impl.h:56-149). *)
Definition unwinds {A} (r : res A) : bool :=
  match r with Ok _ => false | Err e => is_exception e end.

(** deserializeType, dispatch.impl.h:275-283.  [user]: the caller supplied the
    memory for the object (deserialize(buf, object_buf)).  An exception from
    unpack runs the destructor of [t_buf], a unique_ptr with the default deleter. *)
Definition deserialize_heap (f : nat) (t : ty) (mem : bytes) (off : nat) (user : bool)
  : res val * list hevent :=
  let alloc := if user then [] else [HAlloc] in
  match recon E t with
  | None => (Err Stuck, [])
  | Some o =>
    match unpack_memory f t mem off o with
    | Ok (v, _) => (Ok v, alloc ++ [HConstruct; HReturn])
    | Err e =>
      (Err e, alloc ++ [HConstruct] ++
              (if is_exception e then [HDestroy; HFree user] else []))
    end
  end.

(** deserializeFromStream, checkpoint_api.impl.h:134-142: the object is held by a
    raw pointer until unpack has returned. *)
Definition deserialize_stream_heap (f : nat) (t : ty) (i : istream)
  : res val * list hevent :=
  match recon E t with
  | None => (Err Stuck, [])
  | Some o =>
    match deserialize_in_place_from_stream f t i o with
    | Ok (v, _) => (Ok v, [HAlloc; HConstruct; HReturn])
    | Err e => (Err e, [HAlloc; HConstruct])
    end
  end.

(** Destruction of the object returned by serialize: a ManagedBuffer frees its
    array (managed_buffer.h:72), a UserBuffer nothing (user_buffer.h:52-69).
    [true]: memory of the library is freed. *)
Definition release (s : serialized) : list hevent :=
  if s_managed s then [HFree false] else [].
End Api.
