(** The serializers of src/checkpoint/serializers, as handlers. *)
From Coq Require Import List NArith Arith Bool.
From Verif Require Import Base Syntax Prog.
Import ListNotations.
Local Open Scope N_scope.

(** [Sizer], src/checkpoint/serializers/sizer.h and sizer.cc:50-58:
    num_bytes_ += size * num_elms in size_t arithmetic. *)
Definition sizer : serializer := {|
  state := N;
  contig b s := Ok (b, wrap64 (s + len b));
  count _ s := s;
  note _ s := s
|}.

(** [Footprinter], src/checkpoint/serializers/footprinter.h:52-73. *)
Definition footprinter : serializer := {|
  state := N;
  contig b s := Ok (b, wrap64 (s + len b));
  count n s := wrap64 (s + n);
  note _ s := s
|}.

(** Packer over a piece of memory.  [p_buf] is the addressable memory (for a
    ManagedBuffer exactly the allocated array; for a caller's buffer it may
    extend on both sides of it), [p_cur] the position of cur_ in it and [p_used]
    usedSize_.  The packer itself does not know where its buffer ends
    (src/checkpoint/serializers/memory_serializer.h:52-81,
     src/checkpoint/serializers/packer.impl.h:113-136). *)
Record pmem := {
  p_buf : bytes;
  p_cur : nat;
  p_used : N
}.

(** memcpy of [b] to offset [off] of [m]; None: not inside [m] (packer.impl.h:129). *)
Definition write_at (m : bytes) (off : nat) (b : bytes) : option bytes :=
  if Nat.leb (off + length b) (length m)
  then Some (firstn off m ++ b ++ skipn (off + length b) m)
  else None.

(** src/checkpoint/serializers/packer.impl.h:113-133 contiguousBytes:
    getSpotIncrement, memcpy, usedSize_ += len.  There is no bounds check in the
    source: a write beyond the end of the buffer is undefined behaviour. *)
Definition packer : serializer := {|
  state := pmem;
  contig b s :=
    match write_at (p_buf s) (p_cur s) b with
    | Some m => Ok (b, {| p_buf := m; p_cur := p_cur s + length b;
                          p_used := wrap64 (p_used s + len b) |})
    | None => Err UB
    end;
  count _ s := s;
  note _ s := s
|}.

(** Unpacker over a piece of memory, src/checkpoint/serializers/unpacker.impl.h:
    86-99.  No bounds check: reading outside the memory is undefined behaviour. *)
Record umem := {
  u_buf : bytes;
  u_cur : nat;
  u_used : N
}.

(** UnpackerBuffer::contiguousBytes, unpacker.impl.h:86-99. *)
Definition unpacker : serializer := {|
  state := umem;
  contig b s :=
    match split_at (length b) (skipn (u_cur s) (u_buf s)) with
    | Some (x, _) => Ok (x, {| u_buf := u_buf s; u_cur := u_cur s + length b;
                               u_used := wrap64 (u_used s + len b) |})
    | None => Err UB
    end;
  count _ s := s;
  note _ s := s
|}.

(** [StreamPacker], src/checkpoint/serializers/stream_serializer.h:54-74:
    stream.write(ptr, len); the stream's state is not checked.
    [o_data]: what the stream has received; [o_room]: how many more bytes the
    sink accepts before the stream goes bad (None: unlimited); a write that does
    not fit sets badbit after storing what fits, and later writes do nothing. *)
Record ostream := {
  o_data : bytes;
  o_room : option N;
  o_bad : bool;
  o_nbytes : N
}.

(** std::ostream::write as called in stream_serializer.h:54-74. *)
Definition owrite (b : bytes) (s : ostream) : ostream :=
  if o_bad s then s
  else match o_room s with
       | None => {| o_data := o_data s ++ b; o_room := None; o_bad := false;
                    o_nbytes := o_nbytes s |}
       | Some r =>
         if len b <=? r
         then {| o_data := o_data s ++ b; o_room := Some (r - len b);
                 o_bad := false; o_nbytes := o_nbytes s |}
         else {| o_data := o_data s ++ firstn (N.to_nat r) b; o_room := Some 0;
                 o_bad := true; o_nbytes := o_nbytes s |}
       end.

(** StreamPacker::contiguousBytes, stream_serializer.h:54-74. *)
Definition stream_packer : serializer := {|
  state := ostream;
  contig b s :=
    let s' := owrite b s in
    Ok (b, {| o_data := o_data s'; o_room := o_room s'; o_bad := o_bad s';
              o_nbytes := wrap64 (o_nbytes s + len b) |});
  count _ s := s;
  note _ s := s
|}.

(** [StreamUnpacker], src/checkpoint/serializers/stream_serializer.h:76-95:
    stream.read(ptr, len); if (!stream) throw std::runtime_error.
    [i_data]: the bytes still in the stream. *)
Record istream := {
  i_data : bytes;
  i_nbytes : N
}.

(** StreamUnpacker::contiguousBytes, stream_serializer.h:76-95. *)
Definition stream_unpacker : serializer := {|
  state := istream;
  contig b s :=
    match split_at (length b) (i_data s) with
    | Some (x, r) => Ok (x, {| i_data := r; i_nbytes := wrap64 (i_nbytes s + len b) |})
    | None => Err RtErr
    end;
  count _ s := s;
  note _ s := s
|}.
