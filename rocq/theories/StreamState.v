(** The state of a stream during and after a call, and streams that throw exceptions of their own.

    Serializers.v models a stream by its data only, and nothing of it after an exception.  Here a
    stream has the state that std::basic_ios keeps, it is known also after a call has thrown, and
    the caller may have made the stream throw when it fails (std::basic_ios::exceptions). *)
From Coq Require Import List NArith Arith Bool.
From Verif Require Import Base Syntax Prog Serializers Traverse Api Views Members.
Import ListNotations.
Local Open Scope N_scope.

(** What a call throws (stream_serializer.h:54-95): an exception of the library, or
    std::ios_base::failure of the stream itself. *)
Inductive thrown :=
| Library (e : fail)
| Failure.

(** How a call ends (stream_serializer.h:54-95). *)
Inductive ended (A : Type) :=
| Done (a : A)
| Threw (x : thrown).
Arguments Done {A} a.
Arguments Threw {A} x.

(** An input stream (stream_serializer.h:76-95).
    - [is_data]: what has not been extracted;
    - [is_failed]: failbit is set;
    - [is_throws]: exceptions() has failbit and eofbit.
    Simplification: the caller asks for exceptions in both cases or in none. *)
Record istate := { is_data : bytes; is_failed : bool; is_throws : bool }.

(** setstate(failbit) (stream_serializer.h:81-82). *)
Definition in_failure (s : istate) (rest : bytes) : option thrown * istate :=
  (if is_throws s then Some Failure else None,
   {| is_data := rest; is_failed := true; is_throws := is_throws s |}).

(** stream.read(ptr, n) (stream_serializer.h:82): the sentry refuses a stream that has failed;
    otherwise as many characters as there are up to [n] are extracted, and failbit and eofbit are
    set if there are fewer.  The first component is what was read, unless the stream is failed. *)
Definition stream_read (n : nat) (s : istate) : option bytes * option thrown * istate :=
  if is_failed s then (None, fst (in_failure s (is_data s)), snd (in_failure s (is_data s)))
  else
    match split_at n (is_data s) with
    | Some (x, r) =>
      (Some x, None, {| is_data := r; is_failed := false; is_throws := is_throws s |})
    | None => (None, fst (in_failure s []), snd (in_failure s []))
    end.

(** StreamUnpacker::contiguousBytes, stream_serializer.h:81-86. *)
Definition unpack_bytes (b : bytes) (s : istate) : ended bytes * istate :=
  match stream_read (length b) s with
  | (_, Some x, s') => (Threw x, s')
  | (Some x, None, s') => (Done x, s')
  | (None, None, s') => (Threw (Library RtErr), s')
  end.

(** Serialization code run on a StreamUnpacker (stream_serializer.h:76-95), as [interp] of Prog.v. *)
Fixpoint run_in {A} (p : prog A) (vf : bool) (s : istate) : ended A * istate :=
  match p with
  | Ret a => (Done a, s)
  | Contig b k =>
    match unpack_bytes b s with
    | (Done x, s') => run_in (k x) vf s'
    | (Threw x, s') => (Threw x, s')
    end
  | Count _ k => run_in k vf s
  | GetV k => run_in (k vf) vf s
  | SetV v k => run_in k v s
  | Note _ k => run_in k vf s
  | Fail e => (Threw (Library e), s)
  end.

(** An output stream (stream_serializer.h:54-74), as in Serializers.v.
    - [os_throws]: exceptions() has badbit and failbit. *)
Record ostate := { os_data : bytes; os_room : option N; os_bad : bool; os_throws : bool }.

Section Write.
(** Whether the sentry of the implementation calls setstate(failbit) for a stream that is bad
    already, which it may do or not. *)
Variable again : bool.

(** stream.write(ptr, n) (stream_serializer.h:62): badbit is set when the stream does not take
    all of the characters. *)
Definition stream_write (b : bytes) (s : ostate) : option thrown * ostate :=
  if os_bad s then (if os_throws s && again then Some Failure else None, s)
  else
    match os_room s with
    | None =>
      (None, {| os_data := os_data s ++ b; os_room := None; os_bad := false; os_throws := os_throws s |})
    | Some r =>
      if len b <=? r then
        (None, {| os_data := os_data s ++ b; os_room := Some (r - len b); os_bad := false;
                  os_throws := os_throws s |})
      else
        (if os_throws s then Some Failure else None,
         {| os_data := os_data s ++ firstn (N.to_nat r) b; os_room := Some 0; os_bad := true;
            os_throws := os_throws s |})
    end.

(** Serialization code run on a StreamPacker, stream_serializer.h:54-74. *)
Fixpoint run_out {A} (p : prog A) (vf : bool) (s : ostate) : ended A * ostate :=
  match p with
  | Ret a => (Done a, s)
  | Contig b k =>
    match stream_write b s with
    | (None, s') => run_out (k b) vf s'
    | (Some x, s') => (Threw x, s')
    end
  | Count _ k => run_out k vf s
  | GetV k => run_out (k vf) vf s
  | SetV v k => run_out k v s
  | Note _ k => run_out k vf s
  | Fail e => (Threw (Library e), s)
  end.

(** serializeToStream, checkpoint_api.impl.h:126-132; [ps] and [pp]: the traversals of the sizer
    and of the packer. *)
Definition call_out {A} (ps pp : prog A) (s : ostate) : ended A * ostate :=
  match interp sizer ps false 0 with
  | Err e => (Threw (Library e), s)
  | Ok _ => run_out pp false s
  end.

Variable E : env.
(** serializeToStream of an object (checkpoint_api.impl.h:126-132). *)
Definition write_object (f : nat) (t : ty) (v : val) (s : ostate) : ended val * ostate :=
  call_out (with_root E MSizing f t v) (with_root E MPacking f t v) s.
(** serializeToStream of an object that contains Kokkos views and maps
    (checkpoint_api.impl.h:126-132). *)
Definition write_member (span : list N -> list N -> N) (K : kokkos_map) (f : nat) (k : kty) (v : kval)
  (s : ostate) : ended kval * ostate :=
  call_out (root_member E span K f k MSizing v) (root_member E span K f k MPacking v) s.
(** Several objects, one call each, until one throws (checkpoint_api.impl.h:126-132). *)
Fixpoint write_objects (f : nat) (l : list (ty * val)) (s : ostate) : ended unit * ostate :=
  match l with
  | [] => (Done tt, s)
  | (t, v) :: r =>
    match write_object f t v s with
    | (Done _, s') => write_objects f r s'
    | (Threw x, s') => (Threw x, s')
    end
  end.
End Write.

Section Read.
Variable E : env.
(** deserializeInPlaceFromStream, checkpoint_api.impl.h:144-149; [w]: the object read into. *)
Definition read_object (f : nat) (t : ty) (w : val) (s : istate) : ended val * istate :=
  run_in (with_root E MUnpacking f t w) false s.
(** deserializeFromStream, checkpoint_api.impl.h:134-142. *)
Definition read_new_object (f : nat) (t : ty) (s : istate) : ended val * istate :=
  match recon E t with
  | Some o => read_object f t o s
  | None => (Threw (Library Stuck), s)
  end.
(** deserializeInPlaceFromStream of an object that contains Kokkos views and maps
    (checkpoint_api.impl.h:144-149). *)
Definition read_member (span : list N -> list N -> N) (K : kokkos_map) (f : nat) (k : kty) (w : kval)
  (s : istate) : ended kval * istate :=
  run_in (root_member E span K f k MUnpacking w) false s.
End Read.
