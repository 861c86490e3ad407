(** Files: src/checkpoint/buffer/io_buffer.cc and the file entry points of
    src/checkpoint/checkpoint_api.impl.h, over a model of the operating system in
    which every system call may fail. *)
From Coq Require Import List NArith Arith Bool.
From Coq.Strings Require Import Byte.
From Verif Require Import Base Syntax Prog Serializers Traverse Api.
Import ListNotations.
Local Open Scope N_scope.

(** The system calls of io_buffer.cc (mmap64, msync64, munmap64 are the same
    calls). *)
Inductive sys := SOpen | SFstat | SFallocate | SFtruncate | SFsync | SMmap
               | SMsync | SMunmap | SClose.

(** errno values (errno.h; io_buffer.cc:153). *)
Definition ENOENT : N := 2.
(** (errno.h; mmap of length 0, io_buffer.cc:95-117). *)
Definition EINVAL : N := 22.
(** (errno.h; io_buffer.cc:152). *)
Definition ENOSPC : N := 28.

(** What the file and the process look like.
    - [w_file]: contents of the file as seen by processes (None: no such file);
    - [w_disk]: contents that survive a crash for certain: those at the last
      successful fsync/msync;
    - [w_dirty]: contents the file has had since then, oldest first, ending with
      [w_file];
    - [w_fd], [w_map]: the descriptor is open, the file is mapped;
    - [w_n]: number of system calls made so far; [w_trace]: these calls with the
      errno of those that failed;
    - [w_snaps]: every ([w_disk], [w_dirty]) there has been
    (what io_buffer.cc:63-306 acts on). *)
Record world := {
  w_file : option bytes;
  w_disk : option bytes;
  w_dirty : list (option bytes);
  w_fd : bool;
  w_map : bool;
  w_n : nat;
  w_trace : list (sys * option N);
  w_snaps : list (option bytes * list (option bytes))
}.

(** A machine on which the file has contents [c], safely on disk
    (before the calls of io_buffer.cc). *)
Definition boot (c : option bytes) : world := {|
  w_file := c; w_disk := c; w_dirty := []; w_fd := false; w_map := false;
  w_n := 0; w_trace := []; w_snaps := [(c, [])]
|}.

(** Record the state for the crash model below (a crash between two steps of
    io_buffer.cc:63-306). *)
Definition snap (w : world) : world := {|
  w_file := w_file w; w_disk := w_disk w; w_dirty := w_dirty w; w_fd := w_fd w;
  w_map := w_map w; w_n := w_n w; w_trace := w_trace w;
  w_snaps := w_snaps w ++ [(w_disk w, w_dirty w)]
|}.
(** The contents change (in the page cache)
    (stores to the mapping, packer.impl.h:129, and io_buffer.cc:134-170). *)
Definition set_file (c : option bytes) (w : world) : world := snap {|
  w_file := c; w_disk := w_disk w; w_dirty := w_dirty w ++ [c]; w_fd := w_fd w;
  w_map := w_map w; w_n := w_n w; w_trace := w_trace w; w_snaps := w_snaps w
|}.
(** Everything reaches the disk (fsync and msync, io_buffer.cc:128-215, 230-306). *)
Definition synced (w : world) : world := snap {|
  w_file := w_file w; w_disk := w_file w; w_dirty := []; w_fd := w_fd w;
  w_map := w_map w; w_n := w_n w; w_trace := w_trace w; w_snaps := w_snaps w
|}.
(** fd_ and buffer_ of the IOBuffer, io_buffer.h:98-104. *)
Definition set_fd (b : bool) (w : world) : world := {|
  w_file := w_file w; w_disk := w_disk w; w_dirty := w_dirty w; w_fd := b;
  w_map := w_map w; w_n := w_n w; w_trace := w_trace w; w_snaps := w_snaps w
|}.
(** buffer_ of the IOBuffer, io_buffer.h:98-104. *)
Definition set_map (b : bool) (w : world) : world := {|
  w_file := w_file w; w_disk := w_disk w; w_dirty := w_dirty w; w_fd := w_fd w;
  w_map := b; w_n := w_n w; w_trace := w_trace w; w_snaps := w_snaps w
|}.
(** Account for a system call of io_buffer.cc:63-306. *)
Definition called (s : sys) (r : option N) (w : world) : world := {|
  w_file := w_file w; w_disk := w_disk w; w_dirty := w_dirty w; w_fd := w_fd w;
  w_map := w_map w; w_n := S (w_n w); w_trace := w_trace w ++ [(s, r)];
  w_snaps := w_snaps w
|}.

(** The contents after ftruncate to / extension to [n] bytes
    (ftruncate, io_buffer.cc:161-170). *)
Definition fit (n : nat) (c : bytes) : bytes :=
  firstn n c ++ repeat x00 (n - length c).

(** A step that can end the call (io_buffer.cc:63-306). *)
Definition io A := world -> res A * world.
(** A step that ends normally (io_buffer.cc:63-306). *)
Definition iret {A} (a : A) : io A := fun w => (Ok a, w).
(** throw (e.g. io_buffer.cc:73-75). *)
Definition ifail {A} (e : fail) : io A := fun w => (Err e, w).
(** One step after the other (io_buffer.cc:63-306). *)
Definition ibind {A B} (p : io A) (f : A -> io B) : io B := fun w =>
  match p w with
  | (Ok a, w') => f a w'
  | (Err e, w') => (Err e, w')
  end.
Declare Scope io_scope.
Delimit Scope io_scope with io.
Notation "x <- p ;; q" := (ibind p (fun x => q))
  (at level 61, p at next level, right associativity) : io_scope.
Notation "p ;;; q" := (ibind p (fun _ => q))
  (at level 61, right associativity) : io_scope.
Local Open Scope io_scope.

(** A packer that also remembers every state its memory has been in (newest
    first): the packer of Serializers.v (src/checkpoint/serializers/packer.impl.h:
    113-133) working in shared mapped memory, where other processes and the disk
    may see any of these states. *)
Definition hpacker : serializer := {|
  state := pmem * list bytes;
  contig b s :=
    match contig packer b (fst s) with
    | Ok (b', m) => Ok (b', (m, p_buf m :: snd s))
    | Err e => Err e
    end;
  count _ s := s;
  note _ s := s
|}.

Section IO.
(** Outcome of the n-th system call: None = success, Some errno = failure. *)
Variable oracle : nat -> option N.
(** checkpoint_has_fallocate, io_buffer.cc:147. *)
Variable has_fallocate : bool.
(** Page size. *)
Variable page : nat.

(** Make system call [s]; [forced]: it fails with this errno whatever the oracle
    says; [effect]: what it does when it succeeds (io_buffer.cc:63-306). *)
Definition syscall (s : sys) (forced : option N) (effect : world -> world) : io (option N) :=
  fun w =>
    let r := match forced with Some e => Some e | None => oracle (w_n w) end in
    let w' := called s r w in
    (Ok r, match r with None => effect w' | Some _ => w' end).

(** if (ret != 0) throw std::runtime_error(...) (io_buffer.cc, after every call). *)
Definition or_throw (p : io (option N)) : io unit :=
  r <- p;; match r with None => iret tt | Some _ => ifail RtErr end.

(** Bytes addressable through a mapping of the whole file: the kernel fills the
    rest of the last page with zeros, accesses beyond it raise SIGBUS
    (mmap(2), io_buffer.cc:63-215). *)
Definition map_mem (c : bytes) : bytes :=
  c ++ repeat x00 (Nat.modulo (page - Nat.modulo (length c) page) page).

(** The part of the process's view of the file that is file contents
    (fstat, io_buffer.cc:63-126). *)
Definition contents (w : world) : bytes :=
  match w_file w with Some c => c | None => [] end.

(** IOBuffer::setupForRead, io_buffer.cc:63-126.  mmap of length 0 fails with
    EINVAL. *)
Definition setup_for_read : io unit := fun w =>
  (or_throw (syscall SOpen (match w_file w with None => Some ENOENT | _ => None end)
               (set_fd true));;;
   or_throw (syscall SFstat None (fun w => w));;;
   or_throw (syscall SMmap (match contents w with [] => Some EINVAL | _ => None end)
               (set_map true))) w.

(** IOBuffer::setupForWrite, io_buffer.cc:128-215 (fallocate: 146-159; with mode
    0 it extends the file; it and mmap reject size 0). *)
Definition setup_for_write (size : N) : io unit :=
  let zero := if size =? 0 then Some EINVAL else None in
  or_throw (syscall SOpen None (fun w => set_file (Some []) (set_fd true w)));;;
  (if has_fallocate then
     r <- syscall SFallocate zero
            (fun w => set_file (Some (contents w ++
                        repeat x00 (N.to_nat size - length (contents w)))) w);;
     match r with
     | Some e => if e =? ENOSPC then ifail RtErr else iret tt
     | None => iret tt
     end
   else iret tt);;;
  or_throw (syscall SFtruncate None
              (fun w => set_file (Some (fit (N.to_nat size) (contents w))) w));;;
  or_throw (syscall SFsync None synced);;;
  or_throw (syscall SMmap zero (set_map true)).

(** IOBuffer::closeFile, io_buffer.cc:230-306 *)
Definition close_file (write : bool) : io unit := fun w =>
  if w_fd w then
    ((if write then or_throw (syscall SMsync None synced) else iret tt);;;
     or_throw (syscall SMunmap None (set_map false));;;
     or_throw (syscall SClose None (set_fd false))) w
  else iret tt w.

(** ~IOBuffer, io_buffer.h:88: a destructor is noexcept, an exception leaving it
    calls std::terminate. *)
Definition destroy (write : bool) : io unit := fun w =>
  match close_file write w with
  | (Ok _, w') => (Ok tt, w')
  | (Err _, w') => (Err Terminate, w')
  end.

(** [p] runs while the IOBuffer exists: its destructor runs when [p] returns and
    when an exception leaves [p]; after undefined behaviour or an abort nothing
    more is claimed
    (C++ scoping; the buffer is a member of the serializer, packer.h:79, unpacker.h). *)
Definition scoped {A} (write : bool) (p : io A) : io A := fun w =>
  match p w with
  | (Ok a, w') => (destroy write;;; iret a) w'
  | (Err e, w') =>
    if is_exception e then (destroy write;;; ifail e) w' else (Err e, w')
  end.

(** The packer writes into the mapping.  The object is not validated against the size
    afterwards (only packBuffer does that, dispatch.impl.h:250-266).  When the
    traversal throws, what it wrote so far stays in the file; simplification: in
    that case the model leaves the file as ftruncate left it. *)
Definition pack_mapping {A} (p : prog A) : io A := fun w =>
  let c := contents w in
  match interp hpacker p false ({| p_buf := map_mem c; p_cur := 0; p_used := 0 |}, []) with
  | Err e => (Err e, w)
  | Ok (v', _, (s, h)) =>
    (Ok v', fold_left (fun w m => set_file (Some (firstn (length c) m)) w) (rev h) w)
  end.

(** pack with a PackerBuffer<IOBuffer>, which is created from (size, WriteToFileTag, size,
    file), packer.impl.h:88-102, dispatch.impl.h:208-211; [p]: the traversal of the packer. *)
Definition write_mapping {A} (size : N) (p : prog A) : io A :=
  setup_for_write size;;; scoped true (pack_mapping p).

Section Typed.
Variable E : env.

(** pack of a typed object (dispatch.impl.h:208-211). *)
Definition pack_file (f : nat) (t : ty) (v : val) : io val :=
  pack_mapping (with_root E MPacking f t v).

(** serializeToFile, checkpoint_api.impl.h:101-107. *)
Definition serialize_to_file (f : nat) (t : ty) (v : val) : io val := fun w =>
  match get_size E f t v with
  | Err e => (Err e, w)
  | Ok (v1, size) =>
    (setup_for_write size;;; scoped true (pack_file f t v1)) w
  end.

(** The unpacker reads from the mapping, unpacker.impl.h:72-99. *)
Definition unpack_file (f : nat) (t : ty) (target : val) : io val := fun w =>
  match unpack_memory E f t (map_mem (contents w)) 0 target with
  | Ok (v, _) => (Ok v, w)
  | Err e => (Err e, w)
  end.

(** deserializeInPlaceFromFile, checkpoint_api.impl.h:119-124 *)
Definition deserialize_in_place_from_file (f : nat) (t : ty) (target : val) : io val :=
  setup_for_read;;; scoped false (unpack_file f t target).

(** deserializeFromFile, checkpoint_api.impl.h:109-117 *)
Definition deserialize_from_file (f : nat) (t : ty) : io val :=
  match recon E t with
  | Some o => deserialize_in_place_from_file f t o
  | None => ifail Stuck
  end.

(** What happens to the memory of the object meanwhile: the raw pointer is not
    owned by anything until unpack has returned (checkpoint_api.impl.h:109-117). *)
Definition deserialize_file_heap (f : nat) (t : ty) (w : world) : res val * list hevent :=
  match recon E t with
  | Some o =>
    match deserialize_in_place_from_file f t o w with
    | (Ok v, _) => (Ok v, [HAlloc; HConstruct; HReturn])
    | (Err e, _) => (Err e, [HAlloc; HConstruct])
    end
  | None => (Err Stuck, [])
  end.
End Typed.
End IO.

(** ** Crashes *)

(** Contents the file can have after a crash at a moment at which [disk] was
    safely stored and the file has since had the contents [dirty]: the size is
    that of one of these versions, and every page is the page of that or a later
    version (the kernel writes pages back in any order), as long as the page was
    not dropped by a truncation in between (of the files written by io_buffer.cc). *)
Definition crash_state (page : nat) (disk : option bytes) (dirty : list (option bytes))
  (c : option bytes) : Prop :=
  exists i v, nth_error (disk :: dirty) i = Some v /\
  match v with
  | None => c = None
  | Some b =>
    exists b', c = Some b' /\ length b' = length b /\
    forall p, (p * page < length b')%nat -> exists j bj, (i <= j)%nat /\
      nth_error (disk :: dirty) j = Some (Some bj) /\
      (forall j' bj', (i <= j' <= j)%nat -> nth_error (disk :: dirty) j' = Some (Some bj') ->
         (p * page < length bj')%nat) /\
      forall k, (k < length b')%nat -> Nat.div k page = p ->
        nth_error b' k = Some (nth k bj x00)
  end.
