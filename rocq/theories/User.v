(** Serialize functions of users that depend on data: BasicDispatcher calls the function of
    the class on the object, src/checkpoint/dispatch/dispatch_serializer_nonbyte.h:59-68,
    and the function may be any code.  Here it may branch and loop on the object, serialize
    local variables and change the object, as the ones in tests/unit/
    test_virtual_serialize.cc:341-366, examples/checkpoint_example_polymorphic.cc,
    tests/unit/test_serialization_error_checking.cc:189-203 and the comments of
    dispatch_virtual.h:92-113 and virtual_serialize.h:190-216 do.
    An object is the list of its members.  Simplifications: the code between the calls of
    the library is a total function on the object; a container the function iterates over
    itself is only its elements ([VSeq]). *)
From Coq Require Import List NArith Arith Bool.
From Verif Require Import Base Syntax Prog Serializers Traverse Views Pointers.
Import ListNotations.
Local Open Scope N_scope.
Local Open Scope prog_scope.

(** How a variable is serialized: [s | x] (dispatch.h:129-160), or with one of the patterns
    for pointers (dispatch_virtual.h:100-112, virtual_serialize.h:199-212). *)
Inductive how := Plain (t : ty) | Pointed (k : member).

(** A statement of such a function.
    - [SMember i k]: the i-th member is serialized (test_serialization_error_checking.cc:192);
    - [SLocal t get put]: a local variable is initialized from the object, serialized, and
      the object changed accordingly (test_virtual_serialize.cc:343-345);
    - [SUnpack g]: [if (s.isUnpacking()) ...] (dispatch_virtual.h:106-108);
    - [SFor n i k]: the first [n] elements of the i-th member are serialized
      (test_virtual_serialize.cc:350-357). *)
Inductive stmt :=
| SMember (i : nat) (k : how)
| SLocal (t : ty) (get : list val -> val) (put : list val -> val -> list val)
| SUnpack (g : list val -> list val)
| SFor (n : list val -> nat) (i : nat) (k : how).

(** The body of a serialize function: statements, and branches on the object (the pattern
    of dispatch_virtual.h:100-112 branches on the variable it has serialized). *)
Inductive block :=
| Done
| Then (s : stmt) (b : block)
| If (c : list val -> bool) (b1 b2 b : block).

Section User.
Variable E : env.
Variable m : mode.
Variable rec : ty -> list val -> prog (list val).

(** One variable (dispatch.h:129-160; dispatch_virtual.h:100-112;
    virtual_serialize.h:199-212). *)
Definition ser_how (k : how) (v : val) : prog val :=
  match k with
  | Plain t => ser rec t v
  | Pointed p =>
    match v with
    | VOpt o =>
      x <- (if p_shared p then ser_shared E m rec (p_ty p) o else ser_raw E m rec (p_ty p) o);;
      Ret (VOpt x)
    | _ => Fail Stuck
    end
  end.

(** [for (i = 0; i < n; i++) s | a[i]] (test_virtual_serialize.cc:350-357): undefined
    behaviour past the end of the container. *)
Fixpoint ser_first (k : how) (n : nat) (l : list val) : prog (list val) :=
  match n, l with
  | O, _ => Ret l
  | S n', x :: l' => y <- ser_how k x;; r <- ser_first k n' l';; Ret (y :: r)
  | S _, [] => Fail UB
  end.

(** A statement: the object as it is left (dispatch_serializer_nonbyte.h:59-68; see [stmt]
    for the lines). *)
Definition ser_stmt (s : stmt) (fs : list val) : prog (list val) :=
  match s with
  | SMember i k =>
    match nth_error fs i with
    | Some v => x <- ser_how k v;; Ret (upd fs i x)
    | None => Fail Stuck
    end
  | SLocal t get put => x <- ser rec t (get fs);; Ret (put fs x)
  | SUnpack g => Ret (if is_unpacking m then g fs else fs)
  | SFor n i k =>
    match nth_error fs i with
    | Some (VSeq l) => l' <- ser_first k (n fs) l;; Ret (upd fs i (VSeq l'))
    | _ => Fail Stuck
    end
  end.

(** The function (dispatch_serializer_nonbyte.h:59-68). *)
Fixpoint ser_block (b : block) (fs : list val) : prog (list val) :=
  match b with
  | Done => Ret fs
  | Then s b' => fs1 <- ser_stmt s fs;; ser_block b' fs1
  | If c b1 b2 b' => fs1 <- (if c fs then ser_block b1 fs else ser_block b2 fs);; ser_block b' fs1
  end.
End User.

Section UserApi.
Variable E : env.
Variable f : nat.
(** Objects of a class called [name] with this function, as root objects:
    checkpoint_api.impl.h:56-80, dispatch.impl.h:236-292. *)
Definition root_by (m : mode) (name : ty) (b : block) (fs : list val) : prog (list val) :=
  root_object E m name (ser_block E m (with_ E m f) b fs).
(** serialize of such an object (checkpoint_api.impl.h:56-64). *)
Definition serialize_by (name : ty) (b : block) (fs : list val) : res (bytes * list val) :=
  serialize_object (tix E name) (root_by MSizing name b fs) (root_by MPacking name b fs).
(** serializeToStream of such an object (checkpoint_api.impl.h:126-132). *)
Definition stream_by (name : ty) (b : block) (fs : list val) : res (bytes * list val) :=
  stream_object (root_by MSizing name b fs) (root_by MPacking name b fs).
(** deserialize of such an object (checkpoint_api.impl.h:66-86). *)
Definition deserialize_by (name : ty) (b : block) (mem : bytes) (off : nat) (ws : list val)
  : res (list val * N) :=
  deserialize_object (root_by MUnpacking name b ws) mem off.
End UserApi.

(** ** The function of TestWrapper, tests/unit/test_virtual_serialize.cc:341-366 (the same
    in examples/checkpoint_example_polymorphic.cc): two vectors of pointers. *)

(** [auto n = vec.size()], tests/unit/test_virtual_serialize.cc:343, 346. *)
Definition size_of (i : nat) (fs : list val) : val :=
  VB (le 8 (match nth_error fs i with Some (VSeq l) => N.of_nat (length l) | _ => 0 end)).
(** [vec.resize(n)], tests/unit/test_virtual_serialize.cc:345, 348: new elements are
    null. *)
Definition resize_to (i : nat) (fs : list val) (n : val) : list val :=
  match nth_error fs i, n with
  | Some (VSeq l), VB b => upd fs i (VSeq (resize (N.to_nat (unle b)) (VOpt None) l))
  | _, _ => fs
  end.
(** The loops of tests/unit/test_virtual_serialize.cc:350-366 run over all elements. *)
Definition count (i : nat) (fs : list val) : nat :=
  match nth_error fs i with Some (VSeq l) => length l | _ => O end.
(** The function itself, tests/unit/test_virtual_serialize.cc:341-366. *)
Definition wrapper (k0 k1 : member) : block :=
  Then (SLocal SIZE (size_of 0) (resize_to 0))
 (Then (SLocal SIZE (size_of 1) (resize_to 1))
 (Then (SFor (count 0) 0 (Pointed k0))
 (Then (SFor (count 1) 1 (Pointed k1)) Done))).

(** Such a function with the length in a member: [s | n; for (i = 0; i < n; i++) s | a[i];]
    without an allocation in between (the one of tests/unit/test_virtual_serialize.cc:341-366
    without lines 345 and 348). *)
Definition stored_count (fs : list val) : nat :=
  match fs with VB b :: _ => N.to_nat (unle b) | _ => O end.
(** The function without the allocation (after tests/unit/test_virtual_serialize.cc:341-366). *)
Definition unallocated (k : how) : block :=
  Then (SMember 0 (Plain SIZE)) (Then (SFor stored_count 1 k) Done).
