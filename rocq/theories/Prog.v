(** What serialization code does to a serializer, as a free monad.

    A C++ [serialize(SerializerT& s, T& t)] is compiled once per serializer; all
    it can do with [s] is: query the mode (a parameter of the model, since each
    serializer has one fixed mode), call contiguousBytes, countBytes/addBytes,
    read/set the virtual-dispatch flag, and throw.  [prog A] is the tree of these
    operations; a serializer interprets it. *)
From Coq Require Import List NArith Arith Bool.
From Verif Require Import Base Syntax.
Import ListNotations.

(** Events with no effect on any serializer, used to observe executions.
    - [EvSerialize c]: the user's serialize function of class [c] is entered
      (dispatch_serializer_nonbyte.h:183-186); [EvReturn c]: it returns;
    - [EvRegistry c]: the entries of class [c] in the process-wide serializer
      registry are written and then searched (link_derived_to_base_idx.h:51-59,
      called from derived.h:61-64 and base.h:62-65 on every dynamic dispatch);
    - [EvAbandon t v]: a temporary of type [t] holding [v] is left in raw storage
      that is freed without running its destructor (dispatch/allocator.h:53-59);
    - [EvConstruct t]: Reconstructor<T>::construct runs (reconstructor.h:142-145);
    - [EvFirst t]: the process-wide flag that says whether an object of type [t] without
      serialization code is counted for the first time is read and, the first time, written
      (dispatch_serializer_nonbyte.h:161-169);
    - [EvHand t v]: a dispatcher that the user has written for objects of type [t] is
      handed the object [v] (dispatch_serializer_nonbyte.h:183-184, 198-199). *)
Inductive event :=
| EvSerialize (c : nat)
| EvReturn (c : nat)
| EvRegistry (c : nat)
| EvAbandon (t : ty) (v : val)
| EvConstruct (t : ty)
| EvFirst (t : ty)
| EvHand (t : ty) (v : val).

(** - [Contig b k]: s.contiguousBytes(ptr, size, num) where the object at [ptr]
      currently holds the size*num bytes [b]; [k] continues with the bytes the
      object holds afterwards (base_serializer.h:145, 163-165);
    - [Count n k]: s.countBytes(x) with sizeof(x) = n, or s.addBytes(n)
      (base_serializer.h:129-136; footprinter.h:60-68);
    - [GetV]/[SetV]: isVirtualDisabled/setVirtualDisabled (base_serializer.h:
      197-208);
    - [Fail e]: throw / failed assertion / undefined behaviour. *)
Inductive prog (A : Type) :=
| Ret (a : A)
| Contig (b : bytes) (k : bytes -> prog A)
| Count (n : N) (k : prog A)
| GetV (k : bool -> prog A)
| SetV (f : bool) (k : prog A)
| Note (e : event) (k : prog A)
| Fail (e : fail).
Arguments Ret {A} a.
Arguments Contig {A} b k.
Arguments Count {A} n k.
Arguments GetV {A} k.
Arguments SetV {A} f k.
Arguments Note {A} e k.
Arguments Fail {A} e.

(** Sequential composition (C++ statement sequencing) (everywhere in container, e.g.
    tuple_serialize.h:75-80). *)
Fixpoint bind {A B} (p : prog A) (f : A -> prog B) : prog B :=
  match p with
  | Ret a => f a
  | Contig b k => Contig b (fun x => bind (k x) f)
  | Count n k => Count n (bind k f)
  | GetV k => GetV (fun x => bind (k x) f)
  | SetV v k => SetV v (bind k f)
  | Note e k => Note e (bind k f)
  | Fail e => Fail e
  end.

Declare Scope prog_scope.
Delimit Scope prog_scope with prog.
Notation "x <- p ;; q" := (bind p (fun x => q))
  (at level 61, p at next level, right associativity) : prog_scope.
Notation "p ;;; q" := (bind p (fun _ => q))
  (at level 61, right associativity) : prog_scope.

(** try { p } catch (serialization_error) { rethrow with depth + 1 and one more line, for
    the type with index [i] }, src/checkpoint/dispatch/dispatch.impl.h:150-157.  Exceptions
    thrown by the serializer itself are std::runtime_error, not serialization_error, hence
    not caught. *)
Fixpoint catch {A} (i : N) (p : prog A) : prog A :=
  match p with
  | Ret a => Ret a
  | Contig b k => Contig b (fun x => catch i (k x))
  | Count n k => Count n (catch i k)
  | GetV k => GetV (fun x => catch i (k x))
  | SetV v k => SetV v (catch i k)
  | Note e k => Note e (catch i k)
  | Fail e => Fail (bump i e)
  end.

(** A serializer: its state and its implementation of the operations
    (src/checkpoint/serializers/base_serializer.h:63-209). *)
Record serializer := {
  state : Type;
  contig : bytes -> state -> res (bytes * state);
  count : N -> state -> state;
  note : event -> state -> state
}.

(** Running serialization code on a serializer; [vf] is its virtual_disabled_
    flag (base_serializer.h:208). *)
Fixpoint interp (H : serializer) {A} (p : prog A) (vf : bool) (s : state H)
  : res (A * bool * state H) :=
  match p with
  | Ret a => Ok (a, vf, s)
  | Contig b k =>
    match contig H b s with
    | Ok (b', s') => interp H (k b') vf s'
    | Err e => Err e
    end
  | Count n k => interp H k vf (count H n s)
  | GetV k => interp H (k vf) vf s
  | SetV v k => interp H k v s
  | Note e k => interp H k vf (note H e s)
  | Fail e => Err e
  end.

(** for (i = 0; i < n; ++i) over the elements of a sequence
    (e.g. dispatch_serializer_nonbyte.h:174-201). *)
Fixpoint mapP {A B} (f : A -> prog B) (l : list A) : prog (list B) :=
  match l with
  | [] => Ret []
  | x :: r => bind (f x) (fun y => bind (mapP f r) (fun ys => Ret (y :: ys)))
  end.

(** An accumulating loop (e.g. map_serialize.h:66-75). *)
Fixpoint foldP {A B} (f : B -> A -> prog B) (l : list A) (acc : B) : prog B :=
  match l with
  | [] => Ret acc
  | x :: r => bind (f acc x) (fun acc' => foldP f r acc')
  end.

(** A type that cannot be constructed does not compile, reconstructor.h:68-79. *)
Definition of_opt {A} (o : option A) : prog A :=
  match o with Some a => Ret a | None => Fail Stuck end.
