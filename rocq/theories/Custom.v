(** Traversals by serializers of the user's own.

    Traverse::with<T, TraverserT>(obj) constructs the user's serializer, which derives from
    BaseSerializer in mode None and has a contiguousBytes function of its own
    (examples/checkpoint_example_traversal.cc:82-89, tests/unit/test_traversal.cc:102-111),
    and traverses the object with it (dispatch.impl.h:169-188). *)
From Coq Require Import List NArith Arith Bool.
From Coq.Strings Require Import Byte.
From Verif Require Import Base Syntax Prog Serializers Traverse Streams.
Import ListNotations.
Local Open Scope N_scope.

(** A serializer that looks at the bytes it is handed, leaves them as they are, and may throw.
    countBytes and addBytes are those of BaseSerializer, which do nothing
    (base_serializer.h:129-136).  Simplification: what it throws is not a
    serialization_error. *)
Definition visitor {S : Type} (step : bytes -> S -> res S) : serializer := {|
  state := S;
  contig b s := match step b s with Ok s' => Ok (b, s') | Err e => Err e end;
  count _ s := s;
  note _ s := s
|}.

(** Traverse::with<T, TraverserT>(obj), dispatch.impl.h:169-188, in mode None, in which no type
    numbers and sizes are recorded (dispatch.impl.h:82-103, 115-131).  The serializer is not one
    of those whose entries are linked (serializers_headers.h:55-64).  Simplification: [s] is the
    state the constructor leaves, and the result is the final state instead of the serializer;
    the returned value is the object afterwards. *)
Definition custom_traverse (E : env) {S : Type} (step : bytes -> S -> res S) (f : nat) (t : ty)
  (v : val) (s : S) : res (val * S) :=
  match interp (visitor step) (unlisted E (with_root E MNone f t v)) false s with
  | Ok (v', _, s') => Ok (v', s')
  | Err e => Err e
  end.
