(** Traversals by serializers with a dispatcher of their own.

    A serializer names, as its member template DispatcherType, the class whose functions
    serializeIntrusive and serializeNonIntrusive call the serialization code of an object
    (base_serializer.h:78-79, dispatch.impl.h:77, 110, 140).  A user's dispatcher does what
    BasicDispatcher does (dispatch_serializer_nonbyte.h:59-68), and something else for the
    types that it is specialised for (examples/checkpoint_example_traversal.cc:102-125,
    tests/unit/test_traversal.cc:113-149). *)
From Coq Require Import List NArith Arith Bool.
From Coq.Strings Require Import Byte.
From Verif Require Import Base Syntax Prog Serializers Traverse Streams.
Import ListNotations.
Local Open Scope N_scope.

Section Dispatch.
Variable E : env.
Variable m : mode.
(** The types that the user's dispatcher is specialised for. *)
Variable special : ty -> bool.

(** Whether serializing an object of type [t] calls a function of the specialisation: all types
    of objects but enumerations do (dispatch_serializer_nonbyte.h:174-214).  Byte-copyable types
    do not come here (dispatch_serializer_byte.h:67-80). *)
Definition specialised (t : ty) : bool :=
  match t with TEnum _ _ _ => false | _ => special t end.

Section Rec.
Variable rec : ty -> list val -> prog (list val).

(** applyStatic for one object, dispatch_serializer_nonbyte.h:174-214.  Simplification: a
    specialised dispatcher leaves the object as it is, throws nothing and does not use the
    serializer; no specialised class has serializeParent and serializeThis functions. *)
Definition dispatch_elem (t : ty) (v : val) : prog val :=
  if specialised t then Note (EvHand t v) (Ret v) else apply_elem E m rec t v.

(** SerializerDispatch, as [Traverse.ap]: dispatch_serializer_byte.h:67-80,
    dispatch_serializer_nonbyte.h:216-234. *)
Definition dispatch_ap (t : ty) (vs : list val) : prog (list val) :=
  if bytecopy E t then
    match opt_all (map (obj_bytes E t) vs) with
    | Some bs => Contig (concat bs) (fun b => Ret (unflatten E t vs b))
    | None => Fail Stuck
    end
  else if is_virtual E t then
    GetV (fun disabled =>
      if (disabled : bool) then SetV false (mapP (dispatch_elem t) vs)
      else match vs with
           | [] => Ret []
           | v :: r => bind (dyn_serialize E rec v) (fun v' => Ret (v' :: r))
           end)
  else mapP (dispatch_elem t) vs.

(** Traverse::with(T& target, TraverserT& t, len), dispatch.impl.h:136-167 *)
Definition dispatch_traverse (t : ty) (vs : list val) : prog (list val) :=
  if chk E then
    bind (with_type_idx E m t) (fun _ => bind (catch (tix E t) (dispatch_ap t vs)) (fun vs' =>
    bind (with_mem_used E m t (length vs)) (fun _ => Ret vs')))
  else dispatch_ap t vs.
End Rec.

(** The recursive traversal, dispatch.impl.h:136-167. *)
Fixpoint dispatch_with (fuel : nat) (t : ty) (vs : list val) : prog (list val) :=
  match fuel with
  | O => Fail NoFuel
  | S f => dispatch_traverse (dispatch_with f) t vs
  end.

(** Traverse::with(T& target, Args&&... args), dispatch.impl.h:169-188 *)
Definition dispatch_root (fuel : nat) (t : ty) (v : val) : prog val :=
  if chk E then ser (dispatch_with fuel) t v
  else
    bind (with_type_idx E m t) (fun _ => bind (ser (dispatch_with fuel) t v) (fun v' =>
    bind (with_mem_used E m t 1) (fun _ => Ret v'))).
End Dispatch.

(** A serializer that looks at the bytes it is handed, leaves them as they are and may throw, with
    a dispatcher that looks at the objects it is handed.  countBytes and addBytes are those of
    BaseSerializer, which do nothing (base_serializer.h:129-136).  Simplification: what it throws
    is not a serialization_error. *)
Definition receiver {S : Type} (step : bytes -> S -> res S) (hand : ty -> val -> S -> S) : serializer := {|
  state := S;
  contig b s := match step b s with Ok s' => Ok (b, s') | Err e => Err e end;
  count _ s := s;
  note e s := match e with EvHand t v => hand t v s | _ => s end
|}.

(** Traverse::with<T, TraverserT>(obj), dispatch.impl.h:169-188, with a serializer of the user's
    own that tells its base class the mode [m] (base_serializer.h:81-86) and is not one of those
    whose entries are linked (serializers_headers.h:55-64).  Simplification: [s] is the state the
    constructor leaves, and the result is the final state instead of the serializer; the returned
    value is the object afterwards. *)
Definition dispatched_traverse (E : env) (m : mode) (special : ty -> bool) {S : Type}
  (step : bytes -> S -> res S) (hand : ty -> val -> S -> S) (f : nat) (t : ty) (v : val) (s : S)
  : res (val * S) :=
  match interp (receiver step hand) (unlisted E (dispatch_root E m special f t v)) false s with
  | Ok (v', _, s') => Ok (v', s')
  | Err e => Err e
  end.
