(** Selection of the construction mechanism: the overloads of
    src/checkpoint/dispatch/reconstructor.h:56-176 and the detection traits of
    src/checkpoint/traits/serializable_traits.h:161-225 and
    src/checkpoint/traits/reconstructor_traits.h:53-91. *)
From Coq Require Import List Bool.
From Verif Require Import Base.
Import ListNotations.
Local Open Scope bool_scope.

(** What is detected about a type (serializable_traits.h:165-195,
    reconstructor_traits.h:53-59):
    - [f_tag]: T(SERIALIZE_CONSTRUCT_TAG) is well-formed (169-171);
    - [f_intrusive]: T::reconstruct(void* ) returns T& (173-175);
    - [f_nonintrusive]: reconstruct(T*&, void* ) is found (177-185);
    - [f_specialized]: CheckpointReconstructor<T>::reconstruct (187-195);
    - [f_expr]: T() is well-formed (165-167);
    - [f_default]: std::is_default_constructible<T>. *)
Record features := {
  f_tag : bool;
  f_intrusive : bool;
  f_nonintrusive : bool;
  f_specialized : bool;
  f_expr : bool;
  f_default : bool
}.

(** is_reconstructible, serializable_traits.h:217-220 *)
Definition f_reconstruct (f : features) : bool :=
  f_nonintrusive f || f_intrusive f || f_specialized f.
(** is_constructible, serializable_traits.h:224-225 *)
Definition f_constructible (f : features) : bool :=
  f_expr f || f_reconstruct f || f_tag f.

(** The statements that create an object, reconstructor.h:132, 95, 118, 106, 64. *)
Inductive mech := Tagged | Intrusive | NonIntrusive | Specialized | Default.

(** What calling a function of Reconstructor<T> does: it does not compile, or it
    runs [ms] and then returns a pointer to an object, returns nullptr, or aborts
    in checkpointAssert.  The functions provided by the user are assumed to
    construct the object (reconstructor.h:56-176). *)
Inductive ret := Object | Null | Abort.
(** What a call does as a whole (reconstructor.h:56-176). *)
Inductive outcome :=
| IllFormed
| Does (ms : list mech) (r : ret).

(** Overload resolution between function templates that differ only in the
    enable_if condition of their last parameter: exactly one must be viable, and
    only its body is instantiated (reconstructor.h:56-176). *)
Definition overload (l : list (bool * outcome)) : outcome :=
  match filter fst l with
  | [(_, o)] => o
  | _ => IllFormed
  end.

(** constructDefault, reconstructor.h:58-79 *)
Definition construct_default (f : features) : outcome :=
  overload
    [(f_default f, Does [Default] Object);
     (negb (f_default f),
      if f_tag f || f_reconstruct f || f_default f then Does [] Null else IllFormed)].

(** constructReconstruct, reconstructor.h:91-126 *)
Definition construct_reconstruct (f : features) : outcome :=
  overload
    [(f_intrusive f, Does [Intrusive] Object);
     (f_specialized f, Does [Specialized] Object);
     (f_nonintrusive f, Does [NonIntrusive] Object);
     (negb (f_reconstruct f), construct_default f)].

(** constructTag and construct, reconstructor.h:128-145 *)
Definition construct_tag (f : features) : outcome :=
  overload
    [(f_tag f, Does [Tagged] Object);
     (negb (f_tag f), construct_reconstruct f)].
(** construct, reconstructor.h:142-145. *)
Definition construct_type (f : features) : outcome := construct_tag f.

(** constructAllowFail, reconstructor.h:147-175; [asserts]: assertions are compiled
    in (common.h:84-119) *)
Definition construct_allow_fail (asserts : bool) (f : features) : outcome :=
  overload
    [(f_constructible f, construct_type f);
     (negb (f_constructible f), if asserts then Does [] Abort else Does [] Null)].
