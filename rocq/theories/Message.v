(** Specification: what the message of a serialization_error has to say. *)
From Coq Require Import List NArith Arith Bool.
From Verif Require Import Base Syntax Prog.
Import ListNotations.
Local Open Scope N_scope.

(** The types of the objects that an object of type [t] is made of. *)
Definition components (t : ty) : list ty :=
  match t with
  | TEnum _ u n | TChrono _ u n => [TPrim u n]
  | TString => [CHAR]
  | TVecBool => [BOOL]
  | TVector u | TArray _ u | TList _ u | TQueue u | TAssoc _ u | TOptional u | TUnique u
  | TShared u | TRaw u | TAdaptor u => [u]
  | TPair a b => [a; b]
  | TTuple ts | TVariant ts => ts
  | _ => []
  end.

(** The types of the counts and flags that are stored with an object of type [t]. *)
Definition words (t : ty) : list ty :=
  match t with
  | TString | TVector _ | TVecBool | TList _ _ | TQueue _ | TAssoc _ _ | TVariant _ => [SIZE]
  | TOptional _ => [BOOL]
  | TUnique _ => [BOOL; INT]
  | _ => []
  end.

(** [direct E t u]: an object of type [u] can be read directly on behalf of one of type [t]. *)
Inductive direct (E : env) : ty -> ty -> Prop :=
| DPart t u : In u (components t) -> direct E t u
| DWord t u : In u (words t) -> direct E t u
| DMember c k u : cls E c = Some k -> In u (cfields k) -> direct E (TClass c) u
| DClass c d : is_virtual E (TClass c) = true -> is_virtual E (TClass d) = true ->
    direct E (TClass c) (TClass d).

(** Lines that name the types [us], numbered from [k]. *)
Fixpoint frames (E : env) (k : nat) (us : list ty) : list line :=
  match us with
  | [] => []
  | u :: r => Frame k (tix E u) :: frames E (S k) r
  end.

(** [nested E u us t]: an object of type [u] inside objects of the types [us], innermost
    first, the outermost of which is the object of type [t] the call is about. *)
Inductive nested (E : env) : ty -> list ty -> ty -> Prop :=
| NeRoot t : nested E t [] t
| NeIn u w us t : direct E w u -> nested E w us t -> nested E u (w :: us) t.

(** The first line says what is wrong with an object of type [u]: another type index was
    found, which comes after "expected="; or its size differs. *)
Inductive complaint (E : env) (u : ty) : line -> Prop :=
| CoType i : i <> tix E u -> complaint E u (WrongType (tix E u) i (tix E u))
| CoSize n k : n <> wrap64 (sizeof E u * k) ->
    complaint E u (MemUsed (tix E u) n (wrap64 (sizeof E u * k))).

(** [explained E t d ls]: the lines [ls] of an error of depth [d], met while reading an object
    of type [t], say what is wrong with which object and list the [d] objects around it,
    numbered from the inside. *)
Definition explained (E : env) (t : ty) (d : nat) (ls : list line) : Prop :=
  exists u us l, ls = l :: frames E 1 us /\ length us = d /\ nested E u us t /\ complaint E u l.
