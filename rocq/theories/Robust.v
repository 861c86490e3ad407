(** What a program may expect of reading arbitrary bytes: specification only.

    Nothing here refers to programs, serializers or the traversal. *)
From Coq Require Import List NArith Arith Bool.
From Coq.Strings Require Import Byte.
From Verif Require Import Base Syntax Spec.
Import ListNotations.
Local Open Scope N_scope.

(** [valid E t v]: [v] is an object of type [t] whose parts are objects of their types;
    containers are in the order their comparators require.  Nothing is said about the
    contents.  Unlike [has_ty] this does not ask whether [v] can be serialized. *)
Inductive valid (E : env) : ty -> val -> Prop :=
| VaPrim id sz b : length b = sz -> valid E (TPrim id sz) (VB b)
| VaEnum id uid usz b : length b = usz -> valid E (TEnum id uid usz) (VB b)
| VaChrono id uid usz b : length b = usz -> valid E (TChrono id uid usz) (VB b)
| VaString cap b : len b <= cap -> valid E TString (VStr cap b)
| VaVector t cap l : len l <= cap -> Forall (valid E t) l -> valid E (TVector t) (VVec cap l)
| VaVecBool cap l :
    len l <= cap -> Forall (fun v => v = VB [x00] \/ v = VB [x01]) l ->
    valid E TVecBool (VVec cap l)
| VaArray n t l : length l = n -> Forall (valid E t) l -> valid E (TArray n t) (VSeq l)
| VaList dq t l : Forall (valid E t) l -> valid E (TList dq t) (VSeq l)
| VaQueue t l : Forall (valid E t) l -> valid E (TQueue t) (VSeq l)
| VaOrd multi mp t l :
    Forall (valid E t) l -> sorted_by multi (less E (TAssoc (AOrd multi mp) t)) l ->
    valid E (TAssoc (AOrd multi mp) t) (VSeq l)
| VaHash multi mp t l :
    Forall (valid E t) l ->
    (multi = false -> distinct_by (keq E (TAssoc (AHash multi mp) t)) l) ->
    valid E (TAssoc (AHash multi mp) t) (VBag l)
| VaPair a b x y : valid E a x -> valid E b y -> valid E (TPair a b) (VSeq [x; y])
| VaTuple ts l : Forall2 (valid E) ts l -> valid E (TTuple ts) (VSeq l)
| VaNone t : valid E (TOptional t) (VOpt None)
| VaSome t v : valid E t v -> valid E (TOptional t) (VOpt (Some v))
| VaVariant ts i t v :
    bytecopy E (TVariant ts) = false -> nth_error ts i = Some t -> valid E t v ->
    valid E (TVariant ts) (VVar i v)
| VaVariantNone ts : bytecopy E (TVariant ts) = false -> valid E (TVariant ts) VVarNone
| VaVariantB ts b :
    bytecopy E (TVariant ts) = true -> len b = szof E (TVariant ts) ->
    valid E (TVariant ts) (VB b)
| VaNull t : valid E (TUnique t) (VOpt None)
| VaUnique t v : is_virtual E t = false -> valid E t v -> valid E (TUnique t) (VOpt (Some v))
| VaUniqueV c d ls :
    is_virtual E (TClass c) = true -> In c (chain E d) -> obj_idx E d <> None ->
    valid E (TClass d) (VObj d ls) -> valid E (TUnique (TClass c)) (VOpt (Some (VObj d ls)))
| VaClassB c k b :
    cls E c = Some k -> cbyte k = true -> cvirt k = false -> len b = csize k ->
    valid E (TClass c) (VB b)
| VaClass c k ls :
    cls E c = Some k -> (cbyte k = true -> cvirt k = true) ->
    Forall2 (fun c' fs => exists k', cls E c' = Some k' /\
       ((cbyte k' = true /\ exists b, fs = [VB b] /\ len b = csize k') \/
        (cbyte k' = false /\ Forall2 (valid E) (cfields k') fs))) (chain E c) ls ->
    valid E (TClass c) (VObj c ls).

(** What a comparator and a key equality have to be, as the standard library asks. *)
Definition good_order (E : env) (k : assoc) (t : ty) : Prop :=
  match k with
  | AOrd _ _ =>
    (forall x, less E (TAssoc k t) x x = false) /\
    forall x y z, less E (TAssoc k t) x y = true -> less E (TAssoc k t) y z = true ->
      less E (TAssoc k t) x z = true
  | AHash _ _ => forall x y, keq E (TAssoc k t) x y = keq E (TAssoc k t) y x
  end.

(** A set [T] of types that is closed under what the code for reading them needs: the types
    of the parts, element types that can be constructed (static_assert in reconstructor.h:
    71-77), classes that may be behind a pointer. *)
Definition parts (E : env) (T : ty -> Prop) (t : ty) : Prop :=
  match t with
  | TPrim _ _ | TEnum _ _ _ | TChrono _ _ _ | TString | TVecBool => True
  | TVector t' => T t' /\ elem_constructible E t'
  | TArray _ t' => T t'
  | TList _ t' | TQueue t' | TOptional t' => T t' /\ constructible E t'
  | TAssoc k t' => T t' /\ constructible E t' /\ good_order E k t'
  | TPair a b => T a /\ T b
  | TTuple ts => Forall T ts
  | TVariant ts =>
    bytecopy E t = true \/ Forall (fun t' => T t' /\ constructible E t') ts
  | TUnique t' =>
    (is_virtual E t' = false -> T t' /\ constructible E t') /\
    (forall c d, t' = TClass c -> In c (chain E d) -> obj_idx E d <> None -> T (TClass d))
  | TClass c =>
    (exists k, cls E c = Some k) /\
    forall c' k, In c' (chain E c) -> cls E c' = Some k ->
      Forall T (cfields k) /\ forall i, In i (cser k MUnpacking) -> (i < length (cfields k))%nat
  | _ => False
  end.

Record readable (E : env) (T : ty -> Prop) : Prop := {
  rd_parts : forall t, T t -> parts E T t;
  (** constructors build objects of the class *)
  rd_ctor : forall c k ls, T (TClass c) -> cls E c = Some k ->
     (ctag k = Some ls \/ crecon k = Some ls \/ cdefault k = Some ls) ->
     (cbyte k = true -> cvirt k = true) -> valid E (TClass c) (VObj c ls)
}.

(** Types that are read by way of a bool: whether there is a value, and the elements of a
    vector of bools. *)
Definition by_flag (t : ty) : bool :=
  match t with TVecBool | TOptional _ | TUnique _ => true | _ => false end.

(** How reading bytes that were not written for the type may end: with an exception or
    a failed assertion; with undefined behaviour only if [U]. *)
Definition caught (U : Prop) (e : fail) : Prop :=
  match e with
  | SerErr _ _ | RtErr | RangeErr | AssertErr => True
  | UB => U
  | _ => False
  end.
