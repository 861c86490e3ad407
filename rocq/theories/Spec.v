(** Independent specification: which values are well formed, what it means for
    one value to be an observable copy of another, the wire format, and which
    objects may be overwritten by in-place deserialization.

    Nothing here refers to programs, serializers or the traversal. *)
From Coq Require Import List NArith Arith Bool Permutation.
From Coq.Strings Require Import Byte.
From Verif Require Import Base Syntax.
Import ListNotations.
Local Open Scope N_scope.

(** ** Observable copies

    [sim R v w]: [w] shows the same contents as [v].  Unordered containers are
    compared as multisets.  String capacities are not compared, except that both
    or none are large enough for the contents; vector capacities must be related
    by [R]. *)
Inductive sim (R : N -> N -> Prop) : val -> val -> Prop :=
| SimB b : sim R (VB b) (VB b)
| SimStr c c' b : (len b <= c <-> len b <= c') -> sim R (VStr c b) (VStr c' b)
| SimVec c c' l l' : R c c' -> Forall2 (sim R) l l' -> sim R (VVec c l) (VVec c' l')
| SimSeq l l' : Forall2 (sim R) l l' -> sim R (VSeq l) (VSeq l')
| SimBag l l1 l' :
    Forall2 (sim R) l l1 -> Permutation l1 l' -> sim R (VBag l) (VBag l')
| SimNone : sim R (VOpt None) (VOpt None)
| SimSome v w : sim R v w -> sim R (VOpt (Some v)) (VOpt (Some w))
| SimVar i v w : sim R v w -> sim R (VVar i v) (VVar i w)
| SimVarNone : sim R VVarNone VVarNone
| SimObj c ls ls' : Forall2 (Forall2 (sim R)) ls ls' -> sim R (VObj c ls) (VObj c ls').

(** Observable equality ignores capacities altogether. *)
Definition same : val -> val -> Prop := sim (fun _ _ => True).
(** A deserialized copy may only have larger vector capacities. *)
Definition copy_of : val -> val -> Prop := sim N.le.
(** A copy with identical vector capacities. *)
Definition exact_copy : val -> val -> Prop := sim eq.

(** ** Outcomes *)

(** The call throws a serialization_error of depth [d]. *)
Definition reported {A} (d : nat) (r : res A) : Prop :=
  match r with Err (SerErr d' _) => d' = d | _ => False end.

(** ** Well-formed values of a type *)

(** Ordered containers: iteration order is increasing for the comparator;
    strictly if keys are unique. *)
Fixpoint sorted_by (multi : bool) (lt : val -> val -> bool) (l : list val) : Prop :=
  match l with
  | [] => True
  | x :: r =>
    Forall (fun y => lt y x = false /\ (multi = false -> lt x y = true)) r
    /\ sorted_by multi lt r
  end.

(** Unordered containers with unique keys hold no two elements of equal key. *)
Fixpoint distinct_by (eqk : val -> val -> bool) (l : list val) : Prop :=
  match l with
  | [] => True
  | x :: r => Forall (fun y => eqk y x = false) r /\ distinct_by eqk r
  end.

(** [T] can be constructed before being deserialized into (the static_assert of
    src/checkpoint/dispatch/reconstructor.h:71-77). *)
Definition constructible (E : env) (t : ty) : Prop := recon E t <> None.
(** Element types of vectors may instead rely on their default constructor. *)
Definition elem_constructible (E : env) (t : ty) : Prop :=
  if defc E t then dflt E t <> None else recon E t <> None.

(** A user serialize function that treats all modes alike and visits every
    member exactly once. *)
Record wf_class (k : class) : Prop := {
  wfc_size : cser k MSizing = cser k MPacking;
  wfc_unpack : cser k MUnpacking = cser k MPacking;
  wfc_nodup : NoDup (cser k MPacking);
  wfc_all : forall i, In i (cser k MPacking) <-> (i < length (cfields k))%nat
}.

(** [has_ty E t v]: [v] is a value of type [t] that a C++ program can hold, and
    [t] is serializable.  Side conditions worth noting:
    - container sizes and capacities fit in 64 bits;
    - arrays and vectors of polymorphic objects have at most one element (see
      property C25);
    - variants are not valueless (see property C19);
    - polymorphic classes are not byte-copyable (see property C26);
    - the serialize functions of the classes of the objects in [v] are consistent
      (see properties C15, C38). *)
Inductive has_ty (E : env) : ty -> val -> Prop :=
| HtPrim id sz b : length b = sz -> has_ty E (TPrim id sz) (VB b)
| HtEnum id uid usz b : length b = usz -> has_ty E (TEnum id uid usz) (VB b)
| HtChrono id uid usz b : length b = usz -> has_ty E (TChrono id uid usz) (VB b)
| HtString cap b :
    len b <= cap -> len b < two64 -> has_ty E TString (VStr cap b)
| HtVector t cap l :
    len l <= cap -> cap < two64 -> elem_constructible E t ->
    (is_virtual E t = true -> (length l <= 1)%nat) ->
    Forall (has_ty E t) l -> has_ty E (TVector t) (VVec cap l)
| HtVecBool cap l :
    len l <= cap -> cap < two64 ->
    Forall (fun v => v = VB [x00] \/ v = VB [x01]) l ->
    has_ty E TVecBool (VVec cap l)
| HtArray n t l :
    length l = n -> (is_virtual E t = true -> (length l <= 1)%nat) ->
    Forall (has_ty E t) l -> has_ty E (TArray n t) (VSeq l)
| HtList dq t l :
    len l < two64 -> constructible E t ->
    Forall (has_ty E t) l -> has_ty E (TList dq t) (VSeq l)
| HtQueue t l :
    len l < two64 -> constructible E t ->
    Forall (has_ty E t) l -> has_ty E (TQueue t) (VSeq l)
| HtOrd multi mp t l :
    len l < two64 -> constructible E t ->
    Forall (has_ty E t) l ->
    sorted_by multi (less E (TAssoc (AOrd multi mp) t)) l ->
    has_ty E (TAssoc (AOrd multi mp) t) (VSeq l)
| HtHash multi mp t l :
    len l < two64 -> constructible E t ->
    Forall (has_ty E t) l ->
    (multi = false -> distinct_by (keq E (TAssoc (AHash multi mp) t)) l) ->
    has_ty E (TAssoc (AHash multi mp) t) (VBag l)
| HtPair a b x y :
    has_ty E a x -> has_ty E b y -> has_ty E (TPair a b) (VSeq [x; y])
| HtTuple ts l : Forall2 (has_ty E) ts l -> has_ty E (TTuple ts) (VSeq l)
| HtNone t : has_ty E (TOptional t) (VOpt None)
| HtSome t v :
    constructible E t -> has_ty E t v -> has_ty E (TOptional t) (VOpt (Some v))
| HtVariant ts i t v :
    bytecopy E (TVariant ts) = false -> nth_error ts i = Some t ->
    N.of_nat i < two64 - 1 -> constructible E t ->
    has_ty E t v -> has_ty E (TVariant ts) (VVar i v)
| HtVariantB ts b :
    bytecopy E (TVariant ts) = true -> len b = szof E (TVariant ts) ->
    has_ty E (TVariant ts) (VB b)
| HtNull t : has_ty E (TUnique t) (VOpt None)
| HtUnique t v :
    is_virtual E t = false -> constructible E t ->
    has_ty E t v -> has_ty E (TUnique t) (VOpt (Some v))
| HtUniqueV c d i ls :
    is_virtual E (TClass c) = true -> In c (chain E d) ->
    obj_idx E d = Some i -> N.of_nat i < 2 ^ 31 -> root E d = root E c ->
    constructible E (TClass d) ->
    has_ty E (TClass d) (VObj d ls) -> has_ty E (TUnique (TClass c)) (VOpt (Some (VObj d ls)))
| HtClassB c k b :
    cls E c = Some k -> cbyte k = true -> cvirt k = false -> len b = csize k ->
    has_ty E (TClass c) (VB b)
| HtClass c ls :
    chain E c <> [] ->
    Forall2 (fun c' fs => exists k, cls E c' = Some k /\ cbyte k = false /\ wf_class k /\
                            Forall2 (has_ty E) (cfields k) fs) (chain E c) ls ->
    has_ty E (TClass c) (VObj c ls).

(** Nesting depth, used only to bound the recursion of the model. *)
Fixpoint depth (v : val) : nat :=
  match v with
  | VB _ => 1
  | VStr _ _ => 2
  | VVec _ l | VSeq l | VBag l => S (fold_right (fun x n => Nat.max (depth x) n) 1%nat l)
  | VOpt None => 2
  | VOpt (Some x) => S (Nat.max 1 (depth x))
  | VVar _ x => S (Nat.max 1 (depth x))
  | VVarNone => 2
  | VObj _ ls =>
    S (S (fold_right (fun fs n =>
            Nat.max (fold_right (fun x n => Nat.max (depth x) n) 1%nat fs) n) 1%nat ls))
  end.

(** ** The wire format *)

(** With error checking every object (or contiguous array of [n] objects) of type
    [t] is preceded by its 4-byte type index and followed by 8 bytes holding
    sizeof(t) * n; without it there is no framing. *)
Definition framed (E : env) (t : ty) (n : nat) (body : bytes) : bytes :=
  if chk E
  then le 4 (tix E t) ++ body ++ le 8 (wrap64 (sizeof E t * N.of_nat n))
  else body.

Definition wsize (E : env) (n : N) : bytes := framed E SIZE 1 (le 8 n).
Definition wint (E : env) (n : N) : bytes := framed E INT 1 (le 4 n).
Definition wbool (E : env) (b : bool) : bytes :=
  framed E BOOL 1 (le 1 (if b then 1 else 0)).

(** An array is one frame around its elements; an empty one takes no space. *)
Definition warray (E : env) (t : ty) (bodies : list bytes) : bytes :=
  match bodies with
  | [] => []
  | _ => framed E t (length bodies) (concat bodies)
  end.

(** Member types of a class. *)
Definition wfields (E : env) (c : nat) : list ty :=
  match cls E c with Some k => cfields k | None => [] end.

(** Members (given by class and member encodings) in the order in which the
    class serializes them. *)
Definition wmembers (E : env) (p : nat * list bytes) : bytes :=
  match cls E (fst p) with
  | Some k => concat (map (fun i => nth i (snd p) []) (cser k MPacking))
  | None => []
  end.

(** [encb E t v]: the contents of [v] without its own frame. *)
Fixpoint encb (E : env) (t : ty) (v : val) {struct v} : bytes :=
  match v with
  | VB b =>
    match t with
    | TEnum _ uid usz | TChrono _ uid usz => framed E (TPrim uid usz) 1 b
    | _ => b
    end
  | VStr _ b => wsize E (len b) ++ warray E CHAR (map (fun c => [c]) b)
  | VVec cap l =>
    match t with
    | TVector t' => wsize E cap ++ wsize E (len l) ++ warray E t' (map (encb E t') l)
    | _ => wsize E cap ++ wsize E (len l) ++
           concat (map (fun x => framed E BOOL 1 (encb E BOOL x)) l)
    end
  | VSeq l =>
    match t with
    | TArray _ t' => warray E t' (map (encb E t') l)
    | TList _ t' | TQueue t' | TAssoc _ t' =>
      wsize E (len l) ++ concat (map (fun x => framed E t' 1 (encb E t' x)) l)
    | TPair a b =>
      match l with
      | [x; y] => framed E a 1 (encb E a x) ++ framed E b 1 (encb E b y)
      | _ => []
      end
    | TTuple ts =>
      concat ((fix zip (ts : list ty) (l : list val) {struct l} : list bytes :=
                 match l, ts with
                 | x :: l', t :: ts' => framed E t 1 (encb E t x) :: zip ts' l'
                 | _, _ => []
                 end) ts l)
    | _ => []
    end
  | VBag l =>
    match t with
    | TAssoc _ t' =>
      wsize E (len l) ++ concat (map (fun x => framed E t' 1 (encb E t' x)) l)
    | _ => []
    end
  | VOpt o =>
    match t with
    | TOptional t' =>
      match o with
      | None => wbool E false
      | Some x => wbool E true ++ framed E t' 1 (encb E t' x)
      end
    | TUnique t' =>
      match o with
      | None => wbool E true
      | Some x =>
        wbool E false ++
        (if is_virtual E t'
         then match x with
              | VObj d _ =>
                match obj_idx E d with Some i => wint E (N.of_nat i) | None => [] end
              | _ => []
              end
         else []) ++
        framed E t' 1 (encb E t' x)
      end
    | _ => []
    end
  | VVar i x =>
    match t with
    | TVariant ts =>
      wsize E (N.of_nat i) ++
      match nth_error ts i with
      | Some t' => framed E t' 1 (encb E t' x)
      | None => []
      end
    | _ => []
    end
  | VVarNone => wsize E (two64 - 1)
  | VObj d ls =>
    let levels :=
      (fix levels (cs : list nat) (ls : list (list val)) {struct ls} : list (nat * list bytes) :=
         match ls, cs with
         | fs :: ls', c :: cs' =>
           (c, (fix zip (ts : list ty) (l : list val) {struct l} : list bytes :=
                  match l, ts with
                  | x :: l', t :: ts' => framed E t 1 (encb E t x) :: zip ts' l'
                  | _, _ => []
                  end) (wfields E c) fs) :: levels cs' ls'
         | _, _ => []
         end) (chain E d) ls in
    if is_virtual E t
    then concat (map (fun p => framed E (TClass (fst p)) 1 (wmembers E p)) levels)
    else concat (map (wmembers E) levels)
  end.

(** A complete object, as written by [s | obj]. *)
Definition enc (E : env) (t : ty) (v : val) : bytes := framed E t 1 (encb E t v).

(** What the API writes for a root object: without error checking the root alone
    is framed. *)
Definition enc_root (E : env) (t : ty) (v : val) : bytes :=
  if chk E then enc E t v
  else le 4 (tix E t) ++ encb E t v ++ le 8 (wrap64 (sizeof E t)).

(** ** Targets of in-place deserialization

    [fresh F E t w]: an object as a constructor leaves it, into which any value
    can be deserialized: nothing in containers that are only appended to, no
    polymorphic pointees; vector capacities satisfy [F]. *)
Inductive fresh (F : N -> Prop) (E : env) : ty -> val -> Prop :=
| FrPrim id sz b : length b = sz -> fresh F E (TPrim id sz) (VB b)
| FrEnum id uid usz b : length b = usz -> fresh F E (TEnum id uid usz) (VB b)
| FrChrono id uid usz b : length b = usz -> fresh F E (TChrono id uid usz) (VB b)
| FrString cap b : fresh F E TString (VStr cap b)
| FrVector t cap l :
    F cap -> (defc E t = true \/ copyc E t = true \/ l = []) ->
    Forall (fresh F E t) l -> fresh F E (TVector t) (VVec cap l)
| FrVecBool cap l :
    F cap -> Forall (fun v => exists b, v = VB [b]) l -> fresh F E TVecBool (VVec cap l)
| FrArray n t l :
    length l = n -> Forall (fresh F E t) l -> fresh F E (TArray n t) (VSeq l)
| FrList dq t l :
    (copyc E t = true \/ l = []) ->
    Forall (fresh F E t) l -> fresh F E (TList dq t) (VSeq l)
| FrQueue t : fresh F E (TQueue t) (VSeq [])
| FrOrd multi mp t : fresh F E (TAssoc (AOrd multi mp) t) (VSeq [])
| FrHash multi mp t : fresh F E (TAssoc (AHash multi mp) t) (VBag [])
| FrPair a b x y :
    fresh F E a x -> fresh F E b y -> fresh F E (TPair a b) (VSeq [x; y])
| FrTuple ts l : Forall2 (fresh F E) ts l -> fresh F E (TTuple ts) (VSeq l)
| FrOptional t o : fresh F E (TOptional t) (VOpt o)
| FrVariant ts i v : bytecopy E (TVariant ts) = false -> fresh F E (TVariant ts) (VVar i v)
| FrVariantNone ts : bytecopy E (TVariant ts) = false -> fresh F E (TVariant ts) VVarNone
| FrVariantB ts b :
    bytecopy E (TVariant ts) = true -> len b = szof E (TVariant ts) ->
    fresh F E (TVariant ts) (VB b)
| FrNull t : fresh F E (TUnique t) (VOpt None)
| FrUnique t w :
    is_virtual E t = false -> fresh F E t w -> fresh F E (TUnique t) (VOpt (Some w))
| FrClassB c k b :
    cls E c = Some k -> cbyte k = true -> cvirt k = false -> len b = csize k ->
    fresh F E (TClass c) (VB b)
| FrClass c k ls :
    cls E c = Some k -> cbyte k = false ->
    Forall2 (fun c' fs => exists k, cls E c' = Some k /\
                            Forall2 (fresh F E) (cfields k) fs) (chain E c) ls ->
    fresh F E (TClass c) (VObj c ls).

(** Elements that an in-place read pairs up: as far as both lists go. *)
Inductive pairwise {A B} (P : A -> B -> Prop) : list A -> list B -> Prop :=
| PwNilL l : pairwise P [] l
| PwNilR l : pairwise P l []
| PwCons a b l l' : P a b -> pairwise P l l' -> pairwise P (a :: l) (b :: l').

(** [target C E t v w]: the existing object [w] may be overwritten in place with
    the serialized form of [v] and will then show [v]: containers that the
    library only appends to are empty in [w], and a polymorphic pointee that will
    be reused has the class of the serialized one.  [C] relates the capacity of a
    serialized vector to that of the vector it is read into. *)
Inductive target (C : N -> N -> Prop) (E : env) : ty -> val -> val -> Prop :=
| TgPrim id sz v b : length b = sz -> target C E (TPrim id sz) v (VB b)
| TgEnum id uid usz v b : length b = usz -> target C E (TEnum id uid usz) v (VB b)
| TgChrono id uid usz v b : length b = usz -> target C E (TChrono id uid usz) v (VB b)
| TgString v cap b : target C E TString v (VStr cap b)
| TgVector t cv vs cap ws :
    C cv cap -> (defc E t = true \/ copyc E t = true \/ ws = []) ->
    pairwise (target C E t) vs ws ->
    target C E (TVector t) (VVec cv vs) (VVec cap ws)
| TgVecBool cv vs cap ws :
    C cv cap -> Forall (fun v => exists b, v = VB [b]) ws ->
    target C E TVecBool (VVec cv vs) (VVec cap ws)
| TgArray n t vs ws :
    length ws = n -> Forall2 (target C E t) vs ws ->
    target C E (TArray n t) (VSeq vs) (VSeq ws)
| TgList dq t vs ws :
    (copyc E t = true \/ ws = []) -> pairwise (target C E t) vs ws ->
    target C E (TList dq t) (VSeq vs) (VSeq ws)
| TgQueue t v : target C E (TQueue t) v (VSeq [])
| TgOrd multi mp t v : target C E (TAssoc (AOrd multi mp) t) v (VSeq [])
| TgHash multi mp t v : target C E (TAssoc (AHash multi mp) t) v (VBag [])
| TgPair a b x y x' y' :
    target C E a x x' -> target C E b y y' ->
    target C E (TPair a b) (VSeq [x; y]) (VSeq [x'; y'])
| TgTuple ts vs ws :
    Forall2 (fun t p => target C E t (fst p) (snd p)) ts (combine vs ws) ->
    length vs = length ws ->
    target C E (TTuple ts) (VSeq vs) (VSeq ws)
| TgOptional t v o : target C E (TOptional t) v (VOpt o)
| TgVariant ts v i x : bytecopy E (TVariant ts) = false -> target C E (TVariant ts) v (VVar i x)
| TgVariantNone ts v : bytecopy E (TVariant ts) = false -> target C E (TVariant ts) v VVarNone
| TgVariantB ts v b :
    bytecopy E (TVariant ts) = true -> len b = szof E (TVariant ts) ->
    target C E (TVariant ts) v (VB b)
| TgNull t v : target C E (TUnique t) v (VOpt None)
| TgReset t o : target C E (TUnique t) (VOpt None) (VOpt o)
| TgUnique t v w :
    is_virtual E t = false -> target C E t v w ->
    target C E (TUnique t) (VOpt (Some v)) (VOpt (Some w))
| TgUniqueV c d ls ls' :
    is_virtual E (TClass c) = true ->
    target C E (TClass d) (VObj d ls) (VObj d ls') ->
    target C E (TUnique (TClass c)) (VOpt (Some (VObj d ls))) (VOpt (Some (VObj d ls')))
| TgClassB c k v b :
    cls E c = Some k -> cbyte k = true -> cvirt k = false -> len b = csize k ->
    target C E (TClass c) v (VB b)
| TgClass c ls ls' :
    length ls = length ls' ->
    Forall2 (fun c' p =>
       exists k, cls E c' = Some k /\ length (fst p) = length (snd p) /\
         Forall2 (fun t q => target C E t (fst q) (snd q)) (cfields k)
           (combine (fst p) (snd p)))
      (chain E c) (combine ls ls') ->
    target C E (TClass c) (VObj c ls) (VObj c ls').

(** ** Well-formed environments: what the library assumes of user code *)

(** [F]: capacities that vectors built by constructors may have. *)
Record wf_env (F : N -> Prop) (E : env) : Prop := {
  wf_parent : forall c k p, cls E c = Some k -> cparent k = Some p ->
     (p < c)%nat /\ cvirt k = true /\
     exists kp, cls E p = Some kp /\ cvirt kp = true;
  wf_ctor : forall c k ls, cls E c = Some k ->
     (ctag k = Some ls \/ crecon k = Some ls \/ cdefault k = Some ls) ->
     Forall2 (fun c' fs => exists k', cls E c' = Some k' /\
                Forall2 (fresh F E) (cfields k') fs) (chain E c) ls;
  wf_tix : forall t, tix E t < 2 ^ 32 /\ N.land (tix E t) 4278190335 = 3724542125;
  wf_less : forall t v v' w w', same v v' -> same w w' -> less E t v w = less E t v' w';
  wf_keq : forall t v v' w w', same v v' -> same w w' -> keq E t v w = keq E t v' w';
  wf_hplace : forall t l x, Permutation (hplace E t l x) (x :: l);
  wf_oreg : forall r, NoDup (oreg E r);
  wf_F0 : F 0
}.
