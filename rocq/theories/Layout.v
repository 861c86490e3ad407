(** Where a reader stands in a stream of framed objects (error checking on): a
    specification of positions, used by properties C12, C13 and C38.

    The reader is given by the type and the object that is read into; nothing here
    refers to programs or to the traversal. *)
From Coq Require Import List NArith Arith Bool.
From Coq.Strings Require Import Byte.
From Verif Require Import Base Syntax Spec Message.
Import ListNotations.
Local Open Scope N_scope.

(** The serialized form of [v] can be read into [w] and there show [v]. *)
Definition intact (E : env) (t : ty) (v w : val) : Prop :=
  has_ty E t v /\ target (fun _ _ => True) E t v w.

(** [n] elements, of which the first are those of [l] and the others [d]. *)
Definition sized {A} (n : nat) (d : A) (l : list A) : list A :=
  firstn n l ++ repeat d (n - length l).

(** Bytes showing intact members number [is_] (in this order) of an object with
    members [ws] of types [ts]. *)
Inductive shows (E : env) (ts : list ty) (ws : list val) : list nat -> bytes -> Prop :=
| ShNil : shows E ts ws [] []
| ShCons i r t v w b :
    nth_error ts i = Some t -> nth_error ws i = Some w -> intact E t v w -> ~ In i r ->
    shows E ts ws r b -> shows E ts ws (i :: r) (enc E t v ++ b).

(** Bytes showing intact values for all of [ws]. *)
Inductive shows_all (E : env) : list ty -> list val -> bytes -> Prop :=
| SaNil : shows_all E [] [] []
| SaCons t ts v w ws b :
    intact E t v w -> shows_all E ts ws b -> shows_all E (t :: ts) (w :: ws) (enc E t v ++ b).

(** Bytes showing the parts of the given classes of an object with parts [ls]. *)
Inductive shows_levels (E : env) (ls : list (list val)) : list nat -> bytes -> Prop :=
| SlNil : shows_levels E ls [] []
| SlCons c r k ws b b' :
    cls E c = Some k -> cbyte k = false -> nth_error ls (level E c) = Some ws ->
    shows E (cfields k) ws (cser k MUnpacking) b -> shows_levels E ls r b' ->
    shows_levels E ls (c :: r)
      (le 4 (tix E (TClass c)) ++ b ++ le 8 (wrap64 (sizeof E (TClass c))) ++ b').

(** The object with which the place for a new vector element is filled. *)
Definition elem_fill (E : env) (t : ty) : option val :=
  if defc E t then dflt E t else recon E t.

(** [step E t w p t1 ws1]: when an object of type [t] is read into [w], then after
    the bytes [p] (all intact) the next thing to be read is a framed array of
    objects of type [t1], into [ws1]. *)
Inductive step (E : env) : ty -> val -> bytes -> ty -> list val -> Prop :=
| StEnum id uid usz b : step E (TEnum id uid usz) (VB b) [] (TPrim uid usz) [VB b]
| StChrono id uid usz b : step E (TChrono id uid usz) (VB b) [] (TPrim uid usz) [VB b]
| StStrSize cap b : step E TString (VStr cap b) [] SIZE [VB (le 8 (len b))]
| StStrChars cap b n :
    (0 < n)%nat -> N.of_nat n < two64 ->
    step E TString (VStr cap b) (wsize E (N.of_nat n)) CHAR
      (map (fun c => VB [c]) (sized n x00 b))
| StVecCap t cap ws : step E (TVector t) (VVec cap ws) [] SIZE [VB (le 8 cap)]
| StVecSize t cap ws c' : c' < two64 ->
    step E (TVector t) (VVec cap ws) (wsize E c') SIZE [VB (le 8 (len ws))]
| StVecData t cap ws c' n d :
    c' < two64 -> (0 < n)%nat -> N.of_nat n < two64 -> elem_fill E t = Some d ->
    (defc E t = true \/ copyc E t = true \/ ws = []) ->
    step E (TVector t) (VVec cap ws) (wsize E c' ++ wsize E (N.of_nat n)) t (sized n d ws)
| StBoolsCap cap ws : step E TVecBool (VVec cap ws) [] SIZE [VB (le 8 cap)]
| StBoolsSize cap ws c' : c' < two64 ->
    step E TVecBool (VVec cap ws) (wsize E c') SIZE [VB (le 8 (len ws))]
| StBool cap ws c' n bs :
    c' < two64 -> N.of_nat n < two64 -> (length bs < n)%nat ->
    step E TVecBool (VVec cap ws)
      (wsize E c' ++ wsize E (N.of_nat n) ++ concat (map (wbool E) bs)) BOOL [VB (le 1 0)]
| StArray n t ws : ws <> [] -> step E (TArray n t) (VSeq ws) [] t ws
| StListSize dq t ws : step E (TList dq t) (VSeq ws) [] SIZE [VB (le 8 (len ws))]
| StListElem dq t ws n d vs w r :
    recon E t = Some d -> (copyc E t = true \/ ws = []) -> N.of_nat n < two64 ->
    forall before, sized n d ws = before ++ w :: r -> Forall2 (intact E t) vs before ->
    step E (TList dq t) (VSeq ws)
      (wsize E (N.of_nat n) ++ concat (map (enc E t) vs)) t [w]
| StQueueSize t ws : step E (TQueue t) (VSeq ws) [] SIZE [VB (le 8 (len ws))]
| StQueueElem t ws n d vs :
    recon E t = Some d -> N.of_nat n < two64 -> (length vs < n)%nat ->
    Forall (has_ty E t) vs ->
    step E (TQueue t) (VSeq ws) (wsize E (N.of_nat n) ++ concat (map (enc E t) vs)) t [d]
| StOrdSize m mp t ws : step E (TAssoc (AOrd m mp) t) (VSeq ws) [] SIZE [VB (le 8 (len ws))]
| StHashSize m mp t ws : step E (TAssoc (AHash m mp) t) (VBag ws) [] SIZE [VB (le 8 (len ws))]
| StOrdElem m mp t ws n d vs :
    recon E t = Some d -> N.of_nat n < two64 -> (length vs < n)%nat ->
    Forall (has_ty E t) vs ->
    step E (TAssoc (AOrd m mp) t) (VSeq ws)
      (wsize E (N.of_nat n) ++ concat (map (enc E t) vs)) t [d]
| StHashElem m mp t ws n d vs :
    recon E t = Some d -> N.of_nat n < two64 -> (length vs < n)%nat ->
    Forall (has_ty E t) vs ->
    step E (TAssoc (AHash m mp) t) (VBag ws)
      (wsize E (N.of_nat n) ++ concat (map (enc E t) vs)) t [d]
| StFirst a b x y : step E (TPair a b) (VSeq [x; y]) [] a [x]
| StSecond a b x y v : intact E a v x -> step E (TPair a b) (VSeq [x; y]) (enc E a v) b [y]
| StTuple ts t ts' before w r b :
    shows_all E ts before b ->
    step E (TTuple (ts ++ t :: ts')) (VSeq (before ++ w :: r)) b t [w]
| StHas t o : step E (TOptional t) (VOpt o) [] BOOL [VB (le 1 0)]
| StValue t o d : recon E t = Some d -> step E (TOptional t) (VOpt o) (wbool E true) t [d]
| StIndex ts i x : bytecopy E (TVariant ts) = false ->
    step E (TVariant ts) (VVar i x) [] SIZE [VB (le 8 (N.of_nat i))]
| StIndexNone ts : bytecopy E (TVariant ts) = false ->
    step E (TVariant ts) VVarNone [] SIZE [VB (le 8 (two64 - 1))]
| StAlternative ts w i t d :
    bytecopy E (TVariant ts) = false -> (w = VVarNone \/ exists i x, w = VVar i x) ->
    nth_error ts i = Some t -> N.of_nat i < two64 -> recon E t = Some d ->
    step E (TVariant ts) w (wsize E (N.of_nat i)) t [d]
| StIsNull t : step E (TUnique t) (VOpt None) [] BOOL [VB (le 1 1)]
| StIsNotNull t w : step E (TUnique t) (VOpt (Some w)) [] BOOL [VB (le 1 0)]
| StPointedNew t d : is_virtual E t = false -> recon E t = Some d ->
    step E (TUnique t) (VOpt None) (wbool E false) t [d]
| StPointedOld t w : is_virtual E t = false ->
    step E (TUnique t) (VOpt (Some w)) (wbool E false) t [w]
| StDynamic c o : is_virtual E (TClass c) = true ->
    step E (TUnique (TClass c)) (VOpt o) (wbool E false) INT [VB (le 4 (2 ^ 32 - 1))]
| StDynamicNew c d i w :
    is_virtual E (TClass c) = true -> nth_error (oreg E (root E c)) i = Some d ->
    N.of_nat i < 2 ^ 32 -> recon E (TClass d) = Some w -> In c (chain E d) ->
    step E (TUnique (TClass c)) (VOpt None) (wbool E false ++ wint E (N.of_nat i)) (TClass c) [w]
| StDynamicOld c d i ls :
    is_virtual E (TClass c) = true -> obj_idx E d = Some i -> N.of_nat i < 2 ^ 32 ->
    step E (TUnique (TClass c)) (VOpt (Some (VObj d ls)))
      (wbool E false ++ wint E (N.of_nat i)) (TClass c) [VObj d ls]
| StMember c k d ls ws is_ i r b t w :
    cls E c = Some k -> cbyte k = false -> nth_error ls (level E c) = Some ws ->
    cser k MUnpacking = is_ ++ i :: r -> shows E (cfields k) ws is_ b -> ~ In i is_ ->
    nth_error (cfields k) i = Some t -> nth_error ws i = Some w ->
    step E (TClass c) (VObj d ls) b t [w].

(** The same for an array of objects.  An object of a polymorphic class is read as
    one framed object per class, base first; [dyn] tells the two kinds of frames
    of such an object apart: [false] for the object, [true] for the part of one
    of its classes. *)
Inductive within (E : env) : bool -> ty -> list val -> bytes -> bool -> ty -> list val -> Prop :=
| WiElem t vs before w r p t1 ws1 :
    is_virtual E t = false -> Forall2 (intact E t) vs before -> step E t w p t1 ws1 ->
    within E false t (before ++ w :: r) (concat (map (encb E t) vs) ++ p) false t1 ws1
| WiObject c k d ls r before c' k' after b :
    cls E c = Some k -> cvirt k = true -> cbyte k = false ->
    cls E c' = Some k' -> cbyte k' = false -> is_virtual E (TClass d) = true -> chain E d = before ++ c' :: after ->
    shows_levels E ls before b ->
    within E false (TClass c) (VObj d ls :: r) b true (TClass c') [VObj d ls]
| WiPart c d ls p t1 ws1 :
    is_virtual E (TClass c) = true -> step E (TClass c) (VObj d ls) p t1 ws1 ->
    within E true (TClass c) [VObj d ls] p false t1 ws1.

(** [path E dyn t ws b dyn' t' ws' us]: after [b], all of it intact, the reader of
    [ws] reaches the frame of the array of [t'] that is read into [ws']; this
    frame lies inside other frames, of objects of the types [us], innermost first. *)
Inductive path (E : env) : bool -> ty -> list val -> bytes -> bool -> ty -> list val -> list ty -> Prop :=
| PaHere dyn t ws : path E dyn t ws [] dyn t ws []
| PaDown dyn t ws p dyn1 t1 ws1 b dyn2 t2 ws2 us :
    within E dyn t ws p dyn1 t1 ws1 -> path E dyn1 t1 ws1 b dyn2 t2 ws2 us ->
    path E dyn t ws (le 4 (tix E t) ++ p ++ b) dyn2 t2 ws2 (us ++ [t]).

(** [damaged E dyn t ws i l]: bytes that begin like the frame of an array of [t] to
    be read into [ws], and whose frame does not fit: either another type index in
    front of it, or, after intact contents, another size behind it.  [l]: the line that
    says so.  (That the index which was asked for is the one after "got=" is a mistake in
    the library, see C62.) *)
Inductive damaged (E : env) : bool -> ty -> list val -> bytes -> line -> Prop :=
| DaHeader dyn t ws z : z < 2 ^ 32 -> z <> tix E t ->
    damaged E dyn t ws (le 4 z) (WrongType (tix E t) z (tix E t))
| DaTrailer t vs ws z :
    Forall2 (intact E t) vs ws -> ws <> [] -> (is_virtual E t = true -> length ws = 1%nat) ->
    z < two64 -> z <> wrap64 (sizeof E t * N.of_nat (length ws)) ->
    damaged E false t ws (le 4 (tix E t) ++ concat (map (encb E t) vs) ++ le 8 z)
      (MemUsed (tix E t) z (wrap64 (sizeof E t * N.of_nat (length ws))))
| DaMembers c k d ls ws b z :
    cls E c = Some k -> cbyte k = false -> nth_error ls (level E c) = Some ws ->
    shows E (cfields k) ws (cser k MUnpacking) b ->
    z < two64 -> z <> wrap64 (sizeof E (TClass c)) ->
    damaged E (is_virtual E (TClass c)) (TClass c) [VObj d ls]
      (le 4 (tix E (TClass c)) ++ b ++ le 8 z)
      (MemUsed (tix E (TClass c)) z (wrap64 (sizeof E (TClass c)))).

(** [wrote E ts fs is_ b]: [b] is the serialized form of members number [is_], in
    this order, of an object with members [fs] of types [ts]. *)
Inductive wrote (E : env) (ts : list ty) (fs : list val) : list nat -> bytes -> Prop :=
| WrNil : wrote E ts fs [] []
| WrCons i r t v b :
    nth_error ts i = Some t -> nth_error fs i = Some v -> has_ty E t v ->
    wrote E ts fs r b -> wrote E ts fs (i :: r) (enc E t v ++ b).
