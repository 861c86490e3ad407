(** What a serializer with a dispatcher of its own is to be handed: the bytes of the object in
    order, and in the place of every object of a specialised type that object. *)
From Coq Require Import List NArith Arith Bool.
From Coq.Strings Require Import Byte.
From Verif Require Import Base Syntax Prog Serializers Traverse Spec.
Import ListNotations.
Local Open Scope N_scope.

(** A byte, or an object that the dispatcher is handed. *)
Inductive cell := Raw (b : byte) | Handed (t : ty) (v : val).
Definition raw (b : bytes) : list cell := map Raw b.

Section Cells.
Variable E : env.
Variable m : mode.
Variable special : ty -> bool.

(** Only the modes Packing and Sizing record types and sizes. *)
Definition records : bool := match m with MPacking | MSizing => true | _ => false end.
Definition noted (t : ty) (n : nat) (body : list cell) : list cell :=
  if records
  then raw (le 4 (tix E t)) ++ body ++ raw (le 8 (wrap64 (sizeof E t * N.of_nat n)))
  else body.
(** With error checking all objects and arrays. *)
Definition cframed (t : ty) (n : nat) (body : list cell) : list cell :=
  if chk E then noted t n body else body.

Definition csize_ (n : N) : list cell := cframed SIZE 1 (raw (le 8 n)).
Definition cint (n : N) : list cell := cframed INT 1 (raw (le 4 n)).
Definition cbool (b : bool) : list cell := cframed BOOL 1 (raw (le 1 (if b then 1 else 0))).
Definition carray (t : ty) (bodies : list (list cell)) : list cell :=
  match bodies with
  | [] => []
  | _ => cframed t (length bodies) (concat bodies)
  end.
Definition cmembers (p : nat * list (list cell)) : list cell :=
  match cls E (fst p) with
  | Some k => concat (map (fun i => nth i (snd p) []) (cser k MPacking))
  | None => []
  end.

(** Enumerations and byte-copyable objects are never handed over; of a polymorphic object the
    parts of its classes are, one by one. *)
Definition taken (t : ty) : bool :=
  special t && negb (bytecopy E t) && negb (is_virtual E t) &&
  match t with TEnum _ _ _ => false | _ => true end.
Definition pick (t : ty) (v : val) (body : list cell) : list cell :=
  if taken t then [Handed t v] else body.

(** The contents of [v], if it is not handed over itself. *)
Fixpoint cellb (t : ty) (v : val) {struct v} : list cell :=
  match v with
  | VB b =>
    match t with
    | TEnum _ uid usz | TChrono _ uid usz => cframed (TPrim uid usz) 1 (raw b)
    | _ => raw b
    end
  | VStr _ b => csize_ (len b) ++ carray CHAR (map (fun c => [Raw c]) b)
  | VVec cap l =>
    match t with
    | TVector t' => csize_ cap ++ csize_ (len l) ++ carray t' (map (fun x => pick t' x (cellb t' x)) l)
    | _ => csize_ cap ++ csize_ (len l) ++
           concat (map (fun x => cframed BOOL 1 (pick BOOL x (cellb BOOL x))) l)
    end
  | VSeq l =>
    match t with
    | TArray _ t' => carray t' (map (fun x => pick t' x (cellb t' x)) l)
    | TList _ t' | TQueue t' | TAssoc _ t' =>
      csize_ (len l) ++ concat (map (fun x => cframed t' 1 (pick t' x (cellb t' x))) l)
    | TPair a b =>
      match l with
      | [x; y] => cframed a 1 (pick a x (cellb a x)) ++ cframed b 1 (pick b y (cellb b y))
      | _ => []
      end
    | TTuple ts =>
      concat ((fix zip (ts : list ty) (l : list val) {struct l} : list (list cell) :=
                 match l, ts with
                 | x :: l', t :: ts' => cframed t 1 (pick t x (cellb t x)) :: zip ts' l'
                 | _, _ => []
                 end) ts l)
    | _ => []
    end
  | VBag l =>
    match t with
    | TAssoc _ t' =>
      csize_ (len l) ++ concat (map (fun x => cframed t' 1 (pick t' x (cellb t' x))) l)
    | _ => []
    end
  | VOpt o =>
    match t with
    | TOptional t' =>
      match o with
      | None => cbool false
      | Some x => cbool true ++ cframed t' 1 (pick t' x (cellb t' x))
      end
    | TUnique t' =>
      match o with
      | None => cbool true
      | Some x =>
        cbool false ++
        (if is_virtual E t'
         then match x with
              | VObj d _ =>
                match obj_idx E d with Some i => cint (N.of_nat i) | None => [] end
              | _ => []
              end
         else []) ++
        cframed t' 1 (pick t' x (cellb t' x))
      end
    | _ => []
    end
  | VVar i x =>
    match t with
    | TVariant ts =>
      csize_ (N.of_nat i) ++
      match nth_error ts i with
      | Some t' => cframed t' 1 (pick t' x (cellb t' x))
      | None => []
      end
    | _ => []
    end
  | VVarNone => csize_ (two64 - 1)
  | VObj d ls =>
    let levels :=
      (fix levels (cs : list nat) (ls : list (list val)) {struct ls} : list (nat * list (list cell)) :=
         match ls, cs with
         | fs :: ls', c :: cs' =>
           (c, (fix zip (ts : list ty) (l : list val) {struct l} : list (list cell) :=
                  match l, ts with
                  | x :: l', t :: ts' => cframed t 1 (pick t x (cellb t x)) :: zip ts' l'
                  | _, _ => []
                  end) (wfields E c) fs) :: levels cs' ls'
         | _, _ => []
         end) (chain E d) ls in
    if is_virtual E t
    then concat (map (fun p => cframed (TClass (fst p)) 1
           (if is_virtual E (TClass (fst p)) && special (TClass (fst p))
            then [Handed (TClass (fst p)) v] else cmembers p)) levels)
    else concat (map cmembers levels)
  end.

(** An object without its frame, with it, and as the object that the traversal starts with. *)
Definition whole (t : ty) (v : val) : list cell := pick t v (cellb t v).
Definition cells (t : ty) (v : val) : list cell := cframed t 1 (whole t v).
Definition root_cells (t : ty) (v : val) : list cell := noted t 1 (whole t v).
End Cells.
