(** C54: which serialize functions that depend on data are correct. *)
From Coq Require Import List NArith Arith Bool.
From Verif Require Import Base Syntax Prog Serializers Traverse Spec ViewFacts Pointers PointersSpec
  User.
Import ListNotations.
Local Open Scope N_scope.

(** The variable [v] can be serialized as [k]; [f] bounds the nesting of objects. *)
Definition storable (E : env) (f : nat) (k : how) (v : val) : Prop :=
  match k with
  | Plain t => has_ty E t v /\ (depth v < f)%nat
  | Pointed p => exists o, v = VOpt o /\ pointer_ok E f p o
  end.
(** [v], serialized as [k], can be read into [w]. *)
Definition accepts (E : env) (k : how) (v w : val) : Prop :=
  match k with
  | Plain t => target Cany E t v w
  | Pointed p => exists o o', v = VOpt o /\ w = VOpt o' /\ over E p o o'
  end.

(** ** Any function *)

(** What is known of the members of an object while it is restored. *)
Definition known (ss : list (val -> Prop)) (ws : list val) : Prop :=
  Forall2 (fun (P : val -> Prop) w => P w) ss ws.

(** [correct E f fs ss b ss']: run on the object [fs] and on any object of which [ss] is
    known, the function [b] takes the same way, so that [ss'] is known in the end:
    a member is visited when it can be read, a branch or a loop depends only on what is
    known, and changes of the object leave known what is needed afterwards. *)
Inductive correct (E : env) (f : nat) (fs : list val)
  : list (val -> Prop) -> block -> list (val -> Prop) -> Prop :=
| CDone ss : correct E f fs ss Done ss
| CMember ss i k (P : val -> Prop) v b ss' :
    nth_error ss i = Some P -> nth_error fs i = Some v -> storable E f k v ->
    (forall w, P w -> accepts E k v w) ->
    correct E f fs (upd ss i (copy_of v)) b ss' ->
    correct E f fs ss (Then (SMember i k) b) ss'
| CFor ss i (n : list val -> nat) k (P : val -> Prop) vs b ss' :
    nth_error ss i = Some P -> nth_error fs i = Some (VSeq vs) ->
    Forall (storable E f k) vs -> n fs = length vs ->
    (forall w, P w -> exists us, w = VSeq us /\ Forall2 (accepts E k) vs us) ->
    (forall ws, known ss ws -> n ws = length vs) ->
    correct E f fs (upd ss i (copy_of (VSeq vs))) b ss' ->
    correct E f fs ss (Then (SFor n i k) b) ss'
| CLocal ss t (get : list val -> val) (put : list val -> val -> list val) ss1 b ss' :
    has_ty E t (get fs) -> (depth (get fs) < f)%nat -> put fs (get fs) = fs ->
    (forall ws, known ss ws -> target Cany E t (get fs) (get ws)) ->
    (forall ws x, known ss ws -> copy_of (get fs) x -> known ss1 (put ws x)) ->
    correct E f fs ss1 b ss' ->
    correct E f fs ss (Then (SLocal t get put) b) ss'
| CUnpack ss (g : list val -> list val) ss1 b ss' :
    (forall ws, known ss ws -> known ss1 (g ws)) ->
    correct E f fs ss1 b ss' ->
    correct E f fs ss (Then (SUnpack g) b) ss'
| CIf ss (c : list val -> bool) b1 b2 ss1 b ss' :
    (forall ws, known ss ws -> c ws = c fs) ->
    correct E f fs ss (if c fs then b1 else b2) ss1 ->
    correct E f fs ss1 b ss' ->
    correct E f fs ss (If c b1 b2 b) ss'.

(** ** Functions that visit members and branch *)

(** The branch [c] looks at nothing but the contents of the members [D]. *)
Definition looks_at (D : list nat) (c : list val -> bool) : Prop :=
  forall fs ws, length fs = length ws ->
    (forall i v w, In i D -> nth_error fs i = Some v -> nth_error ws i = Some w -> copy_of v w) ->
    c ws = c fs.

(** [ordered ks D M b D' M']: if the members [D] have been visited and at most the members
    [M], then the function visits no member again, every branch looks at visited members
    only, and afterwards [D'] have been visited and at most [M']; [ks]: the members. *)
Inductive ordered (ks : list how) : list nat -> list nat -> block -> list nat -> list nat -> Prop :=
| ODone D M : ordered ks D M Done D M
| OMember D M i k b D' M' :
    nth_error ks i = Some k -> ~ In i M -> ordered ks (i :: D) (i :: M) b D' M' ->
    ordered ks D M (Then (SMember i k) b) D' M'
| OIf D M c b1 b2 D1 M1 D2 M2 D3 M3 b D' M' :
    looks_at D c -> ordered ks D M b1 D1 M1 -> ordered ks D M b2 D2 M2 ->
    incl D3 D1 -> incl D3 D2 -> incl M1 M3 -> incl M2 M3 ->
    ordered ks D3 M3 b D' M' ->
    ordered ks D M (If c b1 b2 b) D' M'.

(** The members that such a function visits when it is run on [fs]. *)
Fixpoint visited (b : block) (fs : list val) : list nat :=
  match b with
  | Done => []
  | Then (SMember i _) b' => i :: visited b' fs
  | Then _ b' => visited b' fs
  | If c b1 b2 b' => (if c fs then visited b1 fs else visited b2 fs) ++ visited b' fs
  end.
