(** C54: serialize functions that branch and loop on the object. *)
From Coq Require Import List NArith Arith Bool Lia.
From Coq.Strings Require Import Byte.
From Verif Require Import Base Syntax Prog Serializers Traverse Spec ProgFacts EnvFacts ValFacts
  Fails RegistryFacts Pack Unpack Api ApiFacts Examples Views ViewSpec ViewFacts ViewRound
  Pointers PointersSpec PointersFacts User UserSpec UserFacts.
Import ListNotations.
Local Open Scope N_scope.

(** A function that visits members, none twice, and branches on visited members only:
    what it visits is restored, what it does not visit stays as it was. *)
Theorem C54_branches : forall E f name ks fs b D M, wf_env any E -> (1 < f)%nat ->
  Forall2 (storable E f) ks fs -> ordered ks [] [] b D M -> exists out,
  (stream_by E f name b fs = Ok (out, fs) /\
     (len out < two64 -> serialize_by E f name b fs = Ok (out, fs))) /\
  forall ws, length fs = length ws ->
  (forall i k v w, nth_error ks i = Some k -> nth_error fs i = Some v -> nth_error ws i = Some w ->
     accepts E k v w) ->
  exists xs, length xs = length fs /\
    (forall i v w x, nth_error fs i = Some v -> nth_error ws i = Some w -> nth_error xs i = Some x ->
       (In i (visited b fs) -> copy_of v x) /\ (~ In i (visited b fs) -> x = w)) /\
    forall before after,
    deserialize_by E f name b (before ++ out ++ after) (length before) ws = Ok (xs, len out).
Proof. intros E f name ks fs b D M wf Hf. exact (ordered_round E wf f Hf name ks fs b D M). Qed.
Print Assumptions C54_branches.

(** A flag that says which of two members is in use. *)
Definition ex_flag (fs : list val) : bool :=
  match fs with VB (x :: _) :: _ => negb (Byte.eqb x x00) | _ => false end.
Definition ex_how : list how := [Plain BOOL; Plain TString; Plain (TVector TString); Plain INT].
Definition ex_choice : block :=
  Then (SMember 0 (Plain BOOL))
    (If ex_flag (Then (SMember 1 (Plain TString)) Done)
                (Then (SMember 2 (Plain (TVector TString))) Done)
    (Then (SMember 3 (Plain INT)) Done)).
Definition ex_object : list val := [VB [x01]; s_ab; VVec 0 []; w4 7].
Definition ex_old : list val := [VB [x00]; VStr 15 []; VVec 2 [s_long; s_ab]; w4 8].
Example C54_branches_case : forall b, exists out xs n,
  serialize_by (ex b) 12 (TClass 5) ex_choice ex_object = Ok (out, ex_object) /\
  deserialize_by (ex b) 12 (TClass 5) ex_choice out 0 ex_old = Ok (xs, n) /\ n = len out /\
  xs = [VB [x01]; s_ab; VVec 2 [s_long; s_ab]; w4 7].
Proof.
  destruct b; do 3 eexists; (split; [vm_compute; reflexivity|]); (split; [vm_compute; reflexivity|]);
  split; reflexivity.
Qed.
Example C54_branches_case_ok : forall b,
  wf_env any (ex b) /\ Forall2 (storable (ex b) 12) ex_how ex_object /\
  (exists D M, ordered ex_how [] [] ex_choice D M) /\ visited ex_choice ex_object = [0; 1; 3]%nat /\
  forall i k v w, nth_error ex_how i = Some k -> nth_error ex_object i = Some v ->
    nth_error ex_old i = Some w -> accepts (ex b) k v w.
Proof.
  intros b. split; [now apply ex_wf|]. split; [|split; [|split; [reflexivity|]]].
  - repeat (apply Forall2_cons; [split; [destruct b; ht|vm_compute; lia]|]). apply Forall2_nil.
  - do 2 eexists. apply OMember; [reflexivity|intros []|].
    eapply OIf with (D3 := [0]%nat) (M3 := [2; 1; 0]%nat).
    + intros fs ws Hl H. destruct fs as [|v fs], ws as [|w ws]; try discriminate; auto.
      specialize (H 0%nat v w (or_introl eq_refl) eq_refl eq_refl).
      unfold ex_flag. inversion H; auto.
    + apply OMember; [reflexivity|cbn; lia|]. apply ODone.
    + apply OMember; [reflexivity|cbn; lia|]. apply ODone.
    + intros x Hx. cbn in *. tauto.
    + intros x Hx. cbn in *. tauto.
    + intros x Hx. cbn in *. tauto.
    + intros x Hx. cbn in *. tauto.
    + apply OMember; [reflexivity|cbn; lia|]. apply ODone.
  - intros i k v w Hk Hv Hw. unfold ex_how, ex_object, ex_old in *.
    destruct i as [|[|[|[|i]]]]; cbn in Hk, Hv, Hw; inversion Hk; inversion Hv; inversion Hw; subst.
    + now apply TgPrim.
    + apply TgString.
    + apply TgVector; [exact I|left; reflexivity|constructor].
    + now apply TgPrim.
    + destruct i; discriminate.
Qed.

(** The same statement for a function that branches on a member it visits later is false:
    it restores another member than the one that was serialized, and nothing reports it,
    even with type checking; or it fails. *)
Definition ex_early : block :=
  If ex_flag (Then (SMember 1 (Plain INT)) Done) (Then (SMember 2 (Plain INT)) Done)
  (Then (SMember 0 (Plain BOOL)) Done).
Definition ex_early_how : list how := [Plain BOOL; Plain INT; Plain INT].
Theorem C54_early_branch_refuted : exists E f name fs ws out xs v x,
  wf_env any E /\ chk E = true /\ (1 < f)%nat /\ Forall2 (storable E f) ex_early_how fs /\
  (forall i k v w, nth_error ex_early_how i = Some k -> nth_error fs i = Some v ->
     nth_error ws i = Some w -> accepts E k v w) /\
  NoDup (visited ex_early fs) /\ In 1%nat (visited ex_early fs) /\
  serialize_by E f name ex_early fs = Ok (out, fs) /\
  deserialize_by E f name ex_early out 0 ws = Ok (xs, len out) /\
  nth_error fs 1 = Some v /\ nth_error xs 1 = Some x /\ ~ copy_of v x.
Proof.
  exists (ex true), 12%nat, (TClass 5), [VB [x01]; w4 7; w4 8], [VB [x00]; w4 0; w4 0].
  do 4 eexists. split; [now apply ex_wf|]. split; [reflexivity|]. split; [lia|].
  split; [repeat (apply Forall2_cons; [split; [ht|vm_compute; lia]|]); apply Forall2_nil|].
  split.
  { intros i k v w Hk Hv Hw. destruct i as [|[|[|i]]]; cbn in Hk, Hv, Hw;
      inversion Hk; inversion Hv; inversion Hw; subst; try now apply TgPrim.
    destruct i; discriminate. }
  split; [vm_compute; repeat constructor; cbn; lia|]. split; [now left|].
  split; [vm_compute; reflexivity|]. split; [vm_compute; reflexivity|].
  split; [reflexivity|]. split; [reflexivity|]. intros H. inversion H.
Qed.
Print Assumptions C54_early_branch_refuted.

Definition ex_early' : block :=
  If ex_flag (Then (SMember 1 (Plain TString)) Done) Done (Then (SMember 0 (Plain BOOL)) Done).
Example C54_early_branch_case : forall b, exists out,
  serialize_by (ex b) 12 (TClass 5) ex_early' [VB [x01]; s_ab] = Ok (out, [VB [x01]; s_ab]) /\
  reported (if b then 1 else 0) (deserialize_by (ex b) 12 (TClass 5) ex_early' out 0 [VB [x00]; VStr 15 []]).
Proof. destruct b; eexists; (split; [vm_compute; reflexivity|vm_compute; reflexivity]). Qed.

(** Any function: it may also serialize local variables, loop over containers and change
    the object, as long as it takes the same way when packing and when unpacking. *)
Theorem C54_any_function : forall E f name fs ss b ss', wf_env any E -> (1 < f)%nat ->
  correct E f fs ss b ss' -> exists out,
  (stream_by E f name b fs = Ok (out, fs) /\
     (len out < two64 -> serialize_by E f name b fs = Ok (out, fs))) /\
  forall ws, known ss ws -> exists xs, known ss' xs /\ forall before after,
    deserialize_by E f name b (before ++ out ++ after) (length before) ws = Ok (xs, len out).
Proof. intros E f name fs ss b ss' wf Hf. exact (user_round E wf f Hf name fs ss b ss'). Qed.
Print Assumptions C54_any_function.

(** For example vectors of pointers to objects of different classes. *)
Theorem C54_vectors_of_pointers : forall E f name k0 k1 l0 l1, wf_env any E -> (1 < f)%nat ->
  N.of_nat (length l0) < two64 -> N.of_nat (length l1) < two64 ->
  Forall (storable E f (Pointed k0)) l0 -> Forall (storable E f (Pointed k1)) l1 ->
  exists out x0 x1, copy_of (VSeq l0) (VSeq x0) /\ copy_of (VSeq l1) (VSeq x1) /\
  (stream_by E f name (wrapper k0 k1) [VSeq l0; VSeq l1] = Ok (out, [VSeq l0; VSeq l1]) /\
     (len out < two64 -> serialize_by E f name (wrapper k0 k1) [VSeq l0; VSeq l1] = Ok (out, [VSeq l0; VSeq l1]))) /\
  forall before after,
    deserialize_by E f name (wrapper k0 k1) (before ++ out ++ after) (length before)
      [VSeq []; VSeq []] = Ok ([VSeq x0; VSeq x1], len out).
Proof.
  intros E f name k0 k1 l0 l1 wf Hf Hn0 Hn1 H0 H1.
  destruct (user_round E wf f Hf name _ _ _ _ (wrapper_correct E f k0 k1 l0 l1 Hf Hn0 Hn1 H0 H1))
    as (out & Hs & Hd).
  destruct (Hd [VSeq []; VSeq []]) as (xs & Hxs & Hr); [repeat constructor|].
  destruct (known_two _ _ _ Hxs) as (a & b & -> & Ha & Hb).
  assert (exists x0, a = VSeq x0) as (x0 & ->) by (inversion Ha; eauto).
  assert (exists x1, b = VSeq x1) as (x1 & ->) by (inversion Hb; eauto).
  exists out, x0, x1. auto.
Qed.
Print Assumptions C54_vectors_of_pointers.

Definition ex_k : member := {| p_shared := true; p_ty := TClass 1 |}.
Definition ex_l0 : list val := [VOpt (Some v_ring); VOpt (Some v_box); VOpt (Some v_ring)].
Definition ex_l1 : list val := [VOpt (Some v_box)].
Example C54_vectors_case : forall b, exists out xs n,
  serialize_by (ex b) 12 (TClass 5) (wrapper ex_k ex_k) [VSeq ex_l0; VSeq ex_l1] =
    Ok (out, [VSeq ex_l0; VSeq ex_l1]) /\
  deserialize_by (ex b) 12 (TClass 5) (wrapper ex_k ex_k) out 0 [VSeq []; VSeq []] = Ok (xs, n) /\
  n = len out /\
  match xs with
  | [VSeq [VOpt (Some (VObj a _)); VOpt (Some (VObj b _)); VOpt (Some (VObj c _))];
     VSeq [VOpt (Some (VObj d _))]] => [a; b; c; d] = [3; 4; 3; 4]%nat
  | _ => False
  end.
Proof.
  destruct b; do 3 eexists; (split; [vm_compute; reflexivity|]); (split; [vm_compute; reflexivity|]);
  vm_compute; auto.
Qed.
Example C54_vectors_case_ok : forall b,
  Forall (storable (ex b) 12 (Pointed ex_k)) ex_l0 /\ Forall (storable (ex b) 12 (Pointed ex_k)) ex_l1.
Proof.
  intros b.
  assert (Ho : forall v, v = v_ring \/ v = v_box -> storable (ex b) 12 (Pointed ex_k) (VOpt (Some v))).
  { intros v [-> | ->]; (eexists; split; [reflexivity|]; split; [destruct b; ht|];
      split; [discriminate|vm_compute; lia]). }
  split; repeat (apply Forall_cons; [apply Ho; auto|]); apply Forall_nil.
Qed.

(** A loop whose bound has been restored, over a container that has not been made large
    enough, runs past its end. *)
Theorem C54_unallocated : forall E f name k v vs b, wf_env any E -> (1 < f)%nat ->
  Forall (storable E f k) (v :: vs) -> len (v :: vs) < two64 -> length b = 8%nat ->
  let fs := [VB (le 8 (len (v :: vs))); VSeq (v :: vs)] in exists out,
  (stream_by E f name (unallocated k) fs = Ok (out, fs) /\
     (len out < two64 -> serialize_by E f name (unallocated k) fs = Ok (out, fs))) /\
  forall before after,
    deserialize_by E f name (unallocated k) (before ++ out ++ after) (length before) [VB b; VSeq []]
      = Err UB.
Proof.
  intros E f name k v vs b wf Hf. exact (unallocated_ub E wf f Hf name k v vs b).
Qed.
Print Assumptions C54_unallocated.

Example C54_unallocated_case : forall b, exists out,
  serialize_by (ex b) 12 (TClass 5) (unallocated (Plain TString)) [w8 2; VSeq [s_ab; s_long]] =
    Ok (out, [w8 2; VSeq [s_ab; s_long]]) /\
  deserialize_by (ex b) 12 (TClass 5) (unallocated (Plain TString)) out 0 [w8 0; VSeq []] = Err UB /\
  Forall (storable (ex b) 12 (Plain TString)) [s_ab; s_long].
Proof.
  destruct b; eexists; (split; [vm_compute; reflexivity|]); (split; [vm_compute; reflexivity|]);
  repeat (apply Forall_cons; [split; [ht|vm_compute; lia]|]); apply Forall_nil.
Qed.
