(** Property C27: the memory footprint. *)
From Coq Require Import List NArith Arith Bool Lia.
From Coq.Strings Require Import Byte.
From Verif Require Import Base Syntax Prog Serializers Traverse Spec Api ApiFacts Examples Foot.
Import ListNotations.
Local Open Scope N_scope.

(** The footprint of every object is what [takes] specifies, or its sizeof if
    that is larger, plus the offset; the object is unchanged. *)
Theorem C27_footprint : forall E f t v n k,
  wf_env any E -> takes E t v n -> (depth v < f)%nat ->
  get_footprint E f t v k = Ok (v, wrap64 (k + N.max (wrap64 n) (sizeof E t))).
Proof.
  intros E f t v n k wf Ht Hd. unfold get_footprint.
  rewrite (foot_root any E wf f t v n Ht Hd) by reflexivity. now rewrite N.add_0_l.
Qed.
Print Assumptions C27_footprint.

(** At least the offset plus sizeof, and growing exactly with the offset. *)
Theorem C27_offset : forall E f t v n k,
  wf_env any E -> takes E t v n -> (depth v < f)%nat -> k + N.max n (sizeof E t) < two64 ->
  exists r, get_footprint E f t v 0 = Ok (v, r) /\ sizeof E t <= r /\ n <= r /\
    get_footprint E f t v k = Ok (v, k + r).
Proof.
  intros E f t v n k wf Ht Hd Hk. exists (N.max n (sizeof E t)).
  rewrite !(C27_footprint E f t v n) by auto.
  rewrite (wrap_small n) by lia. rewrite !wrap_small by lia.
  split; [reflexivity|]. repeat split; lia.
Qed.
Print Assumptions C27_offset.

(** All serializable values have a footprint, if the serialize functions visit
    existing members. *)
Theorem C27_total : forall E f t v,
  wf_env any E -> has_ty E t v -> (depth v < f)%nat ->
  (forall c k i, cls E c = Some k -> In i (cser k MFootprinting) -> (i < length (cfields k))%nat) ->
  exists n, takes E t v n /\
    forall k, get_footprint E f t v k = Ok (v, wrap64 (k + N.max (wrap64 n) (sizeof E t))).
Proof.
  intros E f t v wf Ht Hd Hm. destruct (has_takes any E wf Hm v t Ht) as (n & Hn).
  exists n. split; [exact Hn|]. intros k. now apply C27_footprint.
Qed.
Print Assumptions C27_total.

Theorem C27_vector : forall E f id sz cap l k,
  wf_env any E -> Forall (fun v => exists b, v = VB b /\ length b = sz) l -> len l <= cap ->
  (2 < f)%nat -> k + (szof E (TVector (TPrim id sz)) + N.of_nat sz * cap) < two64 ->
  get_footprint E f (TVector (TPrim id sz)) (VVec cap l) k =
    Ok (VVec cap l, k + (sizeof E (TVector (TPrim id sz)) + N.of_nat sz * cap)).
Proof.
  intros E f id sz cap l k wf Hl Hc Hf Hk.
  set (T := TVector (TPrim id sz)) in *.
  assert (Ht : takes E T (VVec cap l) (szof E T + N.of_nat sz * cap)).
  { assert (H : takes E T (VVec cap l)
                  (szof E T + total (repeat (N.of_nat sz) (length l)) + N.of_nat sz * (cap - len l))).
    { apply TkVector; auto. unfold visited. cbn [is_virtual]. clear - Hl.
      induction Hl as [|x l (b & -> & Hb)]; cbn; constructor; auto. now constructor. }
    replace (szof E T + N.of_nat sz * cap) with
      (szof E T + total (repeat (N.of_nat sz) (length l)) + N.of_nat sz * (cap - len l)); auto.
    assert (Ht : total (repeat (N.of_nat sz) (length l)) = N.of_nat sz * len l).
    { unfold len. clear. induction l; cbn [length repeat total fold_right]; [lia|].
      unfold total in IHl. lia. }
    rewrite Ht. nia. }
  rewrite (C27_footprint E f _ _ _ k wf Ht).
  - cbn [sizeof T]. rewrite (wrap_small (szof E _ + _)) by lia.
    rewrite N.max_l by lia. now rewrite wrap_small.
  - cbn [depth]. assert (H : (fold_right (fun x n => Nat.max (depth x) n) 1%nat l <= 1)%nat); [|lia].
    clear - Hl. induction Hl as [|x l (b & -> & Hb)]; cbn [fold_right depth]; lia.
Qed.
Print Assumptions C27_vector.

Theorem C27_string : forall E f cap b k,
  wf_env any E -> len b <= cap -> (2 < f)%nat -> k + (szof E TString + cap) < two64 ->
  get_footprint E f TString (VStr cap b) k = Ok (VStr cap b, k + (sizeof E TString + cap)).
Proof.
  intros E f cap b k wf Hc Hf Hk.
  rewrite (C27_footprint E f _ _ _ k wf (TkString E cap b Hc)) by (cbn [depth]; lia).
  cbn [sizeof]. rewrite (wrap_small (szof E _ + _)) by lia.
  rewrite N.max_l by lia. now rewrite wrap_small.
Qed.
Print Assumptions C27_string.

(** A vector with reserved capacity, and a tuple with a shared_ptr to a
    polymorphic object, a raw pointer, a stack, a map and a mutex. *)
Definition t_foot : ty :=
  TTuple [TShared (TClass 1); TRaw TString; TAdaptor OINT;
          TAssoc (AOrd false true) (TPair OINT TString); TCounted 9 40].
Definition v_foot : val :=
  VSeq [VOpt (Some v_circle); VOpt (Some s_ab); VSeq [w4 1; w4 2; w4 3];
        VSeq [VSeq [w4 1; s_long]; VSeq [w4 5; s_ab]]; VB []].

Example C27_vector_case : forall b k, k + 104 < two64 ->
  get_footprint (ex b) 12 (TVector DBL) (VVec 10 [w8 3; w8 4]) k = Ok (VVec 10 [w8 3; w8 4], k + 104).
Proof.
  intros b k Hk. change 104 with (sizeof (ex b) (TVector DBL) + N.of_nat 8 * 10) in *.
  apply C27_vector; [apply ex_wf; exact I| |vm_compute; discriminate|lia|exact Hk].
  constructor; [eexists; split; reflexivity|]. constructor; [eexists; split; reflexivity|constructor].
Qed.

Example C27_case : forall b, exists n, takes (ex b) t_foot v_foot n /\
  get_footprint (ex b) 12 t_foot v_foot 1000 = Ok (v_foot, 1000 + n).
Proof.
  intros b. eexists. split.
  - unfold t_foot, v_foot. eapply TkTuple; [reflexivity|].
    repeat (apply Forall2_cons; cbn [fst snd]); [..|apply Forall2_nil].
    + apply TkShared. eapply TkClass; [cbn; auto|intros; discriminate|reflexivity|].
      repeat (apply Forall2_cons); [..|apply Forall2_nil];
        (eexists; eexists; split; [reflexivity|split; [reflexivity|split; [reflexivity|]]]);
        repeat (apply Forall2_cons); try apply Forall2_nil;
        (eexists; eexists; split; [reflexivity|split; [reflexivity|]]);
        first [apply TkPrim; reflexivity | apply TkString; vm_compute; discriminate
              | apply TkOrd, Forall2_nil].
    + apply TkRaw, TkString. vm_compute. discriminate.
    + apply TkAdaptor.
    + apply TkOrd. repeat (apply Forall2_cons); [..|apply Forall2_nil];
        (apply TkPair; [apply TkPrim; reflexivity|apply TkString; vm_compute; discriminate]).
    + apply TkCounted.
  - destruct b; vm_compute; reflexivity.
Qed.
