(** C37: any number of calls at the same time, each on a thread of its own. *)
From Coq Require Import List NArith Arith Bool Lia.
From Coq.Strings Require Import Byte.
From Verif Require Import Base Syntax Prog Serializers Traverse Spec ProgFacts EnvFacts Api ApiFacts
  Registry RegistryFacts Examples Conc ConcFacts.
Import ListNotations.

(** ** Specification *)

(** The classes that a call handles through their dynamic type when it is run alone. *)
Definition dynamic_classes (E : env) (x : call) (c : nat) : Prop :=
  exists s, In (c, s) (uses (call_task E x)).

(** After [ops], registrations and links in any order, every class that the call handles
    this way is registered for the serializer it needs, and so is its root. *)
Definition served (E : env) (base : nat -> nat) (ops : list sop) (x : call) : Prop :=
  forall c s, In (c, s) (uses (call_task E x)) ->
    In (c, s) (regs_of ops) /\ In (base c, s) (regs_of ops).

(** The call throws a serialization_error. *)
Definition raises (a : answer) : Prop :=
  exists d l, a = ASize (Err (SerErr d l)) \/ a = ASerialized (Err (SerErr d l)) \/
    a = AObject (Err (SerErr d l)) \/ a = AOut (Err (SerErr d l)) \/ a = AIn (Err (SerErr d l)).

(** The call, run alone, counts an object of the type [t], for which there is no
    serialization code. *)
Definition counts (E : env) (x : call) (t : ty) : Prop := In (EvFirst t) (events (call_task E x)).

(** The threads of [calls] after the steps [sched], from the registry that [ops] left; the
    types in [new] have not been counted yet. *)
Definition after (E : env) (base : nat -> nat) (ops : list sop) (new : ty -> bool) (calls : list call)
  (sched : list nat) : list (active answer) * shared :=
  run base all_serializers (asserts E) sched (map (fun x => start (call_task E x)) calls)
    {| regs := run_sops base ops; first := new |}.

(** Two of them are about to access the same place, one to write it. *)
Definition racing (base : nat -> nat) (x : list (active answer) * shared) (i j : nat) : Prop :=
  exists a b, nth_error (fst x) i = Some a /\ nth_error (fst x) j = Some b /\
    conflict (atouches base a (snd x)) (atouches base b (snd x)).

(** What two calls have in common. *)
Definition both (E : env) (new : ty -> bool) (x y : call) : Prop :=
  (exists c, dynamic_classes E x c /\ dynamic_classes E y c) \/
  (raises (answer_of E x) /\ raises (answer_of E y)) \/
  (exists t, new t = true /\ counts E x t /\ counts E y t).

(** ** Calls as tasks *)
Lemma call_result : forall E x, result (call_task E x) = answer_of E x.
Proof.
  intros E x. destruct x; cbn [call_task answer_of].
  - cbn [size_task result]. unfold get_size. destruct (interp _ _ _ _) as [[[? ?] ?]|]; reflexivity.
  - cbn [result]. unfold get_footprint. destruct (interp _ _ _ _) as [[[? ?] ?]|]; reflexivity.
  - unfold serialize_task, serialize. cbn [size_task result]. unfold get_size.
    destruct (interp sizer _ _ _) as [[[v1 b1] n]|]; [|reflexivity].
    destruct fn as [g|]; [destruct (g n) as [r|]|];
      cbn [pack_task result]; unfold pack_memory;
      (destruct (interp packer _ _ _) as [[[v2 b2] s2]|]; [|reflexivity]);
      destruct (p_used s2 =? n)%N; reflexivity.
  - unfold deserialize. destruct (recon E t); reflexivity.
  - reflexivity.
  - unfold serialize_to_stream, get_size. cbn [size_task result].
    destruct (interp sizer _ _ _) as [[[v1 b1] n]|]; reflexivity.
  - unfold deserialize_from_stream. destruct (recon E t); reflexivity.
  - reflexivity.
Qed.

Lemma call_serializers : forall E x c s, In (c, s) (uses (call_task E x)) -> In s all_serializers.
Proof.
  intros E x c s H.
  assert (G : forall me l, In (c, s) (dispatches me l) -> s = me).
  { intros me l Hin. now apply in_dispatches in Hin. }
  assert (S : forall me l q, In me all_serializers -> (In (c, s) q -> In s all_serializers) ->
    In (c, s) (dispatches me l ++ q) -> In s all_serializers).
  { intros me l q Hm Hq Hin. apply in_app_or in Hin. destruct Hin as [Hin|Hin]; auto.
    now rewrite (G _ _ Hin). }
  assert (M : forall n, (n <= 8)%nat -> In n all_serializers) by (intros n Hn; cbn; lia).
  destruct x; cbn [call_task size_task pack_task unpack_task from_stream_task serialize_task uses] in H.
  - eapply S; [| |exact H]; [apply M; cbv; lia|contradiction].
  - eapply S; [| |exact H]; [apply M; cbv; lia|contradiction].
  - eapply S; [| |exact H]; [apply M; cbv; lia|]. intros Hq.
    destruct (interp sizer _ _ _) as [[[v1 b1] n]|]; [|contradiction].
    destruct fn as [g|]; [destruct (g n) as [r|]|]; cbn [pack_task uses] in Hq;
      (eapply S; [| |exact Hq]; [apply M; cbv; lia|]);
      (destruct (interp packer _ _ _) as [[[v2 b2] s2]|]; [|contradiction]);
      (destruct (p_used s2 =? n)%N; contradiction).
  - destruct (recon E t); [|contradiction].
    eapply S; [| |exact H]; [apply M; cbv; lia|contradiction].
  - eapply S; [| |exact H]; [apply M; cbv; lia|contradiction].
  - eapply S; [| |exact H]; [apply M; cbv; lia|]. intros Hq.
    destruct (interp sizer _ _ _) as [[[v1 b1] n]|]; [|contradiction]. cbn [uses] in Hq.
    eapply S; [| |exact Hq]; [apply M; cbv; lia|contradiction].
  - destruct (recon E t); [|contradiction].
    eapply S; [| |exact H]; [apply M; cbv; lia|contradiction].
  - eapply S; [| |exact H]; [apply M; cbv; lia|contradiction].
Qed.

Lemma call_throws : forall E x, throws answer (call_task E x) <-> raises (answer_of E x).
Proof.
  intros E x. rewrite <- call_result.
  assert (Z : forall e, raises (ASize (Err e)) <-> exists d l, e = SerErr d l).
  { intros e. split; [|intros (d & l & ->); exists d, l; auto].
    intros (d & l & [H|[H|[H|[H|H]]]]); inversion H; eauto. }
  assert (Z2 : forall e, raises (ASerialized (Err e)) <-> exists d l, e = SerErr d l).
  { intros e. split; [|intros (d & l & ->); exists d, l; auto].
    intros (d & l & [H|[H|[H|[H|H]]]]); inversion H; eauto. }
  assert (Z3 : forall e, raises (AObject (Err e)) <-> exists d l, e = SerErr d l).
  { intros e. split; [|intros (d & l & ->); exists d, l; auto].
    intros (d & l & [H|[H|[H|[H|H]]]]); inversion H; eauto. }
  assert (Z4 : forall e, raises (AOut (Err e)) <-> exists d l, e = SerErr d l).
  { intros e. split; [|intros (d & l & ->); exists d, l; auto].
    intros (d & l & [H|[H|[H|[H|H]]]]); inversion H; eauto. }
  assert (Z5 : forall e, raises (AIn (Err e)) <-> exists d l, e = SerErr d l).
  { intros e. split; [|intros (d & l & ->); exists d, l; auto 10].
    intros (d & l & [H|[H|[H|[H|H]]]]); inversion H; eauto. }
  assert (N : forall a, (match a with ASize (Err _) | ASerialized (Err _) | AObject (Err _)
            | AOut (Err _) | AIn (Err _) => False | _ => True end) -> ~ raises a).
  { intros a Ha (d & l & [ -> | [ -> | [ -> | [ -> | -> ]]]]); exact Ha. }
  assert (Er : forall A e, (exists d l, @Err A e = Err (SerErr d l)) <-> exists d l, e = SerErr d l).
  { intros A e. split; intros (d & l & H); exists d, l; [now inversion H|now subst]. }
  assert (No : forall A (z : A), (exists d l, Ok z = Err (SerErr d l)) <-> False).
  { intros A z. split; [intros (d & l & H); discriminate|contradiction]. }
  Ltac fin Er No N Z Z2 Z3 Z4 Z5 :=
    cbn [throws result];
    rewrite ?Er, ?No, ?Z, ?Z2, ?Z3, ?Z4, ?Z5;
    try match goal with |- context [raises ?a] => pose proof (N a I) end; tauto.
  destruct x; cbn [call_task].
  - cbn [size_task throws result]. destruct (interp _ _ _ _) as [[[? ?] ?]|]; fin Er No N Z Z2 Z3 Z4 Z5.
  - cbn [throws result]. destruct (interp _ _ _ _) as [[[? ?] ?]|]; fin Er No N Z Z2 Z3 Z4 Z5.
  - unfold serialize_task. cbn [size_task throws result].
    destruct (interp sizer _ _ _) as [[[v1 b1] n]|]; [|fin Er No N Z Z2 Z3 Z4 Z5].
    destruct fn as [g|]; [destruct (g n) as [r|]|];
      cbn [pack_task throws result];
      (destruct (interp packer _ _ _) as [[[v2 b2] s2]|]; [|fin Er No N Z Z2 Z3 Z4 Z5]);
      (destruct (p_used s2 =? n)%N; [fin Er No N Z Z2 Z3 Z4 Z5|]);
      cbn [throws result interp]; rewrite Z2; (split; [intros _; eauto|intros _; right; right; left; eauto]).
  - destruct (recon E t); [|cbn [throws result]; rewrite Z3; split; [contradiction|intros (d & l & H); discriminate]].
    cbn [unpack_task throws result]. destruct (interp _ _ _ _) as [[[? ?] ?]|]; fin Er No N Z Z2 Z3 Z4 Z5.
  - cbn [unpack_task throws result]. destruct (interp _ _ _ _) as [[[? ?] ?]|]; fin Er No N Z Z2 Z3 Z4 Z5.
  - cbn [size_task throws result].
    destruct (interp sizer _ _ _) as [[[v1 b1] n]|]; [|fin Er No N Z Z2 Z3 Z4 Z5].
    cbn [throws result].
    destruct (interp stream_packer _ _ _) as [[[v2 b2] s2]|]; fin Er No N Z Z2 Z3 Z4 Z5.
  - destruct (recon E t); [|cbn [throws result]; rewrite Z5; split; [contradiction|intros (d & l & H); discriminate]].
    cbn [from_stream_task throws result]. destruct (interp _ _ _ _) as [[[? ?] ?]|]; fin Er No N Z Z2 Z3 Z4 Z5.
  - cbn [from_stream_task throws result]. destruct (interp _ _ _ _) as [[[? ?] ?]|]; fin Er No N Z Z2 Z3 Z4 Z5.
Qed.

Section Calls.
Variable E : env.
Variable base : nat -> nat.
Variable ops : list sop.
Variable new : ty -> bool.
Hypothesis Hops : NoDup (regs_of ops).
Local Notation r0 := {| regs := run_sops base ops; first := new |}.
Local Notation idx0 := (sr_idx (run_sops base ops)).

Lemma ok0 : ok base idx0 new r0.
Proof. split; [now apply run_inv|]. split; auto. Qed.

(** What a call may touch. *)
Definition reach (x : call) (a : place) (w : bool) : Prop :=
  match a with
  | Entry c _ => dynamic_classes E x c
  | TypeNames => raises (answer_of E x)
  | First t => counts E x t /\ (w = true -> new t = true)
  end.

Lemma task_fine : forall (C : place -> bool -> Prop) e0 (x : task answer),
  (forall c s, In (c, s) (uses x) -> (forall i w, C (Entry c i) w) /\ registered base all_serializers idx0 s c) ->
  (throws answer x -> C TypeNames true) ->
  (forall t, In (EvFirst t) (events x) -> Some (EvFirst t) <> e0 -> admits_first new C t) ->
  fine_but base all_serializers answer idx0 new C e0 x.
Proof.
  intros C e0. induction x as [b|H A me p vf s k IH]; intros H1 H2 H3; cbn [fine_but]; [exact I|].
  cbn [uses throws events] in *. split; [|split].
  - intros e He Hne. destruct e as [c|c|c|t v|t|t|t v]; cbn [admits]; auto.
    + apply H1. apply in_or_app. left. apply in_dispatches. split; auto.
    + apply H3; [apply in_or_app; now left|exact Hne].
  - unfold admits_result. destruct (interp H p vf s) as [z|[]] eqn:Ei; auto. apply H2. left. eauto.
  - apply IH.
    + intros c s' Hc. apply H1. apply in_or_app. now right.
    + intros Ht. apply H2. now right.
    + intros t Ht. apply H3. apply in_or_app. now right.
Qed.

Lemma served_reg : forall x c s, served E base ops x -> In (c, s) (uses (call_task E x)) ->
  registered base all_serializers idx0 s c.
Proof.
  intros x c s Hs Hin. destruct (Hs c s Hin) as (Ha & Hb).
  split; [now apply run_idx|]. split; [now apply run_idx|]. eapply call_serializers; eauto.
Qed.

Lemma served_fine : forall x, served E base ops x ->
  fine base all_serializers answer idx0 new (reach x) (call_task E x).
Proof.
  intros x Hs. apply task_fine.
  - intros c s Hin. split; [intros ? ?; exists s; exact Hin|now apply served_reg with (x := x)].
  - intros Ht. now apply call_throws.
  - intros t Ht _. split; cbn [reach]; (split; [exact Ht|auto]). discriminate.
Qed.

Variable calls : list call.

Lemma started : forall i x, nth_error calls i = Some x ->
  nth_error (map (fun x => start (call_task E x)) calls) i = Some (start (call_task E x)).
Proof. intros i x Hx. now rewrite nth_error_map, Hx. Qed.

Lemma results : forall i x, nth_error calls i = Some x -> served E base ops x ->
  exists n, forall sched, (n <= turns i sched)%nat ->
    nth_error (fst (after E base ops new calls sched)) i = Some (Ended (answer_of E x)).
Proof.
  intros i x Hx Hs.
  destruct (leads_result base all_serializers (asserts E) answer idx0 new (reach x)
    (call_task E x) (served_fine x Hs)) as (n & Hn).
  exists n. intros sched Hle. rewrite <- call_result.
  exact (leads_sched base all_serializers (asserts E) answer idx0 new (reach x)
    n _ _ _ _ Hn sched _ r0 i ok0 I (started i x Hx) Hle).
Qed.

Lemma touched : forall i x, nth_error calls i = Some x -> served E base ops x ->
  forall sched a z w, nth_error (fst (after E base ops new calls sched)) i = Some a ->
  atouches base a (snd (after E base ops new calls sched)) = Some (z, w) -> reach x z w.
Proof.
  intros i x Hx Hs sched a z w Ha Ht.
  destruct (leads_result base all_serializers (asserts E) answer idx0 new (reach x)
    (call_task E x) (served_fine x Hs)) as (n & Hn).
  exact (leads_near base all_serializers (asserts E) answer idx0 new (reach x)
    n _ _ _ _ Hn sched _ r0 i a ok0 I (started i x Hx) Ha _ z w Ht).
Qed.

Lemma race_both : forall i j x y, nth_error calls i = Some x -> nth_error calls j = Some y ->
  served E base ops x -> served E base ops y ->
  forall sched, racing base (after E base ops new calls sched) i j -> both E new x y.
Proof.
  intros i j x y Hx Hy Hsx Hsy sched (a & b & Ha & Hb & Hc). unfold conflict in Hc.
  destruct (atouches base a _) as [[z w]|] eqn:E1; [|contradiction].
  destruct (atouches base b _) as [[z' w']|] eqn:E2; [|contradiction].
  destruct Hc as (<- & Hw).
  pose proof (touched i x Hx Hsx sched a z w Ha E1) as R1.
  pose proof (touched j y Hy Hsy sched b z w' Hb E2) as R2.
  unfold both. destruct z as [c k| |t]; cbn [reach] in R1, R2; [left; eauto|auto|].
  right; right. exists t. destruct R1 as (R1 & W1), R2 as (R2 & W2).
  split; [destruct Hw; auto|auto].
Qed.

(** Two tasks that get somewhere get there together. *)
Lemma meet : forall i j x y C1 C2 n1 n2 a1 a2, i <> j ->
  nth_error calls i = Some x -> nth_error calls j = Some y ->
  leads base all_serializers (asserts E) answer idx0 new C1 n1 (start (call_task E x)) T a1 T ->
  leads base all_serializers (asserts E) answer idx0 new C2 n2 (start (call_task E y)) T a2 T ->
  exists sched l r, after E base ops new calls sched = (l, r) /\ ok base idx0 new r /\
    nth_error l i = Some a1 /\ nth_error l j = Some a2 /\
    (forall t, ~ C1 (First t) true -> ~ C2 (First t) true -> first r t = new t).
Proof.
  intros i j x y C1 C2 n1 n2 a1 a2 Hij Hx Hy M1 M2.
  destruct (leads_alone base all_serializers (asserts E) answer idx0 new C1 _ _ _ _ _ M1
    _ r0 i ok0 I (started i x Hx)) as (l' & r' & R1 & O1 & _ & I1 & J1 & F1).
  assert (Hj : nth_error l' j = Some (start (call_task E y))) by (rewrite J1 by congruence; now apply started).
  destruct (leads_alone base all_serializers (asserts E) answer idx0 new C2 _ _ _ _ _ M2
    l' r' j O1 I Hj) as (l'' & r'' & R2 & O2 & _ & I2 & J2 & F2).
  exists (repeat i n1 ++ repeat j n2), l'', r''. unfold after. rewrite run_app, R1. split; [exact R2|].
  split; [exact O2|]. split; [rewrite J2 by congruence; exact I1|]. split; [exact I2|].
  intros t H1 H2. rewrite F2, F1 by assumption. reflexivity.
Qed.

Lemma class_race : forall i j x y c, i <> j -> nth_error calls i = Some x -> nth_error calls j = Some y ->
  served E base ops x -> served E base ops y ->
  dynamic_classes E x c -> dynamic_classes E y c ->
  exists sched, racing base (after E base ops new calls sched) i j.
Proof.
  intros i j x y c Hij Hx Hy Hsx Hsy (s1 & Hc1) (s2 & Hc2).
  destruct (leads_uses base all_serializers (asserts E) answer idx0 new (reach x)
    (call_task E x) c s1 (served_fine x Hsx) Hc1) as (n1 & H1 & A1 & k1 & p1 & v1 & u1 & L1).
  destruct (leads_uses base all_serializers (asserts E) answer idx0 new (reach y)
    (call_task E y) c s2 (served_fine y Hsy) Hc2) as (n2 & H2 & A2 & k2 & p2 & v2 & u2 & L2).
  pose proof (call_serializers E x c s1 Hc1) as Hs1.
  destruct (in_split _ _ Hs1) as (l1 & l2 & Hss).
  pose proof (leads_linking base all_serializers (asserts E) answer idx0 new (reach x)
    H1 A1 s1 k1 c p1 v1 u1 (s1 :: l2) l1 T (fun _ _ => ex_intro _ s1 Hc1) (T_stable base) (fun _ _ _ _ => I)) as K1.
  pose proof (leads_linking base all_serializers (asserts E) answer idx0 new (reach y)
    H2 A2 s2 k2 c p2 v2 u2 (s1 :: l2) l1 T (fun _ _ => ex_intro _ s2 Hc2) (T_stable base) (fun _ _ _ _ => I)) as K2.
  rewrite <- Hss in K1, K2.
  pose proof (leads_trans base all_serializers (asserts E) answer idx0 new _ _ _ _ _ _ _ _ _ L1 K1) as M1.
  pose proof (leads_trans base all_serializers (asserts E) answer idx0 new _ _ _ _ _ _ _ _ _ L2 K2) as M2.
  destruct (meet i j x y _ _ _ _ _ _ Hij Hx Hy M1 M2) as (sched & l & r & Ha & O & I1 & I2 & _).
  exists sched. unfold racing. rewrite Ha. cbn [fst snd].
  do 2 eexists. split; [exact I1|]. split; [exact I2|].
  destruct O as (_ & Hx2 & _). destruct (served_reg x c s1 Hsx Hc1) as (Hb & Hd & _).
  cbn [atouches touches]. rewrite Hx2.
  destruct (idx0 c s1); [|congruence]. destruct (idx0 (base c) s1); [|congruence].
  cbn [conflict]. auto.
Qed.

Lemma raise_race : forall i j x y, i <> j -> nth_error calls i = Some x -> nth_error calls j = Some y ->
  served E base ops x -> served E base ops y ->
  raises (answer_of E x) -> raises (answer_of E y) ->
  exists sched, racing base (after E base ops new calls sched) i j.
Proof.
  intros i j x y Hij Hx Hy Hsx Hsy R1 R2.
  apply call_throws in R1, R2.
  destruct (leads_throws base all_serializers (asserts E) answer idx0 new (reach x)
    (call_task E x) (served_fine x Hsx) R1) as (n1 & H1 & A1 & m1 & k1 & d1 & e1 & L1).
  destruct (leads_throws base all_serializers (asserts E) answer idx0 new (reach y)
    (call_task E y) (served_fine y Hsy) R2) as (n2 & H2 & A2 & m2 & k2 & d2 & e2 & L2).
  destruct (meet i j x y _ _ _ _ _ _ Hij Hx Hy L1 L2) as (sched & l & r & Ha & O & I1 & I2 & _).
  exists sched. unfold racing. rewrite Ha. cbn [fst snd].
  do 2 eexists. split; [exact I1|]. split; [exact I2|]. cbn. auto.
Qed.

Lemma count_race : forall i j x y t, i <> j -> nth_error calls i = Some x -> nth_error calls j = Some y ->
  served E base ops x -> served E base ops y -> new t = true ->
  counts E x t -> counts E y t ->
  exists sched, racing base (after E base ops new calls sched) i j.
Proof.
  intros i j x y t Hij Hx Hy Hsx Hsy Hn R1 R2.
  set (C := fun (z : call) a w => reach z a w /\ (a, w) <> (First t, true)).
  assert (G : forall z, served E base ops z ->
    fine_but base all_serializers answer idx0 new (C z) (Some (EvFirst t)) (call_task E z)).
  { intros z Hs. apply task_fine.
    - intros c s Hin. split; [intros i' w; split; [exists s; exact Hin|discriminate]|now apply served_reg with (x := z)].
    - intros Ht. split; [now apply call_throws|discriminate].
    - intros u Hu Hne. split; [split; [split; [exact Hu|discriminate]|discriminate]|].
      intros Hu'. split; [split; auto|]. intros Hx'. inversion Hx'. congruence. }
  destruct (leads_first base all_serializers (asserts E) answer idx0 new (C x)
    (call_task E x) t (G x Hsx) R1) as (n1 & H1 & A1 & m1 & k1 & p1 & v1 & u1 & L1).
  destruct (leads_first base all_serializers (asserts E) answer idx0 new (C y)
    (call_task E y) t (G y Hsy) R2) as (n2 & H2 & A2 & m2 & k2 & p2 & v2 & u2 & L2).
  destruct (meet i j x y _ _ _ _ _ _ Hij Hx Hy L1 L2) as (sched & l & r & Ha & O & I1 & I2 & F).
  assert (Hf : first r t = true).
  { rewrite F; [exact Hn| |]; intros (_ & Hc); congruence. }
  exists (sched ++ [i]). unfold racing, after. rewrite run_app. unfold after in Ha. rewrite Ha.
  cbn [run]. rewrite I1. cbn [astep step]. rewrite Hf. cbn [fst snd].
  exists (Active H1 A1 m1 (Clearing t true p1 v1 u1) k1). eexists. split; [|split].
  - rewrite nth_update, Nat.eqb_refl, I1. reflexivity.
  - rewrite nth_update. destruct (Nat.eqb_spec i j); [congruence|exact I2].
  - cbn. auto.
Qed.
End Calls.

(** ** C37 *)

(** Full statement: the conclusion without the hypothesis that no two calls have anything
    in common: a class handled through its dynamic type, a type without serialization code
    that neither the program nor they have counted before, or that both of them throw a
    serialization_error.  Without it there is a data race, see [C37_refuted].  With it, no
    two threads are ever about to touch the same place, one of them writing; and whatever
    the schedule, a call that has had enough steps has ended with the answer it gives
    alone. *)
Theorem C37_partial : forall E base ops new calls, NoDup (regs_of ops) ->
  Forall (served E base ops) calls ->
  (forall i j x y, i <> j -> nth_error calls i = Some x -> nth_error calls j = Some y ->
     ~ both E new x y) ->
  (forall sched i j, i <> j -> ~ racing base (after E base ops new calls sched) i j) /\
  (forall i x, nth_error calls i = Some x -> exists n, forall sched, (n <= turns i sched)%nat ->
     nth_error (fst (after E base ops new calls sched)) i = Some (Ended (answer_of E x))).
Proof.
  intros E base ops new calls Hops Hs Hd. rewrite Forall_forall in Hs. split.
  - intros sched i j Hij Hr.
    assert (Hlen : forall k a, nth_error (fst (after E base ops new calls sched)) k = Some a ->
              exists z, nth_error calls k = Some z).
    { intros k a Hk. destruct (nth_error calls k) as [z|] eqn:Ek; [eauto|exfalso].
      assert (G : forall sch l r, length (fst (run base all_serializers (asserts E) sch l r)) = length (l : list (active answer))).
      { induction sch as [|q sch IH]; intros l r; cbn [run fst]; auto.
        destruct (nth_error l q) as [a'|]; [|apply IH].
        destruct (astep base all_serializers (asserts E) a' r) as [a'' r'']. rewrite IH.
        generalize q. induction l; intros [|q']; cbn [update length]; auto. }
      assert ((k < length (fst (after E base ops new calls sched)))%nat) by (apply nth_error_Some; congruence).
      unfold after in H. rewrite G, map_length in H. apply nth_error_None in Ek. lia. }
    destruct Hr as (a & b & Ha & Hb & Hc).
    destruct (Hlen _ _ Ha) as (x & Hx). destruct (Hlen _ _ Hb) as (y & Hy).
    apply (Hd i j x y Hij Hx Hy).
    apply (race_both E base ops new Hops calls i j x y Hx Hy
      (Hs x (nth_error_In _ _ Hx)) (Hs y (nth_error_In _ _ Hy)) sched).
    exists a, b. auto.
  - intros i x Hx. apply results; auto. apply Hs. eapply nth_error_In; eauto.
Qed.
Print Assumptions C37_partial.

(** The answers are the same under every schedule also for calls that have something in
    common, if the accesses happen one at a time. *)
Theorem C37_sequential_partial : forall E base ops new calls i x, NoDup (regs_of ops) ->
  nth_error calls i = Some x -> served E base ops x ->
  exists n, forall sched, (n <= turns i sched)%nat ->
    nth_error (fst (after E base ops new calls sched)) i = Some (Ended (answer_of E x)).
Proof. intros. now apply results. Qed.
Print Assumptions C37_sequential_partial.

(** Two calls can race exactly if they handle a class in common through its dynamic type,
    both throw a serialization_error, or count a type in common for the first time. *)
Theorem C37_races : forall E base ops new calls i j x y, NoDup (regs_of ops) -> i <> j ->
  nth_error calls i = Some x -> nth_error calls j = Some y ->
  served E base ops x -> served E base ops y ->
  ((exists sched, racing base (after E base ops new calls sched) i j) <-> both E new x y).
Proof.
  intros E base ops new calls i j x y Hops Hij Hx Hy Hsx Hsy. split.
  - intros (sched & Hr). exact (race_both E base ops new Hops calls i j x y Hx Hy Hsx Hsy sched Hr).
  - intros [(c & Hc1 & Hc2)|[(H1 & H2)|(t & Hn & H1 & H2)]].
    + exact (class_race E base ops new Hops calls i j x y c Hij Hx Hy Hsx Hsy Hc1 Hc2).
    + exact (raise_race E base ops new Hops calls i j x y Hij Hx Hy Hsx Hsy H1 H2).
    + exact (count_race E base ops new Hops calls i j x y t Hij Hx Hy Hsx Hsy Hn H1 H2).
Qed.
Print Assumptions C37_races.

(** ** Concrete calls *)
Definition ex_polymorphic : list nat := [1; 2; 3; 4; 6; 7; 13]%nat.
Definition ex_init : list sop :=
  flat_map (fun s => map (fun c => SReg c s) ex_polymorphic) [8; 1; 6; 4; 2; 0; 3; 5; 7]%nat.

Lemma ex_init_once : NoDup (regs_of ex_init).
Proof.
  assert (G : forall l, (fix nd (l : list (nat * nat)) : bool :=
      match l with
      | [] => true
      | (a, b) :: l' => negb (existsb (fun '(c, d) => Nat.eqb a c && Nat.eqb b d) l') && nd l'
      end) l = true -> NoDup l).
  { induction l as [|[a b] l IH]; intros H; constructor.
    - apply andb_prop in H. destruct H as (H & _). apply negb_true_iff in H. intros Hin.
      assert (Ht : existsb (fun '(c, d) => Nat.eqb a c && Nat.eqb b d) l = true).
      { apply existsb_exists. exists (a, b). split; auto. now rewrite !Nat.eqb_refl. }
      congruence.
    - apply IH. apply andb_prop in H. apply H. }
  apply G. vm_compute. reflexivity.
Qed.

(** Registered for every serializer, as far as a list of pairs goes. *)
Definition all_in (base : nat -> nat) (l r : list (nat * nat)) : bool :=
  forallb (fun '(c, s) =>
    existsb (fun '(a, b) => Nat.eqb a c && Nat.eqb b s) r &&
    existsb (fun '(a, b) => Nat.eqb a (base c) && Nat.eqb b s) r) l.
Lemma all_in_served : forall E base ops x, all_in base (uses (call_task E x)) (regs_of ops) = true ->
  served E base ops x.
Proof.
  intros E base ops x H c s Hin. unfold all_in in H. rewrite forallb_forall in H.
  specialize (H _ Hin). cbn in H. apply andb_prop in H. destruct H as (H1 & H2).
  apply existsb_exists in H1, H2. destruct H1 as ([a b] & Ha & Hb), H2 as ([a' b'] & Ha' & Hb').
  apply andb_prop in Hb, Hb'. destruct Hb as (H1 & H2), Hb' as (H3 & H4).
  apply Nat.eqb_eq in H1, H2, H3, H4. now subst.
Qed.

Definition ex_calls : list call :=
  [CSerialize 12 t_shapes v_shapes None;
   CToStream 12 t_misc v_misc {| o_data := []; o_room := None; o_bad := false; o_nbytes := 0 |};
   CSize 12 (TClass 0) v_node].

(** A type without serialization code, and data of another type. *)
Definition ex_foot : call := CFootprint 12 (TVector (TOpaque 9 24)) (VVec 1 [VB (repeat x00 24)]) 0.
Definition ex_foot2 : call := CFootprint 12 (TOpaque 9 24) (VB (repeat x00 24)) 0.
Definition ex_damaged : call := CDeserialize 12 (TVector INT) (repeat xff 64) 0.

(** The hypotheses of [C37_partial] are met by calls that do dispatch dynamically, count a
    type for the first time and throw. *)
Example C37_case : forall b, Forall (served (ex b) (ex_base true) ex_init)
    (ex_calls ++ [ex_foot; ex_damaged]) /\
  dynamic_classes (ex b) (CSerialize 12 t_shapes v_shapes None) 3 /\
  counts (ex b) ex_foot (TOpaque 9 24) /\
  (b = true -> raises (answer_of (ex b) ex_damaged)) /\
  (forall i j x y, i <> j -> nth_error (ex_calls ++ [ex_foot; ex_damaged]) i = Some x ->
     nth_error (ex_calls ++ [ex_foot; ex_damaged]) j = Some y ->
     ~ both (ex b) (fun _ => true) x y).
Proof.
  intros b. split; [|split; [|split; [|split]]].
  - repeat (apply Forall_cons; [apply all_in_served; destruct b; vm_compute; reflexivity|]). constructor.
  - exists SIZER. destruct b; vm_compute; tauto.
  - destruct b; vm_compute; tauto.
  - intros ->. exists 0%nat. eexists. right; right; left. vm_compute. reflexivity.
  - assert (D : forall k x c, nth_error (ex_calls ++ [ex_foot; ex_damaged]) k = Some x ->
      dynamic_classes (ex b) x c -> k = 0%nat).
    { intros k x c Hx (s & Hs). destruct k as [|[|[|[|[|k]]]]]; cbn in Hx; [reflexivity| | | | |destruct k; discriminate];
        inversion Hx; subst; destruct b; vm_compute in Hs; contradiction. }
    assert (R : forall k x, nth_error (ex_calls ++ [ex_foot; ex_damaged]) k = Some x ->
      raises (answer_of (ex b) x) -> k = 4%nat).
    { intros k x Hx Hr. destruct k as [|[|[|[|[|k]]]]]; cbn in Hx; [| | | |reflexivity|destruct k; discriminate];
        inversion Hx; subst; destruct Hr as (d & l & Hr); destruct b; vm_compute in Hr;
        destruct Hr as [Hr|[Hr|[Hr|[Hr|Hr]]]]; discriminate. }
    assert (K : forall k x t, nth_error (ex_calls ++ [ex_foot; ex_damaged]) k = Some x ->
      counts (ex b) x t -> k = 3%nat).
    { intros k x t Hx Hs. unfold counts in Hs. destruct k as [|[|[|[|[|k]]]]]; cbn in Hx; [| | |reflexivity| |destruct k; discriminate];
        inversion Hx; subst; destruct b; vm_compute in Hs;
        repeat (destruct Hs as [Hs|Hs]; [discriminate|]); contradiction. }
    intros i j x y Hij Hx Hy [(c & H1 & H2)|[(H1 & H2)|(t & _ & H1 & H2)]]; apply Hij.
    + rewrite (D i x c Hx H1), (D j y c Hy H2). reflexivity.
    + rewrite (R i x Hx H1), (R j y Hy H2). reflexivity.
    + rewrite (K i x t Hx H1), (K j y t Hy H2). reflexivity.
Qed.

(** Two threads that serialize objects of the same class through their dynamic type race,
    although each has objects, buffers and serializers of its own; so do two that read
    data which is not of the type they expect, and two that take the footprint of objects
    of a type without serialization code. *)
Theorem C37_refuted : exists E base ops, wf_env any E /\ NoDup (regs_of ops) /\
  (exists x y sched, Forall (served E base ops) [x; y] /\
     ~ raises (answer_of E x) /\ ~ raises (answer_of E y) /\ (forall t, ~ counts E x t) /\
     racing base (after E base ops (fun _ => true) [x; y] sched) 0 1) /\
  (exists x y sched, Forall (served E base ops) [x; y] /\
     (forall c, ~ dynamic_classes E x c) /\ (forall t, ~ counts E x t) /\
     racing base (after E base ops (fun _ => true) [x; y] sched) 0 1) /\
  (exists x y sched, Forall (served E base ops) [x; y] /\
     ~ raises (answer_of E x) /\ (forall c, ~ dynamic_classes E x c) /\
     racing base (after E base ops (fun _ => true) [x; y] sched) 0 1).
Proof.
  assert (Dec : forall x y, all_in (ex_base true) (uses (call_task (ex true) x)) (regs_of ex_init) = true ->
    all_in (ex_base true) (uses (call_task (ex true) y)) (regs_of ex_init) = true ->
    both (ex true) (fun _ => true) x y ->
    Forall (served (ex true) (ex_base true) ex_init) [x; y] /\
    exists sched, racing (ex_base true) (after (ex true) (ex_base true) ex_init (fun _ => true) [x; y] sched) 0 1).
  { intros x y Hx Hy Hb. apply all_in_served in Hx, Hy. split; [auto|].
    exact (proj2 (C37_races (ex true) (ex_base true) ex_init _ [x; y] 0 1 x y ex_init_once (O_S 0)
      eq_refl eq_refl Hx Hy) Hb). }
  exists (ex true), (ex_base true), ex_init.
  split; [apply ex_wf; exact I|]. split; [apply ex_init_once|]. split; [|split].
  - destruct (Dec (CSerialize 12 t_shapes v_shapes None) (CSize 12 (TUnique (TClass 1)) (VOpt (Some v_ring))))
      as (Hs & sched & Hr); [vm_compute; reflexivity|vm_compute; reflexivity| |].
    { left. exists 3%nat. split; exists SIZER; vm_compute; tauto. }
    do 3 eexists. split; [exact Hs|]. split; [|split; [|split; [|exact Hr]]].
    + intros (d & l & H). vm_compute in H. destruct H as [H|[H|[H|[H|H]]]]; discriminate.
    + intros (d & l & H). vm_compute in H. destruct H as [H|[H|[H|[H|H]]]]; discriminate.
    + intros t H. unfold counts in H. vm_compute in H. repeat (destruct H as [H|H]; [discriminate|]). contradiction.
  - destruct (Dec ex_damaged (CFromStream 12 (TVector INT) {| i_data := repeat xff 64; i_nbytes := 0 |}))
      as (Hs & sched & Hr); [vm_compute; reflexivity|vm_compute; reflexivity| |].
    { right; left. split; exists 0%nat; eexists; vm_compute; [right; right; left|do 4 right]; reflexivity. }
    do 3 eexists. split; [exact Hs|]. split; [|split; [|exact Hr]].
    + intros c (s & H). vm_compute in H. exact H.
    + intros t H. vm_compute in H. exact H.
  - destruct (Dec ex_foot ex_foot2)
      as (Hs & sched & Hr); [vm_compute; reflexivity|vm_compute; reflexivity| |].
    { right; right. exists (TOpaque 9 24). split; [reflexivity|]. split; vm_compute; tauto. }
    do 3 eexists. split; [exact Hs|]. split; [|split; [|exact Hr]].
    + intros (d & l & H). vm_compute in H. destruct H as [H|[H|[H|[H|H]]]]; discriminate.
    + intros c (s & H). vm_compute in H. exact H.
Qed.
Print Assumptions C37_refuted.
