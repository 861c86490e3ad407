(** C66: the memory footprint of restored objects. *)
From Coq Require Import List NArith Arith Bool Lia.
From Coq.Strings Require Import Byte.
From Verif Require Import Base Syntax Prog Serializers Traverse Api Spec
  ValFacts EnvFacts ProgFacts ApiFacts ApiInv Examples PropMemory PropLaws Pack Foot PropFoot FootCopy.
Import ListNotations.
Local Open Scope N_scope.

(** The serialize functions visit existing members (as in C27). *)
Definition members_exist (E : env) : Prop :=
  forall c k i, cls E c = Some k -> In i (cser k MFootprinting) -> (i < length (cfields k))%nat.

Lemma measured : forall E f t v n k, wf_env any E -> takes E t (shrunk v) n -> (depth v < f)%nat ->
  get_footprint E f t (shrunk v) k = Ok (shrunk v, wrap64 (k + N.max (wrap64 n) (sizeof E t))).
Proof. intros E f t v n k wf Ht Hd. apply C27_footprint; auto. now rewrite depth_shrunk. Qed.

(** A new object read from the bytes of [v] is reported to take as much as [v], once no string
    of either has unused capacity; releasing that capacity in [v] only makes it smaller.
    Missing: classes whose constructors reserve capacity in a vector (see
    [C66_never_less] and [C35_refuted]); the unused capacity of strings, which is
    not restored (see [C66_refuted]). *)
Theorem C66_restored_partial : forall E f t v,
  wf_env zero_cap E -> has_ty E t v -> constructible E t -> members_exist E ->
  (depth v < f)%nat -> len (enc_root E t v) < two64 ->
  exists v' n m, round_trip E f t v v' /\ n <= m /\ forall k,
    get_footprint E f t v k = Ok (v, wrap64 (k + N.max (wrap64 m) (sizeof E t))) /\
    get_footprint E f t (shrunk v) k = Ok (shrunk v, wrap64 (k + N.max (wrap64 n) (sizeof E t))) /\
    get_footprint E f t (shrunk v') k = Ok (shrunk v', wrap64 (k + N.max (wrap64 n) (sizeof E t))).
Proof.
  intros E f t v wf Ht Hc Hm Hd Hl. pose proof (zero_any E wf) as wfa.
  destruct (deserialize_exact E f t v wf Ht Hc Hd Hl) as (v' & Hr & Hx).
  destruct (has_takes any E wfa Hm v t Ht) as (m & Hn).
  destruct (takes_shrunk E t v m Hn) as (n & Hn1 & Hle).
  destruct (takes_copy eq E t v v' n (or_introl eq_refl) Hx Hn1) as (n' & Hn2 & <-).
  exists v', n, m. split; [exact Hr|]. split; [exact Hle|]. intros k.
  split; [now apply C27_footprint|]. split; apply measured; auto.
  now rewrite <- (depth_copy eq v v' Hx).
Qed.
Print Assumptions C66_restored_partial.

(** Without strings nothing needs to be released: the two footprints are equal. *)
Theorem C66_without_strings : forall E f t v,
  wf_env zero_cap E -> has_ty E t v -> constructible E t -> members_exist E -> no_strings v ->
  (depth v < f)%nat -> len (enc_root E t v) < two64 ->
  exists v', round_trip E f t v v' /\ forall k, exists r,
    get_footprint E f t v k = Ok (v, r) /\ get_footprint E f t v' k = Ok (v', r).
Proof.
  intros E f t v wf Ht Hc Hm Hs Hd Hl.
  destruct (C66_restored_partial E f t v wf Ht Hc Hm Hd Hl) as (v' & n & m & Hr & _ & H).
  destruct (deserialize_exact E f t v wf Ht Hc Hd Hl) as (v1 & Hr1 & Hx).
  rewrite (round_trip_fun E f t v v1 v' Hr1 Hr) in Hx.
  exists v'. split; [exact Hr|]. intros k. eexists.
  destruct (H k) as (_ & H1 & H2). rewrite (shrunk_none v Hs) in H1.
  rewrite (shrunk_none v') in H2 by (eapply no_strings_sim; eauto). eauto.
Qed.
Print Assumptions C66_without_strings.

(** Whatever constructors reserve, and also when reading over an object in use: the result is
    never reported to take less than the original, strings aside. *)
Theorem C66_never_less : forall E f t v w,
  wf_env any E -> has_ty E t v -> constructible E t -> members_exist E ->
  target (fun _ _ => True) E t v w ->
  (depth v < f)%nat -> len (enc_root E t v) < two64 ->
  exists a b n p q, round_trip E f t v a /\ round_trip_onto E f t v w b /\ n <= p /\ n <= q /\
    forall k,
      get_footprint E f t (shrunk v) k = Ok (shrunk v, wrap64 (k + N.max (wrap64 n) (sizeof E t))) /\
      get_footprint E f t (shrunk a) k = Ok (shrunk a, wrap64 (k + N.max (wrap64 p) (sizeof E t))) /\
      get_footprint E f t (shrunk b) k = Ok (shrunk b, wrap64 (k + N.max (wrap64 q) (sizeof E t))).
Proof.
  intros E f t v w wf Ht Hc Hm Hw Hd Hl.
  destruct (round_trip_copy E wf f t v Ht Hc Hd Hl) as (a & Ha & Hca).
  destruct (in_place_ok E wf f t v w Ht Hw Hd) as (b & Hcb & H2).
  destruct (has_takes any E wf Hm v t Ht) as (m & Hn).
  destruct (takes_shrunk E t v m Hn) as (n & Hn1 & Hle).
  destruct (takes_copy N.le E t v a n (or_intror eq_refl) Hca Hn1) as (p & Hp & Hnp).
  destruct (takes_copy N.le E t v b n (or_intror eq_refl) Hcb Hn1) as (q & Hq & Hnq).
  exists a, b, n, p, q. split; [exact Ha|]. split.
  { eexists. eexists. split; [apply serialize_managed; auto|]. cbn [s_bytes].
    specialize (H2 [] []). cbn [app length] in H2. rewrite app_nil_r in H2. exact H2. }
  split; [exact Hnp|]. split; [exact Hnq|]. intros k. repeat split; apply measured; auto.
  - now rewrite <- (depth_copy N.le v a Hca).
  - now rewrite <- (depth_copy N.le v b Hcb).
Qed.
Print Assumptions C66_never_less.

(** A string with reserved capacity takes less after it has been restored. *)
Theorem C66_refuted : forall b, exists v v' r r',
  has_ty (ex b) TString v /\ round_trip (ex b) 4 TString v v' /\
  get_footprint (ex b) 4 TString v 0 = Ok (v, r) /\ get_footprint (ex b) 4 TString v' 0 = Ok (v', r') /\
  r' < r.
Proof.
  intros b. exists (VStr 1000 [x61]).
  assert (H : exists v', round_trip (ex b) 4 TString (VStr 1000 [x61]) v' /\ v' = VStr 15 [x61]).
  { destruct b; eexists; (split; [eexists; eexists; split; vm_compute; reflexivity|reflexivity]). }
  destruct H as (v' & Hr & ->). exists (VStr 15 [x61]). eexists. eexists. split; [ht|]. split; [exact Hr|].
  split; [destruct b; vm_compute; reflexivity|]. split; [destruct b; vm_compute; reflexivity|]. reflexivity.
Qed.
Print Assumptions C66_refuted.

(** Cases: polymorphic objects with strings behind pointers in a vector with spare capacity,
    a vector of numbers with spare capacity, and a vector read over a longer one. *)
Lemma ex_members : forall b, members_exist (ex b).
Proof.
  intros b c k i Hk Hi. cbn [cls ex ex_with] in Hk.
  do 14 (destruct c as [|c]; [injection Hk as <-; vm_compute in Hi;
    repeat (destruct Hi as [<-|Hi]; [vm_compute; lia|]); destruct Hi|]). discriminate.
Qed.

Example C66_case : forall b, exists v' n m, round_trip (ex b) 12 t_shapes v_shapes v' /\ n <= m /\ forall k,
  get_footprint (ex b) 12 t_shapes v_shapes k = Ok (v_shapes, wrap64 (k + N.max (wrap64 m) 24)) /\
  get_footprint (ex b) 12 t_shapes (shrunk v_shapes) k = Ok (shrunk v_shapes, wrap64 (k + N.max (wrap64 n) 24)) /\
  get_footprint (ex b) 12 t_shapes (shrunk v') k = Ok (shrunk v', wrap64 (k + N.max (wrap64 n) 24)).
Proof.
  intros b. apply (C66_restored_partial (ex b)); [apply ex_wf; reflexivity|apply v_shapes_ty|
    destruct b; vm_compute; discriminate|apply ex_members|vm_compute; lia|destruct b; vm_compute; reflexivity].
Qed.
Example C66_strings_case : forall b, exists v', round_trip (ex b) 4 (TVector DBL) (VVec 10 [w8 3; w8 4]) v' /\
  forall k, exists r, get_footprint (ex b) 4 (TVector DBL) (VVec 10 [w8 3; w8 4]) k = Ok (VVec 10 [w8 3; w8 4], r) /\
    get_footprint (ex b) 4 (TVector DBL) v' k = Ok (v', r).
Proof.
  intros b. apply C66_without_strings; [apply ex_wf; reflexivity|ht|discriminate|apply ex_members| |vm_compute; lia|
    destruct b; vm_compute; reflexivity].
  repeat constructor.
Qed.
Example C66_in_place_case : forall b,
  target (fun _ _ => True) (ex b) (TVector DBL) (VVec 10 [w8 3; w8 4]) (VVec 30 [w8 1; w8 2; w8 3]) /\
  exists v', round_trip_onto (ex b) 4 (TVector DBL) (VVec 10 [w8 3; w8 4]) (VVec 30 [w8 1; w8 2; w8 3]) v' /\
    get_footprint (ex b) 4 (TVector DBL) (VVec 10 [w8 3; w8 4]) 0 = Ok (VVec 10 [w8 3; w8 4], 104) /\
    get_footprint (ex b) 4 (TVector DBL) v' 0 = Ok (v', 264).
Proof.
  intros b. split.
  - apply TgVector; [exact I|now left|]. repeat constructor.
  - exists (VVec 30 [w8 3; w8 4]). split; [|split; destruct b; vm_compute; reflexivity].
    destruct b; (eexists; eexists; split; [vm_compute; reflexivity|vm_compute; reflexivity]).
Qed.
