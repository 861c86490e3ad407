(** C67: footprints of objects that contain Kokkos views and maps. *)
From Coq Require Import List NArith Arith Bool Lia.
From Coq.Strings Require Import Byte.
From Verif Require Import Base Syntax Prog Serializers Traverse Spec ProgFacts ApiFacts Foot Examples
  Views ViewSpec ViewFacts ViewRound KMap PropViews Crs CrsSpec CrsFoot DynFoot Members MembersSpec
  MembersFacts PropMembers MembersFoot PropRefoot.
Import ListNotations.
Local Open Scope N_scope.

(** The footprint of an object that can be serialized is the sum of what its parts take
    ([ktakes]), or its own size if that is more.  Every part that is reached without going
    through an optional is in it: it takes no more than what is reported.

    Missing: what an optional holds. *)
Theorem C67_parts_partial : forall E span K f k v, wf_env any E -> span [] [] = 1 -> (2 < f)%nat ->
  members_exist E -> (forall t, k <> KVal t) -> kty_ok E k -> kheld E span K f k v ->
  exists n, ktakes E span k v n /\
    (forall off, off + N.max n (sizeof E (name_of k)) < two64 ->
       footprint_member E span K f k v off = Ok (v, off + N.max n (sizeof E (name_of k)))) /\
    forall k' v', inside false k v k' v' -> exists n', ktakes E span k' v' n' /\ n' <= n.
Proof.
  intros E span K f k v wf H0 Hf Hcl Hno Ht Hh.
  destruct (has_ktakes E span K f Hcl wf k v Ht Hh) as (n & Hn).
  exists n. split; [exact Hn|]. split.
  - intros off Hoff. now apply f_footprint_member.
  - intros k' v' Hin. eapply ktakes_inside; eauto.
Qed.
Print Assumptions C67_parts_partial.

(** Header and elements of the view, the vector with two parts and room for two more, the two
    optionals, and the pointer with the view of dynamic size behind it. *)
Example C67_case : forall b, inside false ex_owner ex_object (KDynamic (TPrim 93 48) INT) (ODynamic ex_dynamic) /\
  ktakes (ex b) ex_span (KDynamic (TPrim 93 48) INT) (ODynamic ex_dynamic) (32 + 1 + 24 + 5 * 4) /\
  (exists n, ktakes (ex b) ex_span ex_owner ex_object n) /\
  footprint_member (ex b) ex_span ex_map 3 ex_owner ex_object 0 =
    Ok (ex_object, 4 + (175 + 24) + (24 + (40 + 24 + 47) + (40 + 47) + 2 * 80) + (32 + 24) + (8 + 77) + 32).
Proof.
  intros b. split; [|split; [|split]].
  - eapply InClass with (i := 4%nat); [reflexivity|reflexivity|]. apply InPtr, InSelf.
  - change (32 + 1 + 24 + 5 * 4) with (dynamic_header (ex b) ex_dynamic + total [4; 4; 4; 4; 4]).
    apply KtDynamic. repeat constructor.
  - destruct (C67_parts_partial (ex b) ex_span ex_map 3 ex_owner ex_object) as (n & Hn & _);
      [now apply ex_wf|reflexivity|lia|apply ex_members|discriminate|apply ex_object_ok|apply ex_object_ok|eauto].
  - destruct b; vm_compute; reflexivity.
Qed.

(** An optional view is reported as if it had no elements: a class with an optional view
    of 1000 numbers is said to take less than the numbers alone. *)
Definition ex_thousand : view := {|
  v_label := []; v_ext := [1000]; v_str := [1]; v_data := repeat (i_ 7) (N.to_nat 1000); v_live := true
|}.
Definition ex_cache : kty :=
  KClass (TPrim 105 40) [KVal INT; KOpt (TPrim 103 32) (KView (ex_vt INT 1 LRight false))].
Definition ex_cached : kval := OObj [OVal (i_ 1); OOpt (Some (OView ex_thousand))].

Lemma ex_cached_ok : forall b, kty_ok (ex b) ex_cache /\ kheld (ex b) ex_span ex_map 3 ex_cache ex_cached.
Proof.
  intros b. split.
  - cbn. repeat split; discriminate.
  - cbn [kheld ex_cache ex_cached]. split; [split; [ht|cbn; lia]|]. split; [|exact I].
    vok. intros _. split; [|split].
    + intros idx H. destruct (bounds1 _ _ H) as (i & -> & Hi).
      cbn [offset v_str v_data ex_thousand]. unfold len. rewrite repeat_length. lia.
    + intros _. unfold len. cbn [v_data ex_thousand]. rewrite repeat_length. vm_compute. discriminate.
    + cbn [v_data ex_thousand]. apply Forall_forall. intros x Hx. apply repeat_spec in Hx. subst x.
      split; [ht|cbn; lia].
Qed.

(** Full statement: no part takes more than what is reported for the whole. *)
Theorem C67_refuted : exists E span K f k v k' v' n' n, wf_env any E /\ span [] [] = 1 /\ (2 < f)%nat /\
  members_exist E /\ kty_ok E k /\ kheld E span K f k v /\ inside true k v k' v' /\ ktakes E span k' v' n' /\
  footprint_member E span K f k v 0 = Ok (v, n) /\ 40 * n < n'.
Proof.
  exists (ex true), ex_span, ex_map, 3%nat, ex_cache, ex_cached,
    (KView (ex_vt INT 1 LRight false)), (OView ex_thousand).
  eexists. eexists.
  split; [now apply ex_wf|]. split; [reflexivity|]. split; [lia|]. split; [apply ex_members|].
  split; [apply ex_cached_ok|]. split; [apply ex_cached_ok|].
  split; [eapply InClass with (i := 1%nat); [reflexivity|reflexivity|]; apply InOpt; [reflexivity|apply InSelf]|].
  split.
  { apply KtView with (l := repeat (i_ 7) (N.to_nat 1000)) (ns := repeat 4 (N.to_nat 1000)); try reflexivity.
    induction (N.to_nat 1000); cbn [repeat]; constructor; auto. now constructor. }
  split; [vm_compute; reflexivity|]. vm_compute. reflexivity.
Qed.
Print Assumptions C67_refuted.
