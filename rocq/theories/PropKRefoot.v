(** C76: the memory footprint of restored objects that contain Kokkos views. *)
From Coq Require Import List NArith Arith Bool Lia.
From Coq.Strings Require Import Byte.
From Verif Require Import Base Syntax Prog Serializers Traverse Spec ProgFacts ApiFacts Stable PropLaws Examples
  Foot FootCopy Views ViewSpec KMap PropViews Members MembersSpec MembersFacts PropMembers MembersFoot
  ViewFoot KStable KRefoot PropKStable PropRefoot PropKFoot.
Import ListNotations.
Local Open Scope N_scope.

Lemma foot_any : forall E span K f k v n off, wf_env any E -> span [] [] = 1 -> (2 < f)%nat ->
  kheld E span K f k v -> ktakes E span k v n -> (forall t, k <> KVal t) ->
  footprint_member E span K f k v off = Ok (v, wrap64 (off + N.max (wrap64 n) (sizeof E (name_of k)))).
Proof.
  intros E span K f k v n off wf H0 Hf Hh Hn Hno.
  unfold footprint_member, Crs.footprint_object, root_member.
  rewrite (CrsFoot.f_root E _ _ _ _ _ (f_own E wf span H0 K f Hf k v n Hh Hn Hno) 0 eq_refl).
  rewrite N.add_0_l. reflexivity.
Qed.

(** The object after std::string::shrink_to_fit on every string in it. *)
Notation kshrunk := (plain_by shrunk).

(** A new object read from the data of [v] is reported to take as much as [v], once no string of
    either has unused capacity; releasing that capacity in [v] only makes it smaller.
    Missing: maps, whose capacity Kokkos rounds; the unused capacity of strings, which is not restored,
    and views without memory that have elements ([C76_refuted]). *)
Theorem C76_restored_partial : forall E span K f k v w, wf_env zero_cap E -> wf_span span -> span [] [] = 1 ->
  wf_kokkos K -> (2 < f)%nat -> members_exist E -> (forall t, k <> KVal t) -> kty_ok E k -> defaults E f k ->
  kheld E span K f k v -> orderly k v -> steady (fun _ => True) k v -> blank E k = Some w ->
  exists b x n m, stream_member E span K f k v = Ok (b, v) /\
    (forall before after,
       deserialize_member E span K f k (before ++ b ++ after) (length before) w = Ok (x, len b)) /\
    n <= m /\ forall off,
      footprint_member E span K f k v off =
        Ok (v, wrap64 (off + N.max (wrap64 m) (sizeof E (name_of k)))) /\
      footprint_member E span K f k (kshrunk v) off =
        Ok (kshrunk v, wrap64 (off + N.max (wrap64 n) (sizeof E (name_of k)))) /\
      footprint_member E span K f k (kshrunk x) off =
        Ok (kshrunk x, wrap64 (off + N.max (wrap64 n) (sizeof E (name_of k)))).
Proof.
  intros E span K f k v w wf Hs H0 wk Hf Hm Hk Ht Hd Hh Ho Hst Hw. pose proof (zero_any E wf) as wfa.
  destruct (restart_obj E wf span H0 Hs K wk f Hf k Hk Ht v w Hh Hd Ho Hw)
    as (x & _ & X2 & X3 & _ & _ & X6 & Hr).
  destruct (has_ktakes E span K f Hm wfa k v Ht Hh) as (m & Hn).
  destruct (ktakes_shrunk E span k v m Hn) as (n & Hn' & Hle).
  exists (wobj E span k v), x, n, m. split; [now apply writes_obj|].
  split; [exact Hr|]. split; [exact Hle|]. intros off.
  split; [|split]; apply foot_any; auto using held_shrunk.
  exact (X6 shrunk _ (carries_shrunk E) Hst n Hn').
Qed.
Print Assumptions C76_restored_partial.

(** Without strings nothing needs to be released. *)
Theorem C76_without_strings : forall E span K f k v w, wf_env zero_cap E -> wf_span span -> span [] [] = 1 ->
  wf_kokkos K -> (2 < f)%nat -> members_exist E -> (forall t, k <> KVal t) -> kty_ok E k -> defaults E f k ->
  kheld E span K f k v -> orderly k v -> steady no_strings k v -> blank E k = Some w ->
  exists b x, stream_member E span K f k v = Ok (b, v) /\
    (forall before after,
       deserialize_member E span K f k (before ++ b ++ after) (length before) w = Ok (x, len b)) /\
    forall off, exists r,
      footprint_member E span K f k v off = Ok (v, r) /\ footprint_member E span K f k x off = Ok (x, r).
Proof.
  intros E span K f k v w wf Hs H0 wk Hf Hm Hk Ht Hd Hh Ho Hst Hw. pose proof (zero_any E wf) as wfa.
  destruct (restart_obj E wf span H0 Hs K wk f Hf k Hk Ht v w Hh Hd Ho Hw)
    as (x & _ & X2 & _ & _ & _ & X6 & Hr).
  destruct (has_ktakes E span K f Hm wfa k v Ht Hh) as (n & Hn).
  exists (wobj E span k v), x. split; [now apply writes_obj|].
  split; [exact Hr|]. intros off. eexists. split; eapply foot_any; eauto.
  specialize (X6 _ _ (carries_id E) Hst n). rewrite !plain_id in X6. auto.
Qed.
Print Assumptions C76_without_strings.

(** struct { int step; View<int**, LayoutStride> a; std::vector<View<int**>> grids;
             std::unique_ptr<DynamicView<int*>> d; View<std::vector<int>*> lists; }
    where the first of the grids has padding after every row, and the lists have spare capacity. *)
Definition ex_grids : kty := KClass (TPrim 100 240)
  [KVal INT; KView (ex_vt INT 2 LStride false);
   KVec (TPrim 101 24) (KView (ex_vt INT 2 LRight false));
   KPtr (TPrim 104 8) (KDynamic (TPrim 93 48) INT);
   KView (ex_vt (TVector INT) 1 LRight false)].
Definition ex_packed : view := {|
  v_label := [x62]; v_ext := [1; 2]; v_str := [2; 1]; v_data := map i_ [4; 5]; v_live := true |}.
Definition ex_gridded : kval :=
  OObj [OVal (i_ 7); OView ex_strided; OVec 4 [OView ex_padded; OView ex_packed];
        OOpt (Some (ODynamic ex_dynamic)); OView ex_lists].

Lemma ex_grid_ok : forall b, view_ok (ex b) ex_span (ex_vt INT 2 LRight false) 3 ex_padded /\
  view_ok (ex b) ex_span (ex_vt INT 2 LRight false) 3 ex_packed.
Proof.
  intros b. split; (vok; intros _; split; [|split];
    [intros idx H; destruct (bounds2 _ _ _ H) as (i & j & -> & Hi & Hj); cbn [offset ex_padded ex_packed v_str];
     match goal with |- _ < ?x => let y := eval vm_compute in x in change x with y end; lia
    |vm_compute; discriminate
    |cbn [ex_padded ex_packed v_data map]; repeat (constructor; [split; [ht|cbn; lia]|]); constructor]).
Qed.

Example C76_without_strings_case : forall b, exists out x,
  stream_member (ex b) ex_span ex_map 3 ex_grids ex_gridded = Ok (out, ex_gridded) /\
  (exists w, blank (ex b) ex_grids = Some w /\
     deserialize_member (ex b) ex_span ex_map 3 ex_grids out 0 w = Ok (x, len out)) /\
  x <> ex_gridded /\
  exists r, footprint_member (ex b) ex_span ex_map 3 ex_grids ex_gridded 0 = Ok (ex_gridded, r) /\
    footprint_member (ex b) ex_span ex_map 3 ex_grids x 0 = Ok (x, r).
Proof.
  intros b.
  assert (He : elem_ok (ex b) 3 INT).
  { intros d Hd. injection Hd as <-. split; [ht|]. split; [cbn; lia|exact I]. }
  assert (Hv : elem_ok (ex b) 3 (TVector INT)).
  { intros d Hd. injection Hd as <-. split; [ht|]. split; [cbn; lia|exact I]. }
  assert (Hw : exists w, blank (ex b) ex_grids = Some w) by (eexists; reflexivity).
  destruct Hw as (w & Hw). destruct (ex_grid_ok b) as (G1 & G2).
  destruct (C76_without_strings (ex b) ex_span ex_map 3 ex_grids ex_gridded w) as (out & x & S1 & R & Hn).
  - apply ex_wf. reflexivity.
  - apply ex_span_wf.
  - reflexivity.
  - apply ex_map_wf.
  - lia.
  - apply ex_members.
  - discriminate.
  - cbn; repeat split; discriminate.
  - cbn [defaults ex_grids].
    repeat (first [exact He | exact Hv | exact I | match goal with |- _ /\ _ => split end]).
  - cbn [kheld ex_grids ex_gridded]. split; [split; [ht|cbn; lia]|]. split; [apply ex_strided_ok|].
    split; [split; [constructor; [exact G1|constructor; [exact G2|constructor]]|]; split; [vm_compute; discriminate|reflexivity]|].
    split; [split; [apply ex_dynamic_ok|]; split; reflexivity|]. split; [apply ex_lists_ok|exact I].
  - cbn [orderly ex_grids ex_gridded]. repeat split; try intros _; repeat constructor.
  - cbn [steady ex_grids ex_gridded]. repeat split; try intros _; repeat constructor.
  - exact Hw.
  - exists out, x. split; [exact S1|]. specialize (R [] []). cbn [app length] in R. rewrite app_nil_r in R.
    split; [eauto|]. split.
    + intros ->. assert (Hne : match stream_member (ex b) ex_span ex_map 3 ex_grids ex_gridded with
        | Ok (o, _) => match deserialize_member (ex b) ex_span ex_map 3 ex_grids o 0 w with
                       | Ok (OObj (_ :: _ :: OVec _ (OView g :: _) :: _), _) => v_str g
                       | _ => [] end
        | _ => [] end = [3; 1]).
      { injection Hw as <-. destruct b; vm_compute; reflexivity. }
      rewrite S1, R in Hne. discriminate.
    + apply Hn.
Qed.

(** struct { std::string name; View<std::string*> words; } *)
Definition ex_texts : kty := KClass (TPrim 100 240) [KVal TString; KView (ex_vt TString 1 LRight false)].
Definition ex_text : kval := OObj [OVal (VStr 1000 [x61]); OView {|
  v_label := [x77]; v_ext := [2]; v_str := [1]; v_data := [VStr 40 [x62; x63]; VStr 2 [x64]]; v_live := true |}].

Example C76_case : forall b, exists out x n m,
  stream_member (ex b) ex_span ex_map 3 ex_texts ex_text = Ok (out, ex_text) /\
  (exists w, blank (ex b) ex_texts = Some w /\
     deserialize_member (ex b) ex_span ex_map 3 ex_texts out 0 w = Ok (x, len out)) /\
  n <= m /\ forall off,
    footprint_member (ex b) ex_span ex_map 3 ex_texts ex_text off =
      Ok (ex_text, wrap64 (off + N.max (wrap64 m) 240)) /\
    footprint_member (ex b) ex_span ex_map 3 ex_texts (kshrunk ex_text) off =
      Ok (kshrunk ex_text, wrap64 (off + N.max (wrap64 n) 240)) /\
    footprint_member (ex b) ex_span ex_map 3 ex_texts (kshrunk x) off =
      Ok (kshrunk x, wrap64 (off + N.max (wrap64 n) 240)).
Proof.
  intros b.
  assert (He : elem_ok (ex b) 3 TString).
  { intros d Hd. injection Hd as <-. split; [ht|]. split; [cbn; lia|exact I]. }
  assert (Hw : exists w, blank (ex b) ex_texts = Some w) by (eexists; reflexivity).
  destruct Hw as (w & Hw).
  destruct (C76_restored_partial (ex b) ex_span ex_map 3 ex_texts ex_text w) as (out & x & n & m & S1 & R & Hn).
  - apply ex_wf. reflexivity.
  - apply ex_span_wf.
  - reflexivity.
  - apply ex_map_wf.
  - lia.
  - apply ex_members.
  - discriminate.
  - cbn; repeat split; discriminate.
  - cbn [defaults ex_texts]. repeat (first [exact He | exact I | match goal with |- _ /\ _ => split end]).
  - cbn [kheld ex_texts ex_text]. split; [split; [ht|cbn; lia]|]. split; [|exact I].
    vok. intros _. split; [|split];
      [intros idx H; destruct (bounds1 _ _ H) as (i & -> & Hi); cbn [offset v_str];
       match goal with |- _ < ?x => let y := eval vm_compute in x in change x with y end; lia
      |vm_compute; discriminate
      |repeat (constructor; [split; [ht|cbn; lia]|]); constructor].
  - cbn [orderly ex_texts ex_text]. repeat split; try intros _; repeat constructor.
  - cbn [steady ex_texts ex_text]. repeat split; try intros _; repeat constructor.
  - exact Hw.
  - exists out, x, n, m. split; [exact S1|]. specialize (R [] []). cbn [app length] in R. rewrite app_nil_r in R.
    split; [eauto|]. exact Hn.
Qed.

(** A class with a string that has reserved capacity takes less when it is restored; a view that has
    extents but no memory takes more. *)
Definition ex_named : kty := KClass (TPrim 100 240) [KVal TString; KView (ex_vt INT 2 LStride false)].
Definition ex_null : view := {| v_label := []; v_ext := [3]; v_str := [1]; v_data := []; v_live := false |}.
Theorem C76_refuted : exists E span K f k1 v1 x1 r1 s1 k2 v2 x2 r2 s2,
  wf_env zero_cap E /\ wf_span span /\ span [] [] = 1 /\ wf_kokkos K /\ (2 < f)%nat /\ members_exist E /\
  (kty_ok E k1 /\ defaults E f k1 /\ kheld E span K f k1 v1 /\ orderly k1 v1 /\
   krestart E span K f k1 v1 x1 /\ footprint_member E span K f k1 v1 0 = Ok (v1, r1) /\
   footprint_member E span K f k1 x1 0 = Ok (x1, s1) /\ s1 < r1) /\
  (kty_ok E k2 /\ defaults E f k2 /\ kheld E span K f k2 v2 /\ orderly k2 v2 /\
   krestart E span K f k2 v2 x2 /\ footprint_member E span K f k2 v2 0 = Ok (v2, r2) /\
   footprint_member E span K f k2 x2 0 = Ok (x2, s2) /\ r2 < s2).
Proof.
  exists (ex true), ex_span, ex_map, 3%nat, ex_named, (OObj [OVal (VStr 1000 [x61]); OView ex_strided]),
    (OObj [OVal (VStr 15 [x61]); OView {| v_label := v_label ex_strided; v_ext := v_ext ex_strided;
       v_str := v_str ex_strided; v_data := map i_ [10; 11; 0; 0; 14; 15; 0; 0; 18; 19]; v_live := true |}]).
  do 2 eexists.
  exists (KView (ex_vt INT 1 LRight false)), (OView ex_null),
    (OView {| v_label := []; v_ext := [3]; v_str := [1]; v_data := map i_ [0; 0; 0]; v_live := true |}).
  do 2 eexists.
  assert (He : elem_ok (ex true) 3 INT).
  { intros d Hd. injection Hd as <-. split; [ht|]. split; [cbn; lia|exact I]. }
  split; [now apply ex_wf|]. split; [apply ex_span_wf|]. split; [reflexivity|].
  split; [apply ex_map_wf|]. split; [lia|]. split; [apply ex_members|]. split.
  - split; [cbn; repeat split; discriminate|]. split; [split; [exact I|split; [exact He|exact I]]|].
    split; [cbn [kheld ex_named]; split; [split; [ht|cbn; lia]|]; split; [apply ex_strided_ok|exact I]|].
    split; [cbn [orderly ex_named]; repeat split; try intros _; repeat constructor|].
    split; [eexists; eexists; split; [vm_compute; reflexivity|]; split; [reflexivity|]; vm_compute; reflexivity|].
    split; [vm_compute; reflexivity|]. split; [vm_compute; reflexivity|]. reflexivity.
  - split; [cbn; repeat split; discriminate|]. split; [exact He|].
    split; [vok; discriminate|]. split; [discriminate|].
    split; [eexists; eexists; split; [vm_compute; reflexivity|]; split; [reflexivity|]; vm_compute; reflexivity|].
    split; [vm_compute; reflexivity|]. split; [vm_compute; reflexivity|]. reflexivity.
Qed.
Print Assumptions C76_refuted.
