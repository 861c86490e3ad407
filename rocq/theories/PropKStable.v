(** C74: objects that contain Kokkos views, restarted again and again; C75: what their data says. *)
From Coq Require Import List NArith Arith Bool Lia.
From Coq.Strings Require Import Byte.
From Verif Require Import Base Syntax Prog Serializers Traverse Spec ProgFacts ApiFacts Stable PropLaws Examples
  Views ViewSpec KMap PropViews Members MembersSpec MembersFacts PropMembers KStable.
Import ListNotations.
Local Open Scope N_scope.

(** A program writes the object, ends, starts again and reads a new one. *)
Definition krestart (E : env) (span : list N -> list N -> N) (K : kokkos_map) (f : nat) (k : kty)
  (v x : kval) : Prop :=
  exists b w, serialize_member E span K f k v = Ok (b, v) /\ blank E k = Some w /\
    deserialize_member E span K f k b 0 w = Ok (x, len b).
Inductive krestarts (E : env) (span : list N -> list N -> N) (K : kokkos_map) (f : nat) (k : kty) :
  nat -> kval -> kval -> Prop :=
| KrNone v : krestarts E span K f k 0 v v
| KrMore n v x y : krestart E span K f k v x -> krestarts E span K f k n x y ->
    krestarts E span K f k (S n) v y.

(** Full statement: the bytes never change, for every object.
    Missing: unordered containers and Kokkos maps, whose entries may be read in another order:
    these bytes may change every time ([C74_maps_refuted]).  Also false for views that were never
    allocated or have other strides than Kokkos would choose ([C74_refuted]): these bytes change
    once. *)
Theorem C74_restart_partial : forall E span K f k v w, wf_env zero_cap E -> wf_span span -> span [] [] = 1 ->
  wf_kokkos K -> (2 < f)%nat -> (forall t, k <> KVal t) -> kty_ok E k -> defaults E f k ->
  kheld E span K f k v -> orderly k v -> blank E k = Some w ->
  exists b x, (stream_member E span K f k v = Ok (b, v) /\
     (len b < two64 -> serialize_member E span K f k v = Ok (b, v))) /\
    (forall before after,
       deserialize_member E span K f k (before ++ b ++ after) (length before) w = Ok (x, len b)) /\
    kcopy k v x /\ kheld E span K f k x /\ orderly k x /\ settled k x /\
    (settled k v -> stream_member E span K f k x = Ok (b, x) /\
       (len b < two64 -> serialize_member E span K f k x = Ok (b, x))).
Proof.
  intros E span K f k v w wf Hs H0 wk Hf Hk Ht Hd Hh Ho Hw.
  destruct (restart_obj E wf span H0 Hs K wk f Hf k Hk Ht v w Hh Hd Ho Hw) as (x & X1 & X2 & X3 & X4 & X5 & _ & Hr).
  exists (wobj E span k v), x. split; [now apply writes_obj|]. split; [exact Hr|].
  repeat (split; [assumption|]). intros Hv. rewrite <- (X5 Hv). now apply writes_obj.
Qed.
Print Assumptions C74_restart_partial.

(** Any number of restarts: from the first one on the program has the very same object, and the
    bytes never change.  By [C74_restart_partial] the hypothesis [settled] is met by every object
    that was itself read. *)
Theorem C74_restarts_partial : forall E span K f k v w, wf_env zero_cap E -> wf_span span -> span [] [] = 1 ->
  wf_kokkos K -> (2 < f)%nat -> (forall t, k <> KVal t) -> kty_ok E k -> defaults E f k ->
  kheld E span K f k v -> orderly k v -> settled k v -> blank E k = Some w ->
  (forall b, stream_member E span K f k v = Ok (b, v) -> len b < two64) ->
  exists b x, serialize_member E span K f k v = Ok (b, v) /\ kcopy k v x /\
    serialize_member E span K f k x = Ok (b, x) /\
    forall n, krestarts E span K f k (S n) v x /\
      forall y, krestarts E span K f k (S n) v y -> y = x.
Proof.
  intros E span K f k v w wf Hs H0 wk Hf Hk Ht Hd Hh Ho Hv Hw Hl.
  destruct (C74_restart_partial E span K f k v w) as (b & x & (B1 & B2) & R & X1 & X2 & X3 & X4 & X5); auto.
  specialize (B2 (Hl b B1)). destruct (X5 Hv) as (_ & B3). specialize (B3 (Hl b B1)).
  pose proof (R [] []) as R0. cbn [app length] in R0. rewrite app_nil_r in R0.
  assert (Hr : forall u, serialize_member E span K f k u = Ok (b, u) -> krestart E span K f k u x).
  { intros u Hu. exists b, w. auto. }
  assert (Hf' : forall u y, serialize_member E span K f k u = Ok (b, u) -> krestart E span K f k u y -> y = x).
  { intros u y Hu (b' & w' & H1 & H2 & H3). rewrite Hu in H1. injection H1 as <-.
    rewrite Hw in H2. injection H2 as <-. rewrite R0 in H3. injection H3 as H3. auto. }
  assert (Hx : forall n, krestarts E span K f k n x x /\ forall y, krestarts E span K f k n x y -> y = x).
  { induction n as [|n (IH1 & IH2)].
    - split; [constructor|]. intros y Hy. now inversion Hy.
    - split; [econstructor; eauto|]. intros y Hy. inversion Hy as [|? ? z ? Hz Hy']; subst.
      rewrite (Hf' x z B3 Hz) in Hy'. auto. }
  exists b, x. repeat (split; [assumption|]). intros n. destruct (Hx n) as (G1 & G2). split.
  - econstructor; eauto.
  - intros y Hy. inversion Hy as [|? ? z ? Hz Hy']; subst. rewrite (Hf' v z B2 Hz) in Hy'. auto.
Qed.
Print Assumptions C74_restarts_partial.

(** struct {
      int step;
      View<int**, LayoutStride> a;
      std::vector<Row> rows;                       // struct Row { View<int*> values; std::string name; }
      std::optional<DynRankView<int>> r;
      std::unique_ptr<DynamicView<int*>> d;
      View<std::vector<int>*> lists;
    } *)
Definition ex_row : kty := KClass (TPrim 102 80) [KView (ex_vt INT 1 LRight false); KVal TString].
Definition ex_state : kty := KClass (TPrim 100 240)
  [KVal INT; KView (ex_vt INT 2 LStride false); KVec (TPrim 101 24) ex_row;
   KOpt (TPrim 103 32) (KDynRank (ex_vt INT 0 LStride false));
   KPtr (TPrim 104 8) (KDynamic (TPrim 93 48) INT);
   KView (ex_vt (TVector INT) 1 LRight false)].
Definition ex_lists : view := {|
  v_label := [x6c]; v_ext := [2]; v_str := [1];
  v_data := [VVec 4 [i_ 8; i_ 9]; VVec 2 []]; v_live := true |}.
Definition ex_row_of (l : list N) (b : bytes) : kval := OObj [OView (ex_line l); OVal (str_ b)].
Definition ex_saved : kval :=
  OObj [OVal (i_ 7); OView ex_strided; OVec 4 [ex_row_of [1; 2; 3] [x61]; ex_row_of [9] []];
        OOpt (Some (OView ex_strided)); OOpt (Some (ODynamic ex_dynamic)); OView ex_lists].

Lemma ex_line_ok : forall b, Forall (fun l => view_ok (ex b) ex_span (ex_vt INT 1 LRight false) 3 (ex_line l))
  [[1; 2; 3]; [9]].
Proof.
  intros b. repeat constructor; try (vm_compute; discriminate); try (cbn; lia);
    try (intros idx Hin; destruct (bounds1 _ _ Hin) as (i & -> & Hi); cbn [offset ex_line v_str v_data v_ext] in *;
         unfold len in *; rewrite map_length; cbn [length] in *; lia).
Qed.

Lemma ex_lists_ok : forall b, view_ok (ex b) ex_span (ex_vt (TVector INT) 1 LRight false) 3 ex_lists.
Proof.
  intros b. vok. intros _. split; [|split].
  - intros idx H. destruct (bounds1 _ _ H) as (i & -> & Hi). cbn [offset ex_lists v_str].
    match goal with |- _ < ?x => let y := eval vm_compute in x in change x with y end. lia.
  - vm_compute. discriminate.
  - cbn [ex_lists v_data ex_vt vt_elem]. unfold i_. repeat (constructor; [split; [ht|cbn; lia]|]). constructor.
Qed.

Lemma ex_saved_ok : forall b, kty_ok (ex b) ex_state /\ defaults (ex b) 3 ex_state /\
  kheld (ex b) ex_span ex_map 3 ex_state ex_saved /\ orderly ex_state ex_saved /\ settled ex_state ex_saved /\
  exists w, blank (ex b) ex_state = Some w.
Proof.
  intros b.
  assert (Hs : forall l, len l <= 15 -> has_ty (ex b) TString (str_ l)).
  { intros l Hl. unfold str_. constructor; [exact Hl|]. eapply N.le_lt_trans; [exact Hl|reflexivity]. }
  assert (He : elem_ok (ex b) 3 INT).
  { intros d Hd. injection Hd as <-. split; [ht|]. split; [cbn; lia|exact I]. }
  assert (Hv : elem_ok (ex b) 3 (TVector INT)).
  { intros d Hd. injection Hd as <-. split; [ht|]. split; [cbn; lia|exact I]. }
  pose proof (ex_line_ok b) as Hr. inversion Hr as [|? ? R1 Hr']; subst. inversion Hr' as [|? ? R2 _]; subst.
  split; [cbn; repeat split; discriminate|]. split; [cbn [defaults ex_state ex_row]; repeat (first [exact He | exact Hv | exact I | match goal with |- _ /\ _ => split end])|].
  split; [|split; [|split; [|eexists; reflexivity]]].
  - cbn [kheld ex_state ex_saved]. split; [split; [ht|cbn; lia]|]. split; [apply ex_strided_ok|].
    split.
    { cbn [kheld ex_row ex_row_of]. split; [|split; [vm_compute; discriminate|reflexivity]].
      constructor; [|constructor; [|constructor]]; (split; [assumption|]); (split; [|exact I]);
        (split; [|cbn; lia]); apply Hs; vm_compute; discriminate. }
    split; [apply (C44_case b)|]. split; [split; [apply ex_dynamic_ok|]; split; reflexivity|].
    split; [apply ex_lists_ok|exact I].
  - cbn [orderly ex_state ex_saved ex_row ex_row_of]. repeat split; try intros _; repeat constructor.
  - cbn [settled ex_state ex_saved ex_row ex_row_of]. split; [exact I|]. split; [repeat split|].
    split; [repeat constructor|]. split; [right; repeat split|]. repeat split.
Qed.

Example C74_case : forall b, exists out x,
  serialize_member (ex b) ex_span ex_map 3 ex_state ex_saved = Ok (out, ex_saved) /\ kcopy ex_state ex_saved x /\
  serialize_member (ex b) ex_span ex_map 3 ex_state x = Ok (out, x) /\
  forall n, krestarts (ex b) ex_span ex_map 3 ex_state (S n) ex_saved x /\
    forall y, krestarts (ex b) ex_span ex_map 3 ex_state (S n) ex_saved y -> y = x.
Proof.
  intros b. destruct (ex_saved_ok b) as (H1 & H2 & H3 & H4 & H5 & w & H6).
  eapply C74_restarts_partial; eauto.
  - apply ex_wf. reflexivity.
  - apply ex_span_wf.
  - apply ex_map_wf.
  - discriminate.
  - intros out Ho. assert (Hl : match stream_member (ex b) ex_span ex_map 3 ex_state ex_saved with
      | Ok (o, _) => len o <? two64 | _ => false end = true) by (destruct b; vm_compute; reflexivity).
    rewrite Ho in Hl. now apply N.ltb_lt.
Qed.

(** View<int*, LayoutRight> that was never allocated, and View<int**, LayoutRight> with padding
    after every row: the copies are allocated, and without padding. *)
Definition ex_never : view := {| v_label := []; v_ext := [0]; v_str := [0]; v_data := []; v_live := false |}.
Definition ex_padded : view := {|
  v_label := [x61]; v_ext := [2; 3]; v_str := [4; 1];
  v_data := map i_ [10; 11; 12; 0; 13; 14; 15; 0]; v_live := true |}.

Theorem C74_refuted : exists E span K f k1 v1 x1 k2 v2 x2 b1 b2 c1 c2,
  wf_env zero_cap E /\ wf_span span /\ span [] [] = 1 /\ wf_kokkos K /\ (2 < f)%nat /\
  (kty_ok E k1 /\ defaults E f k1 /\ kheld E span K f k1 v1 /\ orderly k1 v1 /\
   krestart E span K f k1 v1 x1 /\
   serialize_member E span K f k1 v1 = Ok (b1, v1) /\ serialize_member E span K f k1 x1 = Ok (c1, x1) /\
   b1 <> c1) /\
  (kty_ok E k2 /\ defaults E f k2 /\ kheld E span K f k2 v2 /\ orderly k2 v2 /\
   krestart E span K f k2 v2 x2 /\
   serialize_member E span K f k2 v2 = Ok (b2, v2) /\ serialize_member E span K f k2 x2 = Ok (c2, x2) /\
   b2 <> c2).
Proof.
  exists (ex true), ex_span, ex_map, 3%nat.
  exists (KView (ex_vt INT 1 LRight false)), (OView ex_never),
    (OView {| v_label := []; v_ext := [0]; v_str := [1]; v_data := []; v_live := true |}).
  exists (KView (ex_vt INT 2 LRight false)), (OView ex_padded),
    (OView {| v_label := [x61]; v_ext := [2; 3]; v_str := [3; 1];
              v_data := map i_ [10; 11; 12; 13; 14; 15]; v_live := true |}).
  do 4 eexists.
  assert (He : elem_ok (ex true) 3 INT).
  { intros d Hd. injection Hd as <-. split; [ht|]. split; [cbn; lia|exact I]. }
  split; [now apply ex_wf|]. split; [apply ex_span_wf|]. split; [reflexivity|].
  split; [apply ex_map_wf|]. split; [lia|]. split.
  - split; [cbn; repeat split; discriminate|]. split; [exact He|].
    split; [vok; discriminate|]. split; [discriminate|].
    split; [eexists; eexists; split; [vm_compute; reflexivity|]; split; [reflexivity|]; vm_compute; reflexivity|].
    split; [vm_compute; reflexivity|]. split; [vm_compute; reflexivity|]. vm_compute. discriminate.
  - split; [cbn; repeat split; discriminate|]. split; [exact He|].
    split.
    { vok. intros _. split; [|split].
      - intros idx H. destruct (bounds2 _ _ _ H) as (i & j & -> & Hi & Hj). cbn [offset ex_padded v_str].
        match goal with |- _ < ?x => let y := eval vm_compute in x in change x with y end. lia.
      - vm_compute. discriminate.
      - cbn [ex_padded v_data map]. repeat (constructor; [split; [ht|cbn; lia]|]). constructor. }
    split; [intros _; repeat constructor|].
    split; [eexists; eexists; split; [vm_compute; reflexivity|]; split; [reflexivity|]; vm_compute; reflexivity|].
    split; [vm_compute; reflexivity|]. split; [vm_compute; reflexivity|]. vm_compute. discriminate.
Qed.
Print Assumptions C74_refuted.

(** A map that puts a new key in the last free slot: every restart turns the order around, and
    the bytes never stay the same. *)
Fixpoint last_free (mp : kmap) : option nat :=
  match mp with
  | [] => None
  | s :: r => match last_free r with
              | Some i => Some (S i)
              | None => if s_occ s then None else Some 0%nat
              end
  end.
Definition ex_last : kokkos_map := {|
  k_eq := k_eq ex_map; k_rehash := k_rehash ex_map; k_place := fun mp _ => last_free mp |}.
Lemma filter_le : forall A (p : A -> bool) l, (length (filter p l) <= length l)%nat.
Proof. induction l as [|a l IH]; cbn [filter length]; [lia|]. destruct (p a); cbn [length]; lia. Qed.
Lemma ex_last_wf : wf_kokkos ex_last.
Proof.
  destruct ex_map_wf as [H1 H2 _]. constructor; auto.
  intros mp k. cbn [k_place ex_last]. unfold len, occupied.
  induction mp as [|s r IH]; cbn [filter length last_free]; intros H; [lia|].
  destruct (last_free r) as [j|] eqn:Hj.
  - destruct (Nat.eq_dec (length (filter s_occ r)) (length r)) as [Hr|Hr].
    + exfalso. clear - Hr Hj. revert j Hj. induction r as [|u r IHr]; intros j Hj; [discriminate|].
      cbn [last_free filter length] in *. pose proof (filter_le _ s_occ r).
      destruct (s_occ u); [|lia]. cbn [length] in Hr.
      destruct (last_free r); [|discriminate]. eapply IHr; [lia|reflexivity].
    + destruct IH as (i & s' & G1 & G2 & G3); [pose proof (filter_le _ s_occ r); lia|].
      injection G1 as <-. exists (S j), s'. auto.
  - destruct (s_occ s) eqn:Hs; [|exists 0%nat, s; auto].
    destruct IH as (i & s' & G1 & _); [cbn [length] in H; lia|discriminate].
Qed.

Theorem C74_maps_refuted : exists E span K f k v x b c,
  wf_env zero_cap E /\ wf_span span /\ span [] [] = 1 /\ wf_kokkos K /\ (2 < f)%nat /\
  kty_ok E k /\ kheld E span K f k v /\ kheld E span K f k x /\
  krestart E span K f k v x /\ krestart E span K f k x v /\
  serialize_member E span K f k v = Ok (b, v) /\ serialize_member E span K f k x = Ok (c, x) /\ b <> c.
Proof.
  exists (ex true), ex_span, ex_last, 3%nat, (KMap (TPrim 92 40) INT INT),
    (OMap [slot_ 3 30; slot_ 5 50]), (OMap [slot_ 5 50; slot_ 3 30]). do 2 eexists.
  split; [now apply ex_wf|]. split; [apply ex_span_wf|]. split; [reflexivity|].
  split; [apply ex_last_wf|]. split; [lia|]. split; [split; apply int_constructible|].
  assert (Hok : forall a b c d, a < 256 -> b < 256 -> c < 256 -> d < 256 ->
    i_eq (i_ a) (i_ a) = true -> i_eq (i_ c) (i_ c) = true ->
    i_eq (i_ a) (i_ c) = false -> i_eq (i_ c) (i_ a) = false ->
    kheld (ex true) ex_span ex_last 3 (KMap (TPrim 92 40) INT INT) (OMap [slot_ a b; slot_ c d])).
  { intros a b c d Ha Hb Hc Hd E1 E2 E3 E4. cbn [kheld]. split; [constructor|].
    - reflexivity.
    - intros s H. repeat (destruct H as [<-|H]; [assumption|]). contradiction.
    - intros i j s s' Hi Hj. destruct i as [|[|[|i]]]; try discriminate Hi; injection Hi as <-;
        destruct j as [|[|[|j]]]; try discriminate Hj; injection Hj as <-; intros _ _ HE; auto;
        exfalso; revert HE; cbn [k_eq ex_last ex_map slot_ s_key]; congruence.
    - change (occupied [slot_ a b; slot_ c d]) with [slot_ a b; slot_ c d]. unfold slot_. slots.
    - intros s s' H H'. repeat (destruct H as [<-|H]; [discriminate|]). contradiction. }
  split; [apply Hok; reflexivity|]. split; [apply Hok; reflexivity|].
  split; [eexists; eexists; split; [vm_compute; reflexivity|]; split; [reflexivity|]; vm_compute; reflexivity|].
  split; [eexists; eexists; split; [vm_compute; reflexivity|]; split; [reflexivity|]; vm_compute; reflexivity|].
  split; [vm_compute; reflexivity|]. split; [vm_compute; reflexivity|]. vm_compute. discriminate.
Qed.
Print Assumptions C74_maps_refuted.

(** ** C75 *)

(** Two objects whose data agree, or begin alike as far as one of them goes, have the same data and
    the same contents; [w]: an object that may be overwritten with either, such as a new one. *)
Theorem C75_unambiguous : forall E span K f k v1 v2 w b1 b2 a1 a2, wf_env any E -> wf_span span ->
  span [] [] = 1 -> wf_kokkos K -> (2 < f)%nat -> (forall t, k <> KVal t) -> kty_ok E k ->
  kheld E span K f k v1 -> kheld E span K f k v2 -> over E k v1 w -> over E k v2 w ->
  stream_member E span K f k v1 = Ok (b1, v1) -> stream_member E span K f k v2 = Ok (b2, v2) ->
  b1 ++ a1 = b2 ++ a2 ->
  b1 = b2 /\ a1 = a2 /\ kagree k v1 v2.
Proof. exact obj_prefix. Qed.
Print Assumptions C75_unambiguous.

(** Two views that differ in the memory between their elements have the same data. *)
Definition ex_gaps : view := {|
  v_label := [x61]; v_ext := [2; 3]; v_str := [1; 4];
  v_data := map i_ [10; 11; 0; 0; 14; 15; 0; 0; 18; 19]; v_live := true |}.
Definition ex_other : kval :=
  OObj [OVal (i_ 7); OView ex_gaps; OVec 4 [ex_part_of ex_kmap [x61]; ex_part_of [] []];
        OOpt (Some (OView ex_gaps)); OOpt (Some (ODynamic ex_dynamic)); OOpt None].

Lemma ex_gaps_ok : forall b, view_ok (ex b) ex_span (ex_vt INT 2 LStride false) 3 ex_gaps.
Proof.
  intros b. vok. intros _. split; [|split].
  - intros idx H. destruct (bounds2 _ _ _ H) as (i & j & -> & Hi & Hj).
    cbn [offset ex_gaps v_str]. match goal with |- _ < ?x => let y := eval vm_compute in x in change x with y end. lia.
  - vm_compute. discriminate.
  - cbn [ex_gaps v_data map]. repeat (constructor; [split; [ht|cbn; lia]|]). constructor.
Qed.

Example C75_case : forall b, exists out,
  stream_member (ex b) ex_span ex_map 3 ex_owner ex_object = Ok (out, ex_object) /\
  stream_member (ex b) ex_span ex_map 3 ex_owner ex_other = Ok (out, ex_other) /\
  ex_other <> ex_object /\ kagree ex_owner ex_object ex_other.
Proof.
  intros b.
  destruct (ex_object_ok b) as (Ht & Hh & Hov).
  assert (Hh' : kheld (ex b) ex_span ex_map 3 ex_owner ex_other).
  { destruct Hh as (H1 & _ & H3 & H4 & H5). cbn [kheld ex_owner ex_other].
    split; [exact H1|]. split; [apply ex_gaps_ok|]. split; [exact H3|].
    split; [|exact H5]. right. split; [reflexivity|]. split; [apply ex_gaps_ok|]. split; [cbn; lia|].
    repeat constructor. }
  assert (Hb : exists out, stream_member (ex b) ex_span ex_map 3 ex_owner ex_object = Ok (out, ex_object) /\
    stream_member (ex b) ex_span ex_map 3 ex_owner ex_other = Ok (out, ex_other)).
  { destruct b; eexists; split; vm_compute; reflexivity. }
  destruct Hb as (out & S1 & S2). exists out. split; [exact S1|]. split; [exact S2|]. split; [discriminate|].
  eapply (C75_unambiguous (ex b) ex_span ex_map 3 ex_owner ex_object ex_other ex_used out out [] []); eauto.
  - apply ex_wf. reflexivity.
  - apply ex_span_wf.
  - apply ex_map_wf.
  - discriminate.
Qed.
