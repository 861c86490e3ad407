(** Property C79 for objects that contain Kokkos views and maps: a plain value in an
    element of a view, or in a member of a class that has views, has its own bytes in the
    data. *)
From Coq Require Import List NArith Arith Bool Lia.
From Coq.Strings Require Import Byte.
From Verif Require Import Base Syntax Prog Serializers Traverse Spec ProgFacts ApiFacts Examples
  Pack Views ViewSpec ViewFacts ViewRound DynViews KMap PropViews Members MembersSpec MembersFacts PropMembers
  Patch Parts PropParts PropKParts.
Import ListNotations.
Local Open Scope N_scope.

(** An allocated view with [x] at one place of its memory. *)
Definition view_with (label : bytes) (ext str : list N) (before after : list val) (x : val) : view :=
  {| v_label := label; v_ext := ext; v_str := str; v_data := before ++ x :: after; v_live := true |}.

(** A view of dynamic size with [x] as one of its elements, and the slots of a map that have
    [x] as a value or as a key. *)
Definition dview_with (label : bytes) (chunk chunks : N) (before after : list val) (x : val) : dview :=
  {| d_label := label; d_chunk := chunk; d_chunks := chunks; d_elems := before ++ x :: after |}.
Definition value_slot (key x : val) : slot := {| s_key := key; s_val := x; s_occ := true |}.
Definition key_slot (value x : val) : slot := {| s_key := x; s_val := value; s_occ := true |}.

(** That place is the element at [idx] and no other. *)
Definition only_element (ext str : list N) (before : list val) (idx : list N) : Prop :=
  in_bounds idx ext /\ offset str idx = len before /\
  forall j, in_bounds j ext -> offset str j = offset str idx -> j = idx.

Lemma nth_error_other : forall A (l r : list A) x y n, n <> length l ->
  nth_error (l ++ x :: r) n = nth_error (l ++ y :: r) n.
Proof. induction l; intros r x y [|n] H; cbn in *; auto; congruence. Qed.

Lemma firstn_hole : forall A n (l r : list A) x, (length l < n)%nat ->
  firstn n (l ++ x :: r) = l ++ x :: firstn (n - S (length l)) r.
Proof.
  intros A n l. revert n. induction l; intros [|n] r x H; cbn [length] in H; try lia.
  - cbn. now rewrite Nat.sub_0_r.
  - cbn [app firstn length]. rewrite IHl by lia. reflexivity.
Qed.

Section KPatch.
Variable E : env.
Variable span : list N -> list N -> N.
Hypothesis Hspan : wf_span span.
Variable K : kokkos_map.
Variable f : nat.

Lemma within_wbody : forall vt label ext str before after idx,
  length str = length ext -> only_element ext str before idx ->
  within (encb E (vt_elem vt)) (fun x => wbody E span vt (view_with label ext str before after x)).
Proof.
  intros vt label ext str before after idx Hr (Hin & Ho & Hinj). set (x0 := VVarNone).
  set (c := contiguous span (vt_kind vt) (view_with label ext str before after x0)).
  apply within_ext with (fun x =>
    (if c
     then warray E (vt_elem vt) (map (encb E (vt_elem vt)) (firstn (N.to_nat (prod ext)) (before ++ x :: after)))
     else concat (map (enc E (vt_elem vt)) (elements (view_with label ext str before after x))))).
  { intros x. reflexivity. }
  destruct c eqn:Hc.
  - assert (Hlt : (length before < N.to_nat (prod ext))%nat).
    { assert (offset str idx < prod ext).
      { subst c. unfold contiguous in Hc. cbn [view_with v_ext v_str] in Hc.
        destruct (vt_kind vt).
        - apply eqb_list_eq in Hc. rewrite Hc. now apply natural_bound.
        - apply eqb_list_eq in Hc. rewrite Hc. now apply natural_bound.
        - apply N.eqb_eq in Hc. rewrite <- Hc. apply Hspan; auto. }
      unfold len in Ho. lia. }
    apply within_ext with (fun x => warray E (vt_elem vt) (map (encb E (vt_elem vt)) before ++
      encb E (vt_elem vt) x :: map (encb E (vt_elem vt)) (firstn (N.to_nat (prod ext) - S (length before)) after))).
    + intros x. now rewrite firstn_hole, map_app by auto.
    + apply (within_warray E _ _ (encb E (vt_elem vt))). apply within_id.
  - pose proof (proj2 (in_indices ext idx) Hin) as Hi.
    destruct (in_split _ _ Hi) as (i1 & i2 & Hs).
    pose proof (indices_nodup ext) as Hnd. rewrite Hs in Hnd. apply NoDup_remove_2 in Hnd.
    set (pick := fun x (j : list N) =>
      match at_ (view_with label ext str before after x) j with Some y => [y] | None => [] end).
    assert (Hoth : forall x j, In j (i1 ++ i2) -> pick x j = pick VVarNone j).
    { intros x j Hj. unfold pick, at_. cbn [view_with v_data v_str].
      rewrite (nth_error_other _ before after x VVarNone); auto.
      intros Heq. apply Hnd. replace idx with j; auto. apply Hinj.
      - apply in_indices. rewrite Hs. apply in_app_or in Hj. apply in_or_app. cbn. tauto.
      - rewrite Ho. unfold len. lia. }
    assert (Hself : forall x, pick x idx = [x]).
    { intros x. unfold pick, at_. cbn [view_with v_data v_str]. rewrite Ho.
      replace (N.to_nat (len before)) with (length before) by (unfold len; lia).
      rewrite nth_error_app2, Nat.sub_diag by lia. reflexivity. }
    apply within_ext with (fun x =>
      concat (map (enc E (vt_elem vt)) (flat_map (pick VVarNone) i1) ++
        enc E (vt_elem vt) x :: map (enc E (vt_elem vt)) (flat_map (pick VVarNone) i2))).
    + intros x. unfold elements. cbn [view_with v_ext]. rewrite Hs, flat_map_app. cbn [flat_map].
      assert (Hfm : forall l, incl l (i1 ++ i2) -> flat_map (pick x) l = flat_map (pick VVarNone) l).
      { induction l as [|j l IH]; intros Hl; cbn [flat_map]; auto.
        rewrite Hoth by (apply Hl; now left). f_equal. apply IH. intros y Hy. apply Hl. now right. }
      change (concat (map (enc E (vt_elem vt)) (flat_map (pick VVarNone) i1) ++
        enc E (vt_elem vt) x :: map (enc E (vt_elem vt)) (flat_map (pick VVarNone) i2)) =
        concat (map (enc E (vt_elem vt)) (flat_map (pick x) i1 ++ pick x idx ++ flat_map (pick x) i2))).
      rewrite Hself, !Hfm by (intros y Hy; apply in_or_app; auto).
      rewrite !map_app. reflexivity.
    + apply (within_concat _ _ (enc E (vt_elem vt))). unfold enc. apply within_framed, within_id.
Qed.

Lemma within_view : forall vt label ext str before after idx x0,
  view_ok E span vt f (view_with label ext str before after x0) ->
  only_element ext str before idx ->
  within (encb E (vt_elem vt)) (fun x => wview E span vt (view_with label ext str before after x)).
Proof.
  intros vt label ext str before after idx x0 Hok Hone.
  pose proof (vo_rank _ _ _ _ _ Hok) as Hr. pose proof (vo_str _ _ _ _ _ Hok) as Hr'.
  cbn [view_with v_ext v_str] in Hr, Hr'.
  pose (v := view_with label ext str before after VVarNone).
  apply within_ext with (fun x =>
    wlabel E label ++ wint E (N.of_nat (length ext)) ++ wlayout E vt (layout_of v) ++
    wsize E (prod ext) ++ wbool E (contiguous span (vt_kind vt) v) ++ wbool E true ++
    wbody E span vt (view_with label ext str before after x)).
  { intros x. reflexivity. }
  do 6 apply within_l. eapply within_wbody; eauto. congruence.
Qed.
Lemma within_dyn : forall vt label ext str before after idx x0,
  dyn_ok E span vt f (view_with label ext str before after x0) ->
  only_element ext str before idx ->
  within (encb E (vt_elem vt)) (fun x => wdyn E span vt (view_with label ext str before after x)).
Proof.
  intros vt label ext str before after idx x0 [Hok|(_ & Hok & _)] Hone; [discriminate|].
  pose proof (vo_rank _ _ _ _ _ Hok) as Hr. pose proof (vo_str _ _ _ _ _ Hok) as Hr'.
  cbn [view_with v_ext v_str] in Hr, Hr'.
  pose (v := view_with label ext str before after VVarNone).
  apply within_ext with (fun x =>
    wlabel E label ++ framed E (TPrim 2 4) 1 (le 4 (N.of_nat (length ext))) ++ wlayout E vt (layout_of v) ++
    wsize E (dyn_size v) ++ wbool E (contiguous span (vt_kind vt) v) ++ wbool E true ++
    wbody E span vt (view_with label ext str before after x)).
  { intros x. reflexivity. }
  do 6 apply within_l. eapply within_wbody; eauto.
Qed.
Lemma within_dynamic_enc : forall t label chunk chunks before after,
  within (enc E t) (fun x => wdynamic E t (dview_with label chunk chunks before after x)).
Proof.
  intros t label chunk chunks before after.
  apply within_ext with (fun x => wlabel E label ++ wsize E chunk ++
    wsize E (allocation_extent (dview_with label chunk chunks before after VVarNone)) ++
    wsize E (len (before ++ VVarNone :: after)) ++
    concat (map (enc E t) before ++ enc E t x :: map (enc E t) after)).
  - intros x. unfold wdynamic. cbn [dview_with d_label d_chunk d_elems].
    unfold allocation_extent. cbn [dview_with d_label d_chunk d_chunks d_elems].
    unfold len. rewrite !app_length, map_app. cbn [length map]. reflexivity.
  - do 4 apply within_l. apply within_concat, within_id.
Qed.
Lemma within_dynamic : forall t label chunk chunks before after,
  within (encb E t) (fun x => wdynamic E t (dview_with label chunk chunks before after x)).
Proof.
  intros t label chunk chunks before after.
  apply (within_trans _ _ (enc E t)); [|apply within_dynamic_enc].
  unfold enc. apply within_framed, within_id.
Qed.
Lemma within_slots : forall A (g : A -> bytes) kt vt (u : A -> slot) before after,
  (forall x, s_occ (u x) = true) -> within g (fun x => wpair E kt vt (u x)) ->
  within g (fun x => wkmap E kt vt (before ++ u x :: after)).
Proof.
  intros A g kt vt u before after Ho Hw.
  apply within_ext with (fun x =>
    framed E (TPrim 2 4) 1 (le 4 (N.of_nat (length (occupied before) + S (length (occupied after))))) ++
    framed E (TPrim 2 4) 1 (le 4 (N.of_nat (length before + S (length after)))) ++
    concat (map (wpair E kt vt) (occupied before) ++ wpair E kt vt (u x) :: map (wpair E kt vt) (occupied after))).
  - intros x. unfold wkmap, occupied, len. rewrite filter_app. cbn [filter]. rewrite Ho.
    rewrite !app_length, map_app. reflexivity.
  - do 2 apply within_l. now apply within_concat.
Qed.

(** From the data of a part to that of the whole. *)
Lemma part_false : forall k c k' o, kpart_type true k c = Some (k', o) ->
  exists o2, kpart_type false k c = Some (k', o2) /\ ((forall t, k <> KVal t) -> forall t, k' = KVal t -> o2 = o).
Proof.
  intros k c k' o Hp. destruct c; cbn [kpart_type] in *; eauto.
  inversion Hp; subst. exists false. split; auto. intros H t ->. now destruct (H t).
Qed.

Lemma kwithin_own : forall k' o c k x0, kheld E span K f k (kplug c x0) -> kty_ok E k ->
  kpart_type true k c = Some (k', o) -> (forall t, k' <> KVal t) ->
  within (wown E span k') (fun x => wown E span k (kplug c x)).
Proof.
  intros k' o c k x0 Hh Ht Hp Hn. destruct (part_false _ _ _ _ Hp) as (o2 & HC & _).
  apply (within_trans _ _ (kdata E span o2 k')).
  - destruct o2; cbn [kdata]; [|apply within_id].
    apply within_ext with (fun x => framed E (name_of k') 1 (wown E span k' x)).
    + intros x. destruct k'; try reflexivity. now destruct (Hn t).
    + apply kwithin_framed, within_id.
  - apply (kwithin_part E span K f k' o2 c k false x0); auto.
Qed.

Lemma around_within : forall n A (g F : A -> bytes) (u : bytes -> A),
  around n (fun b => g (u b)) -> within g F -> around n (fun b => F (u b)).
Proof.
  intros n A g F u (p & q & H) (p' & q' & H'). exists (p' ++ p), (q ++ q'). intros b Hb.
  rewrite H', H by auto. now rewrite <- !app_assoc.
Qed.
Lemma around_wroot : forall n t F, around n F -> around n (fun b => wroot E t (F b)).
Proof.
  intros n t F H. unfold wroot. destruct (chk E) eqn:Hc; [now apply around_framed|].
  now apply around_l, around_r.
Qed.
End KPatch.

(** A plain value in a part of which the data has that of the value in it. *)
Lemma patch_part : forall E span K f k c k' o t (u : val -> kval) h b0,
  wf_env any E -> wf_span span -> span [] [] = 1 -> wf_kokkos K -> (2 < f)%nat -> kty_ok E k ->
  let object b := kplug c (u (fill h b)) in
  kheld E span K f k (object b0) -> kpart_type true k c = Some (k', o) -> (forall t, k' <> KVal t) ->
  has_ty E t (fill h b0) -> within (encb E t) (fun x => wown E span k' (u x)) ->
  exists p q, kstands_for E span K f k (p ++ b0 ++ q) (object b0) /\
    forall b, length b = length b0 -> kheld E span K f k (object b) ->
      kstands_for E span K f k (p ++ b ++ q) (object b).
Proof.
  intros E span K f k c k' o t u h b0 wf Hs H0 wk Hf Ht object Hh0 Hp Hnk Hel Hw.
  pose proof (whole_not_val _ _ _ _ _ Hp Hnk) as Hn.
  assert (HA : around (length b0) (fun b => wroot E (name_of k) (wown E span k (object b)))).
  { apply around_wroot.
    apply (around_within _ _ (wown E span k') (fun x => wown E span k (kplug c x)) (fun b => u (fill h b))).
    - apply (around_within _ _ (encb E t) (fun x => wown E span k' (u x)) (fill h)); auto.
      apply around_encb. now apply HoldsTy.
    - eapply kwithin_own; eauto. }
  destruct HA as (p & q & HA). exists p, q.
  assert (HS : forall b, length b = length b0 -> kheld E span K f k (object b) ->
            kstands_for E span K f k (p ++ b ++ q) (object b)).
  { intros b Hb Hh. rewrite <- HA by auto. now apply kstands_root. }
  split; auto.
Qed.

(** ** C79 *)
(** A plain value in an element of a view, the view being anywhere in the object (or the
    object itself). *)
Theorem C79_element : forall E span K f k c vt o label ext str before after idx h b0,
  wf_env any E -> wf_span span -> span [] [] = 1 -> wf_kokkos K -> (2 < f)%nat -> kty_ok E k ->
  let object b := kplug c (OView (view_with label ext str before after (fill h b))) in
  kheld E span K f k (object b0) ->
  kpart_type true k c = Some (KView vt, o) \/ kpart_type true k c = Some (KDynRank vt, o) ->
  only_element ext str before idx ->
  exists p q, kstands_for E span K f k (p ++ b0 ++ q) (object b0) /\
    forall b, length b = length b0 -> kheld E span K f k (object b) ->
      kstands_for E span K f k (p ++ b ++ q) (object b).
Proof.
  intros E span K f k c vt o label ext str before after idx h b0 wf Hs H0 wk Hf Ht object Hh0 [Hp|Hp] Hone;
    destruct (kpart_held E span K f _ _ _ _ _ _ Hh0 Ht Hp) as (Hv & _); cbn [kheld] in Hv.
  - apply (patch_part E span K f k c (KView vt) o (vt_elem vt)
      (fun x => OView (view_with label ext str before after x)) h b0); auto; try discriminate.
    + destruct (vo_live _ _ _ _ _ Hv eq_refl) as (_ & _ & HF). cbn [view_with v_data] in HF.
      apply in_mid in HF. apply HF.
    + eapply within_view; eauto.
  - apply (patch_part E span K f k c (KDynRank vt) o (vt_elem vt)
      (fun x => OView (view_with label ext str before after x)) h b0); auto; try discriminate.
    + destruct Hv as [Hv|(_ & Hv & _)]; [discriminate|].
      destruct (vo_live _ _ _ _ _ Hv eq_refl) as (_ & _ & HF). cbn [view_with v_data] in HF.
      apply in_mid in HF. apply HF.
    + eapply within_dyn; eauto.
Qed.
Print Assumptions C79_element.

(** The same of a view of dynamic size. *)
Theorem C79_dynamic : forall E span K f k c n t o label chunk chunks before after h b0,
  wf_env any E -> wf_span span -> span [] [] = 1 -> wf_kokkos K -> (2 < f)%nat -> kty_ok E k ->
  let object b := kplug c (ODynamic (dview_with label chunk chunks before after (fill h b))) in
  kheld E span K f k (object b0) -> kpart_type true k c = Some (KDynamic n t, o) ->
  exists p q, kstands_for E span K f k (p ++ b0 ++ q) (object b0) /\
    forall b, length b = length b0 -> kheld E span K f k (object b) ->
      kstands_for E span K f k (p ++ b ++ q) (object b).
Proof.
  intros E span K f k c n t o label chunk chunks before after h b0 wf Hs H0 wk Hf Ht object Hh0 Hp.
  destruct (kpart_held E span K f _ _ _ _ _ _ Hh0 Ht Hp) as ((Hv & _) & _).
  apply (patch_part E span K f k c (KDynamic n t) o t
    (fun x => ODynamic (dview_with label chunk chunks before after x)) h b0); auto; try discriminate.
  - pose proof (do_elems _ _ _ _ Hv) as HF. cbn [dview_with d_elems] in HF. apply in_mid in HF. apply HF.
  - apply within_dynamic.
Qed.
Print Assumptions C79_dynamic.

(** The values and the keys of a Kokkos map. A key may only be replaced by one that leaves
    the keys distinct, which is part of what the map can hold. *)
Theorem C79_map_value : forall E span K f k c n kt vt o key before after h b0,
  wf_env any E -> wf_span span -> span [] [] = 1 -> wf_kokkos K -> (2 < f)%nat -> kty_ok E k ->
  let object b := kplug c (OMap (before ++ value_slot key (fill h b) :: after)) in
  kheld E span K f k (object b0) -> kpart_type true k c = Some (KMap n kt vt, o) ->
  exists p q, kstands_for E span K f k (p ++ b0 ++ q) (object b0) /\
    forall b, length b = length b0 -> kheld E span K f k (object b) ->
      kstands_for E span K f k (p ++ b ++ q) (object b).
Proof.
  intros E span K f k c n kt vt o key before after h b0 wf Hs H0 wk Hf Ht object Hh0 Hp.
  destruct (kpart_held E span K f _ _ _ _ _ _ Hh0 Ht Hp) as ((Hv & _) & _).
  apply (patch_part E span K f k c (KMap n kt vt) o vt
    (fun x => OMap (before ++ value_slot key x :: after)) h b0); auto; try discriminate.
  - pose proof (ko_elems _ _ _ _ _ _ Hv) as HF. unfold occupied in HF. rewrite filter_app in HF.
    cbn [filter value_slot s_occ] in HF. apply in_mid in HF. apply HF.
  - apply (within_slots E _ _ kt vt (value_slot key)); [reflexivity|].
    unfold wpair. cbn [value_slot s_key s_val]. apply within_l. unfold enc. apply within_framed, within_id.
Qed.
Print Assumptions C79_map_value.

Theorem C79_map_key : forall E span K f k c n kt vt o value before after h b0,
  wf_env any E -> wf_span span -> span [] [] = 1 -> wf_kokkos K -> (2 < f)%nat -> kty_ok E k ->
  let object b := kplug c (OMap (before ++ key_slot value (fill h b) :: after)) in
  kheld E span K f k (object b0) -> kpart_type true k c = Some (KMap n kt vt, o) ->
  exists p q, kstands_for E span K f k (p ++ b0 ++ q) (object b0) /\
    forall b, length b = length b0 -> kheld E span K f k (object b) ->
      kstands_for E span K f k (p ++ b ++ q) (object b).
Proof.
  intros E span K f k c n kt vt o value before after h b0 wf Hs H0 wk Hf Ht object Hh0 Hp.
  destruct (kpart_held E span K f _ _ _ _ _ _ Hh0 Ht Hp) as ((Hv & _) & _).
  apply (patch_part E span K f k c (KMap n kt vt) o kt
    (fun x => OMap (before ++ key_slot value x :: after)) h b0); auto; try discriminate.
  - pose proof (ko_elems _ _ _ _ _ _ Hv) as HF. unfold occupied in HF. rewrite filter_app in HF.
    cbn [filter key_slot s_occ] in HF. apply in_mid in HF. apply HF.
  - apply (within_slots E _ _ kt vt (key_slot value)); [reflexivity|].
    unfold wpair. cbn [key_slot s_key s_val]. apply within_r. unfold enc. apply within_framed, within_id.
Qed.
Print Assumptions C79_map_key.

(** A plain value in a member, of any type of Traverse.v, of an object with views. *)
Theorem C79_member : forall E span K f k c t h b0,
  wf_env any E -> wf_span span -> span [] [] = 1 -> wf_kokkos K -> (2 < f)%nat -> kty_ok E k ->
  (forall t, k <> KVal t) ->
  let object b := kplug c (OVal (fill h b)) in
  kheld E span K f k (object b0) -> kpart_type true k c = Some (KVal t, true) ->
  exists p q, kstands_for E span K f k (p ++ b0 ++ q) (object b0) /\
    forall b, length b = length b0 -> kheld E span K f k (object b) ->
      kstands_for E span K f k (p ++ b ++ q) (object b).
Proof.
  intros E span K f k c t h b0 wf Hs H0 wk Hf Ht Hn object Hh0 Hp.
  destruct (kpart_held E span K f _ _ _ _ _ _ Hh0 Ht Hp) as (Hv & _). cbn [kheld] in Hv.
  destruct (part_false _ _ _ _ Hp) as (o2 & HC & Ho). rewrite (Ho Hn t eq_refl) in HC.
  assert (HA : around (length b0) (fun b => wroot E (name_of k) (wown E span k (object b)))).
  { apply around_wroot.
    apply (around_within _ _ (kdata E span true (KVal t)) (fun x => wown E span k (kplug c x))
      (fun b => OVal (fill h b))).
    - cbn [kdata wmember]. apply around_framed. apply around_encb. now apply HoldsTy.
    - apply (kwithin_part E span K f (KVal t) true c k false (OVal (fill h b0))); auto. }
  destruct HA as (p & q & HA). exists p, q.
  assert (HS : forall b, length b = length b0 -> kheld E span K f k (object b) ->
            kstands_for E span K f k (p ++ b ++ q) (object b)).
  { intros b Hb Hh. rewrite <- HA by auto. now apply kstands_root. }
  split; auto.
Qed.
Print Assumptions C79_member.

(** The element at (1, 2) of the strided view in the owner of PropMembers.v, which has gaps
    between its elements, and the number of the owner. *)
Definition corner : kctx :=
  KCObj [OVal (i_ 7)] KCHere
    [OVec 4 [ex_part_of ex_kmap [x61]; ex_part_of [] []]; OOpt (Some (OView ex_strided));
     OOpt (Some (ODynamic ex_dynamic)); OOpt None].
Definition corner_with (b : bytes) : kval :=
  kplug corner (OView (view_with [x61] [2; 3] [1; 4] (map i_ [10; 11; 12; 13; 14; 15; 16; 17; 18]) []
    (fill HHere b))).
Definition number : kctx :=
  KCObj [] KCHere
    [OView ex_strided; OVec 4 [ex_part_of ex_kmap [x61]; ex_part_of [] []]; OOpt (Some (OView ex_strided));
     OOpt (Some (ODynamic ex_dynamic)); OOpt None].

Lemma corner_is : corner_with (le 4 19) = ex_object. Proof. reflexivity. Qed.
Lemma corner_held : forall c b, length b = 4%nat ->
  kheld (ex c) ex_span ex_map 3 ex_owner (corner_with b).
Proof.
  intros c b Hb. destruct (ex_object_ok c) as (_ & (H1 & _ & H3) & _).
  split; [exact H1|]. split; [|exact H3]. cbn [kheld].
  vok. intros _. split; [|split].
  - intros idx H. destruct (bounds2 _ _ _ H) as (i & j & -> & Hi & Hj).
    cbn [offset view_with v_str].
    match goal with |- _ < ?x => let y := eval vm_compute in x in change x with y end. lia.
  - vm_compute. discriminate.
  - cbn [view_with v_data map app fill].
    repeat (constructor; [split; [constructor; first [reflexivity|exact Hb]|cbn; lia]|]). constructor.
Qed.

Example C79_element_case : forall c, exists p q,
  kstands_for (ex c) ex_span ex_map 3 ex_owner (p ++ le 4 19 ++ q) ex_object /\
  forall b, length b = 4%nat ->
    kstands_for (ex c) ex_span ex_map 3 ex_owner (p ++ b ++ q) (corner_with b).
Proof.
  intros c. rewrite <- corner_is.
  destruct (C79_element (ex c) ex_span ex_map 3 ex_owner corner (ex_vt INT 2 LStride false) true
    [x61] [2; 3] [1; 4] (map i_ [10; 11; 12; 13; 14; 15; 16; 17; 18]) [] [1; 2] HHere (le 4 19))
    as (p & q & H0 & H);
    [apply ex_wf; exact I|apply ex_span_wf|reflexivity|apply ex_map_wf|lia|apply ex_object_ok|
     apply corner_held; reflexivity|left; reflexivity| |].
  - split; [repeat constructor|]. split; [reflexivity|].
    intros j Hj. destruct (bounds2 _ _ _ Hj) as (a & b & -> & Ha & Hb). cbn [offset]. intros Heq.
    assert (a = 1) by lia. assert (b = 2) by lia. now subst.
  - exists p, q. split; [exact H0|]. intros b Hb. apply H; auto. now apply corner_held.
Qed.

Example C79_member_case : forall c, exists p q,
  kstands_for (ex c) ex_span ex_map 3 ex_owner (p ++ le 4 7 ++ q) ex_object /\
  forall b, length b = 4%nat ->
    kstands_for (ex c) ex_span ex_map 3 ex_owner (p ++ b ++ q) (kplug number (OVal (VB b))).
Proof.
  intros c.
  destruct (C79_member (ex c) ex_span ex_map 3 ex_owner number INT HHere (le 4 7)) as (p & q & H0 & H);
    [apply ex_wf; exact I|apply ex_span_wf|reflexivity|apply ex_map_wf|lia|apply ex_object_ok|discriminate|
     apply ex_object_ok|reflexivity|].
  exists p, q. split; [exact H0|]. intros b Hb. apply (H b Hb).
  destruct (ex_object_ok c) as (_ & (_ & H2) & _). split; [|exact H2].
  split; [constructor; exact Hb|cbn; lia].
Qed.

(** The element at (1, 2) of its optional view of dynamic rank, the middle element of its
    view of dynamic size, and the value and the key 5 in the map of its first part. *)
Definition opt_with (b : bytes) : kval :=
  kplug opt_view (OView (view_with [x61] [2; 3] [1; 4] (map i_ [10; 11; 12; 13; 14; 15; 16; 17; 18]) []
    (fill HHere b))).
Definition middle : kctx :=
  KCObj [OVal (i_ 7); OView ex_strided; OVec 4 [ex_part_of ex_kmap [x61]; ex_part_of [] []];
     OOpt (Some (OView ex_strided))] (KCSome KCHere) [OOpt None].
Definition middle_with (b : bytes) : kval :=
  kplug middle (ODynamic (dview_with [x61] 4 8 (map i_ [1; 2]) (map i_ [4; 5]) (fill HHere b))).
Definition value_with (b : bytes) : kval :=
  kplug first_map (OMap ([slot_ 3 30; empty_slot] ++ value_slot (i_ 5) (fill HHere b) :: [empty_slot])).
Definition key_with (b : bytes) : kval :=
  kplug first_map (OMap ([slot_ 3 30; empty_slot] ++ key_slot (i_ 50) (fill HHere b) :: [empty_slot])).

Lemma parts_are : opt_with (le 4 19) = ex_object /\ middle_with (le 4 3) = ex_object /\
  value_with (le 4 50) = ex_object /\ key_with (le 4 5) = ex_object.
Proof. repeat split. Qed.

Lemma opt_held : forall c b, length b = 4%nat -> kheld (ex c) ex_span ex_map 3 ex_owner (opt_with b).
Proof.
  intros c b Hb. destruct (ex_object_ok c) as (_ & (H1 & H2 & H3 & _ & H5) & _).
  split; [exact H1|]. split; [exact H2|]. split; [exact H3|]. split; [|exact H5].
  destruct (corner_held c b Hb) as (_ & Hv & _).
  right. split; [reflexivity|]. split; [exact Hv|]. split; [cbn; lia|]. repeat constructor.
Qed.
Lemma middle_held : forall c b, length b = 4%nat -> kheld (ex c) ex_span ex_map 3 ex_owner (middle_with b).
Proof.
  intros c b Hb. destruct (ex_object_ok c) as (_ & (H1 & H2 & H3 & H4 & _ & H6) & _).
  split; [exact H1|]. split; [exact H2|]. split; [exact H3|]. split; [exact H4|]. split; [|exact H6].
  split; [|split; reflexivity]. constructor; try reflexivity.
  - exists 2. reflexivity.
  - vm_compute. discriminate.
  - cbn [dview_with d_elems map app fill].
    repeat (constructor; [split; [constructor; first [reflexivity|exact Hb]|cbn; lia]|]). constructor.
Qed.
Lemma map_held : forall c mp, kmap_ok (ex c) ex_map INT INT 3 mp -> no_leftover ex_map mp ->
  kheld (ex c) ex_span ex_map 3 ex_owner (kplug first_map (OMap mp)).
Proof.
  intros c mp Hm Hl. destruct (ex_object_ok c) as (_ & (H1 & H2 & H3 & H4) & _).
  split; [exact H1|]. split; [exact H2|]. split; [|exact H4].
  destruct H3 as (HF & Hc). split; [|exact Hc].
  inversion HF as [|x l Hx Hr]; subst. destruct Hx as (_ & Hx). constructor; [|exact Hr].
  split; [split; assumption|exact Hx].
Qed.
Lemma value_held : forall c b, length b = 4%nat -> kheld (ex c) ex_span ex_map 3 ex_owner (value_with b).
Proof.
  intros c b Hb. apply map_held; [constructor|].
  - reflexivity.
  - intros s H. repeat (destruct H as [<-|H]; [reflexivity|]). contradiction.
  - apart.
  - cbn [occupied filter app slot_ empty_slot value_slot s_occ fill].
    repeat (constructor; [split; [constructor; reflexivity|
      split; [constructor; first [reflexivity|exact Hb]|split; cbn; lia]]|]). constructor.
  - intros s s' H H'. repeat (destruct H as [<-|H]; [|]); try contradiction;
      repeat (destruct H' as [<-|H']; [|]); try contradiction; cbn; intros; auto; discriminate.
Qed.
Lemma key_held : forall c, kheld (ex c) ex_span ex_map 3 ex_owner (key_with (le 4 9)).
Proof.
  intros c. apply map_held; [constructor|].
  - reflexivity.
  - intros s H. repeat (destruct H as [<-|H]; [reflexivity|]). contradiction.
  - apart.
  - cbn [occupied filter app slot_ empty_slot key_slot s_occ fill].
    repeat (constructor; [split; [constructor; reflexivity|
      split; [constructor; reflexivity|split; cbn; lia]]|]). constructor.
  - intros s s' H H'. repeat (destruct H as [<-|H]; [|]); try contradiction;
      repeat (destruct H' as [<-|H']; [|]); try contradiction; cbn; intros; auto; discriminate.
Qed.

Example C79_opt_case : forall c, exists p q,
  kstands_for (ex c) ex_span ex_map 3 ex_owner (p ++ le 4 19 ++ q) ex_object /\
  forall b, length b = 4%nat ->
    kstands_for (ex c) ex_span ex_map 3 ex_owner (p ++ b ++ q) (opt_with b).
Proof.
  intros c.
  destruct (C79_element (ex c) ex_span ex_map 3 ex_owner opt_view (ex_vt INT 0 LStride false) true
    [x61] [2; 3] [1; 4] (map i_ [10; 11; 12; 13; 14; 15; 16; 17; 18]) [] [1; 2] HHere (le 4 19))
    as (p & q & H0 & H);
    [apply ex_wf; exact I|apply ex_span_wf|reflexivity|apply ex_map_wf|lia|apply ex_object_ok|
     apply opt_held; reflexivity|right; reflexivity| |].
  - split; [repeat constructor|]. split; [reflexivity|].
    intros j Hj. destruct (bounds2 _ _ _ Hj) as (a & b & -> & Ha & Hb). cbn [offset]. intros Heq.
    assert (a = 1) by lia. assert (b = 2) by lia. now subst.
  - exists p, q. split; [exact H0|]. intros b Hb. apply H; auto. now apply opt_held.
Qed.
Example C79_dynamic_case : forall c, exists p q,
  kstands_for (ex c) ex_span ex_map 3 ex_owner (p ++ le 4 3 ++ q) ex_object /\
  forall b, length b = 4%nat ->
    kstands_for (ex c) ex_span ex_map 3 ex_owner (p ++ b ++ q) (middle_with b).
Proof.
  intros c.
  destruct (C79_dynamic (ex c) ex_span ex_map 3 ex_owner middle (TPrim 93 48) INT true [x61] 4 8
    (map i_ [1; 2]) (map i_ [4; 5]) HHere (le 4 3)) as (p & q & H0 & H);
    [apply ex_wf; exact I|apply ex_span_wf|reflexivity|apply ex_map_wf|lia|apply ex_object_ok|
     apply middle_held; reflexivity|reflexivity|].
  exists p, q. split; [exact H0|]. intros b Hb. apply H; auto. now apply middle_held.
Qed.
Example C79_value_case : forall c, exists p q,
  kstands_for (ex c) ex_span ex_map 3 ex_owner (p ++ le 4 50 ++ q) ex_object /\
  forall b, length b = 4%nat ->
    kstands_for (ex c) ex_span ex_map 3 ex_owner (p ++ b ++ q) (value_with b).
Proof.
  intros c.
  destruct (C79_map_value (ex c) ex_span ex_map 3 ex_owner first_map (TPrim 92 40) INT INT true (i_ 5)
    [slot_ 3 30; empty_slot] [empty_slot] HHere (le 4 50)) as (p & q & H0 & H);
    [apply ex_wf; exact I|apply ex_span_wf|reflexivity|apply ex_map_wf|lia|apply ex_object_ok|
     apply value_held; reflexivity|reflexivity|].
  exists p, q. split; [exact H0|]. intros b Hb. apply H; auto. now apply value_held.
Qed.
Example C79_key_case : forall c, exists p q,
  kstands_for (ex c) ex_span ex_map 3 ex_owner (p ++ le 4 5 ++ q) ex_object /\
  kstands_for (ex c) ex_span ex_map 3 ex_owner (p ++ le 4 9 ++ q) (key_with (le 4 9)).
Proof.
  intros c.
  destruct (C79_map_key (ex c) ex_span ex_map 3 ex_owner first_map (TPrim 92 40) INT INT true (i_ 50)
    [slot_ 3 30; empty_slot] [empty_slot] HHere (le 4 5)) as (p & q & H0 & H);
    [apply ex_wf; exact I|apply ex_span_wf|reflexivity|apply ex_map_wf|lia|apply ex_object_ok|
     apply (ex_object_ok c)|reflexivity|].
  exists p, q. split; [exact H0|]. apply (H (le 4 9)); [reflexivity|apply key_held].
Qed.

(** The hypothesis [only_element] is needed: a view whose two elements are in the same
    memory is held, and written with two copies of it. *)
Definition twin (b : bytes) : view := view_with [x61] [2] [0] [] [] (fill HHere b).
Example C79_overlap : (forall c b, length b = 4%nat ->
    kheld (ex c) ex_span ex_map 3 (KView (ex_vt INT 1 LStride false)) (OView (twin b))) /\
  forall c, ~ exists p q, forall b, length b = 4%nat ->
    kstands_for (ex c) ex_span ex_map 3 (KView (ex_vt INT 1 LStride false)) (p ++ b ++ q) (OView (twin b)).
Proof.
  split.
  - intros c b Hb. cbn [kheld]. vok. intros _. split; [|split].
    + intros idx H. destruct (bounds1 _ _ H) as (i & -> & Hi).
      cbn [offset twin view_with v_str].
      match goal with |- _ < ?x => let y := eval vm_compute in x in change x with y end. lia.
    + vm_compute. discriminate.
    + cbn [twin view_with v_data app fill]. constructor; [split; [constructor; exact Hb|cbn; lia]|constructor].
  - intros c (p & q & H).
    destruct (H [xff; xff; xff; xff] eq_refl) as (H1 & _), (H [xfe; xfe; xfe; xfe] eq_refl) as (H2 & _).
    set (n := fun l => length (filter (Byte.eqb xff) l)).
    assert (Hn : n (p ++ [xff; xff; xff; xff] ++ q) = (4 + n (p ++ [xfe; xfe; xfe; xfe] ++ q))%nat).
    { unfold n. rewrite !filter_app, !app_length. cbn. lia. }
    set (d := fun b => match stream_member (ex c) ex_span ex_map 3 (KView (ex_vt INT 1 LStride false))
        (OView (twin b)) with Ok (l, _) => n l | _ => O end).
    assert (Hd : d [xff; xff; xff; xff] = (8 + d [xfe; xfe; xfe; xfe])%nat)
      by (clear; destruct c; vm_compute; reflexivity).
    unfold d in Hd. rewrite H1, H2, Hn in Hd. clear - Hd. lia.
Qed.
