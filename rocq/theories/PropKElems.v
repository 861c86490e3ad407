(** Property C80 for the elements of Kokkos views and the keys and values of Kokkos maps:
    what is written for such a value by itself is in the data of the object that has the
    view or the map. *)
From Coq Require Import List NArith Arith Bool Lia.
From Coq.Strings Require Import Byte.
From Verif Require Import Base Syntax Prog Serializers Traverse Api Spec ProgFacts ApiFacts Examples
  Pack Views ViewSpec ViewFacts ViewRound DynViews KMap PropViews Members MembersSpec MembersFacts PropMembers
  Patch Parts PropPatch PropParts PropKParts PropKPatch.
Import ListNotations.
Local Open Scope N_scope.

Lemma part_elem : forall E span K f k c k' o t (u : val -> kval) x0,
  wf_env any E -> wf_span span -> span [] [] = 1 -> wf_kokkos K -> (2 < f)%nat -> kty_ok E k ->
  kheld E span K f k (kplug c (u x0)) -> kpart_type true k c = Some (k', o) -> (forall t, k' <> KVal t) ->
  within (encb E t) (fun x => wown E span k' (u x)) ->
  (forall x, kheld E span K f k' (u x) -> has_ty E t x /\ (depth x < f)%nat) ->
  exists p q, forall x, kheld E span K f k (kplug c (u x)) -> len (enc_root E t x) < two64 ->
    exists s, serialize E f t x None = Ok s /\
      kstands_for E span K f k (p ++ contents (s_bytes s) ++ q) (kplug c (u x)).
Proof.
  intros E span K f k c k' o t u x0 wf Hs H0 wk Hf Ht Hh0 Hp Hnk (p1 & q1 & H1) Hty.
  pose proof (whole_not_val _ _ _ _ _ Hp Hnk) as Hn.
  destruct (kwithin_own E span K f k' o c k (u x0) Hh0 Ht Hp Hnk) as (p2 & q2 & H2).
  exists (le 4 (tix E (name_of k)) ++ p2 ++ p1), (q1 ++ q2 ++ le 8 (wrap64 (sizeof E (name_of k)))).
  intros x Hh Hl. destruct (kpart_held E span K f k' o c k true (u x) Hh Ht Hp) as (Hh' & _).
  destruct (Hty x Hh') as (Hx & Hd).
  eexists. split; [apply serialize_managed; auto|]. cbn [s_bytes]. rewrite contents_root.
  replace ((le 4 (tix E (name_of k)) ++ p2 ++ p1) ++ encb E t x ++ q1 ++ q2 ++ le 8 (wrap64 (sizeof E (name_of k))))
    with (wroot E (name_of k) (wown E span k (kplug c (u x)))).
  - now apply kstands_root.
  - unfold wroot, framed. rewrite H2, H1. destruct (chk E); rewrite ?N.mul_1_r, <- !app_assoc; auto.
Qed.

(** ** C80 *)
Theorem C80_element : forall E span K f k c vt o label ext str before after idx x0,
  wf_env any E -> wf_span span -> span [] [] = 1 -> wf_kokkos K -> (2 < f)%nat -> kty_ok E k ->
  let object x := kplug c (OView (view_with label ext str before after x)) in
  kheld E span K f k (object x0) ->
  kpart_type true k c = Some (KView vt, o) \/ kpart_type true k c = Some (KDynRank vt, o) ->
  only_element ext str before idx ->
  exists p q, forall x, kheld E span K f k (object x) -> len (enc_root E (vt_elem vt) x) < two64 ->
    exists s, serialize E f (vt_elem vt) x None = Ok s /\
      kstands_for E span K f k (p ++ contents (s_bytes s) ++ q) (object x).
Proof.
  intros E span K f k c vt o label ext str before after idx x0 wf Hs H0 wk Hf Ht object Hh0 [Hp|Hp] Hone;
    destruct (kpart_held E span K f _ _ _ _ _ _ Hh0 Ht Hp) as (Hv & _); cbn [kheld] in Hv.
  - apply (part_elem E span K f k c (KView vt) o (vt_elem vt)
      (fun x => OView (view_with label ext str before after x)) x0); auto; try discriminate.
    + eapply within_view; eauto.
    + intros x Hx. cbn [kheld] in Hx.
      destruct (vo_live _ _ _ _ _ Hx eq_refl) as (_ & _ & HF). cbn [view_with v_data] in HF.
      now apply in_mid in HF.
  - apply (part_elem E span K f k c (KDynRank vt) o (vt_elem vt)
      (fun x => OView (view_with label ext str before after x)) x0); auto; try discriminate.
    + eapply within_dyn; eauto.
    + intros x Hx. destruct Hx as [Hx|(_ & Hx & _)]; [discriminate|].
      destruct (vo_live _ _ _ _ _ Hx eq_refl) as (_ & _ & HF). cbn [view_with v_data] in HF.
      now apply in_mid in HF.
Qed.
Print Assumptions C80_element.

Theorem C80_dynamic : forall E span K f k c n t o label chunk chunks before after x0,
  wf_env any E -> wf_span span -> span [] [] = 1 -> wf_kokkos K -> (2 < f)%nat -> kty_ok E k ->
  let object x := kplug c (ODynamic (dview_with label chunk chunks before after x)) in
  kheld E span K f k (object x0) -> kpart_type true k c = Some (KDynamic n t, o) ->
  exists p q, forall x, kheld E span K f k (object x) -> len (enc_root E t x) < two64 ->
    exists s, serialize E f t x None = Ok s /\
      kstands_for E span K f k (p ++ contents (s_bytes s) ++ q) (object x).
Proof.
  intros E span K f k c n t o label chunk chunks before after x0 wf Hs H0 wk Hf Ht object Hh0 Hp.
  apply (part_elem E span K f k c (KDynamic n t) o t
    (fun x => ODynamic (dview_with label chunk chunks before after x)) x0); auto; try discriminate.
  - apply within_dynamic.
  - intros x (Hx & _). pose proof (do_elems _ _ _ _ Hx) as HF. cbn [dview_with d_elems] in HF.
    now apply in_mid in HF.
Qed.
Print Assumptions C80_dynamic.

Theorem C80_map_value : forall E span K f k c n kt vt o key before after x0,
  wf_env any E -> wf_span span -> span [] [] = 1 -> wf_kokkos K -> (2 < f)%nat -> kty_ok E k ->
  let object x := kplug c (OMap (before ++ value_slot key x :: after)) in
  kheld E span K f k (object x0) -> kpart_type true k c = Some (KMap n kt vt, o) ->
  exists p q, forall x, kheld E span K f k (object x) -> len (enc_root E vt x) < two64 ->
    exists s, serialize E f vt x None = Ok s /\
      kstands_for E span K f k (p ++ contents (s_bytes s) ++ q) (object x).
Proof.
  intros E span K f k c n kt vt o key before after x0 wf Hs H0 wk Hf Ht object Hh0 Hp.
  apply (part_elem E span K f k c (KMap n kt vt) o vt
    (fun x => OMap (before ++ value_slot key x :: after)) x0); auto; try discriminate.
  - apply (within_slots E _ _ kt vt (value_slot key)); [reflexivity|].
    unfold wpair. cbn [value_slot s_key s_val]. apply within_l. unfold enc. apply within_framed, within_id.
  - intros x (Hx & _). pose proof (ko_elems _ _ _ _ _ _ Hx) as HF. unfold occupied in HF.
    rewrite filter_app in HF. cbn [filter value_slot s_occ] in HF. apply in_mid in HF. split; apply HF.
Qed.
Print Assumptions C80_map_value.

Theorem C80_map_key : forall E span K f k c n kt vt o value before after x0,
  wf_env any E -> wf_span span -> span [] [] = 1 -> wf_kokkos K -> (2 < f)%nat -> kty_ok E k ->
  let object x := kplug c (OMap (before ++ key_slot value x :: after)) in
  kheld E span K f k (object x0) -> kpart_type true k c = Some (KMap n kt vt, o) ->
  exists p q, forall x, kheld E span K f k (object x) -> len (enc_root E kt x) < two64 ->
    exists s, serialize E f kt x None = Ok s /\
      kstands_for E span K f k (p ++ contents (s_bytes s) ++ q) (object x).
Proof.
  intros E span K f k c n kt vt o value before after x0 wf Hs H0 wk Hf Ht object Hh0 Hp.
  apply (part_elem E span K f k c (KMap n kt vt) o kt
    (fun x => OMap (before ++ key_slot value x :: after)) x0); auto; try discriminate.
  - apply (within_slots E _ _ kt vt (key_slot value)); [reflexivity|].
    unfold wpair. cbn [key_slot s_key s_val]. apply within_r. unfold enc. apply within_framed, within_id.
  - intros x (Hx & _). pose proof (ko_elems _ _ _ _ _ _ Hx) as HF. unfold occupied in HF.
    rewrite filter_app in HF. cbn [filter key_slot s_occ] in HF. apply in_mid in HF. split; apply HF.
Qed.
Print Assumptions C80_map_key.

(** With error checking the elements of views of dynamic size and the keys and values of
    maps are in the data as they are in their own, and can be read from there by
    themselves. *)
Lemma elem_read : forall E span K f k c k' o t (u : val -> kval) x0,
  wf_env any E -> chk E = true -> wf_span span -> span [] [] = 1 -> wf_kokkos K -> (2 < f)%nat ->
  kty_ok E k -> constructible E t ->
  kheld E span K f k (kplug c (u x0)) -> kpart_type true k c = Some (k', o) -> (forall t, k' <> KVal t) ->
  within (enc E t) (fun x => wown E span k' (u x)) ->
  (forall x, kheld E span K f k' (u x) -> has_ty E t x /\ (depth x < f)%nat) ->
  exists p q, forall x, kheld E span K f k (kplug c (u x)) -> len (enc_root E t x) < two64 ->
    exists s, serialize E f t x None = Ok s /\
      kstands_for E span K f k (p ++ s_bytes s ++ q) (kplug c (u x)) /\
      (exists v n, deserialize E f t (p ++ s_bytes s ++ q) (length p) = Ok (v, n) /\ copy_of x v) /\
      forall w, target (fun _ _ => True) E t x w ->
        exists v n, deserialize_in_place E f t (p ++ s_bytes s ++ q) (length p) w = Ok (v, n) /\
          copy_of x v.
Proof.
  intros E span K f k c k' o t u x0 wf Hchk Hs H0 wk Hf Ht Hct Hh0 Hp Hnk (p1 & q1 & H1) Hty.
  pose proof (whole_not_val _ _ _ _ _ Hp Hnk) as Hn.
  destruct (kwithin_own E span K f k' o c k (u x0) Hh0 Ht Hp Hnk) as (p2 & q2 & H2).
  exists (le 4 (tix E (name_of k)) ++ p2 ++ p1), (q1 ++ q2 ++ le 8 (wrap64 (sizeof E (name_of k)))).
  intros x Hh Hl. destruct (kpart_held E span K f k' o c k true (u x) Hh Ht Hp) as (Hh' & _).
  destruct (Hty x Hh') as (Hx & Hd).
  assert (HR : enc_root E t x = enc E t x) by (unfold enc_root; now rewrite Hchk).
  eexists. split; [apply serialize_managed; auto|]. cbn [s_bytes]. split; [|split].
  - rewrite HR.
    replace ((le 4 (tix E (name_of k)) ++ p2 ++ p1) ++ enc E t x ++ q1 ++ q2 ++ le 8 (wrap64 (sizeof E (name_of k))))
      with (wroot E (name_of k) (wown E span k (kplug c (u x)))).
    + now apply kstands_root.
    + unfold wroot. rewrite Hchk. unfold framed at 1. rewrite Hchk, H2, H1, N.mul_1_r, <- !app_assoc. auto.
  - destruct (deserialize_ok E wf f t x Hx Hct Hd) as (v & Hv & HD). eauto.
  - intros w Hw. destruct (in_place_ok E wf f t x w Hx Hw Hd) as (v & Hv & HD). eauto.
Qed.

Theorem C80_dynamic_read : forall E span K f k c n t o label chunk chunks before after x0,
  wf_env any E -> chk E = true -> wf_span span -> span [] [] = 1 -> wf_kokkos K -> (2 < f)%nat ->
  kty_ok E k -> constructible E t ->
  let object x := kplug c (ODynamic (dview_with label chunk chunks before after x)) in
  kheld E span K f k (object x0) -> kpart_type true k c = Some (KDynamic n t, o) ->
  exists p q, forall x, kheld E span K f k (object x) -> len (enc_root E t x) < two64 ->
    exists s, serialize E f t x None = Ok s /\
      kstands_for E span K f k (p ++ s_bytes s ++ q) (object x) /\
      (exists v n, deserialize E f t (p ++ s_bytes s ++ q) (length p) = Ok (v, n) /\ copy_of x v) /\
      forall w, target (fun _ _ => True) E t x w ->
        exists v n, deserialize_in_place E f t (p ++ s_bytes s ++ q) (length p) w = Ok (v, n) /\
          copy_of x v.
Proof.
  intros E span K f k c n t o label chunk chunks before after x0 wf Hchk Hs H0 wk Hf Ht Hct object Hh0 Hp.
  apply (elem_read E span K f k c (KDynamic n t) o t
    (fun x => ODynamic (dview_with label chunk chunks before after x)) x0); auto; try discriminate.
  - apply within_dynamic_enc.
  - intros x (Hx & _). pose proof (do_elems _ _ _ _ Hx) as HF. cbn [dview_with d_elems] in HF.
    now apply in_mid in HF.
Qed.
Print Assumptions C80_dynamic_read.

Theorem C80_map_value_read : forall E span K f k c n kt vt o key before after x0,
  wf_env any E -> chk E = true -> wf_span span -> span [] [] = 1 -> wf_kokkos K -> (2 < f)%nat ->
  kty_ok E k -> constructible E vt ->
  let object x := kplug c (OMap (before ++ value_slot key x :: after)) in
  kheld E span K f k (object x0) -> kpart_type true k c = Some (KMap n kt vt, o) ->
  exists p q, forall x, kheld E span K f k (object x) -> len (enc_root E vt x) < two64 ->
    exists s, serialize E f vt x None = Ok s /\
      kstands_for E span K f k (p ++ s_bytes s ++ q) (object x) /\
      (exists v n, deserialize E f vt (p ++ s_bytes s ++ q) (length p) = Ok (v, n) /\ copy_of x v) /\
      forall w, target (fun _ _ => True) E vt x w ->
        exists v n, deserialize_in_place E f vt (p ++ s_bytes s ++ q) (length p) w = Ok (v, n) /\
          copy_of x v.
Proof.
  intros E span K f k c n kt vt o key before after x0 wf Hchk Hs H0 wk Hf Ht Hct object Hh0 Hp.
  apply (elem_read E span K f k c (KMap n kt vt) o vt
    (fun x => OMap (before ++ value_slot key x :: after)) x0); auto; try discriminate.
  - apply (within_slots E _ _ kt vt (value_slot key)); [reflexivity|].
    unfold wpair. cbn [value_slot s_key s_val]. apply within_l, within_id.
  - intros x (Hx & _). pose proof (ko_elems _ _ _ _ _ _ Hx) as HF. unfold occupied in HF.
    rewrite filter_app in HF. cbn [filter value_slot s_occ] in HF. apply in_mid in HF. split; apply HF.
Qed.
Print Assumptions C80_map_value_read.

Theorem C80_map_key_read : forall E span K f k c n kt vt o value before after x0,
  wf_env any E -> chk E = true -> wf_span span -> span [] [] = 1 -> wf_kokkos K -> (2 < f)%nat ->
  kty_ok E k -> constructible E kt ->
  let object x := kplug c (OMap (before ++ key_slot value x :: after)) in
  kheld E span K f k (object x0) -> kpart_type true k c = Some (KMap n kt vt, o) ->
  exists p q, forall x, kheld E span K f k (object x) -> len (enc_root E kt x) < two64 ->
    exists s, serialize E f kt x None = Ok s /\
      kstands_for E span K f k (p ++ s_bytes s ++ q) (object x) /\
      (exists v n, deserialize E f kt (p ++ s_bytes s ++ q) (length p) = Ok (v, n) /\ copy_of x v) /\
      forall w, target (fun _ _ => True) E kt x w ->
        exists v n, deserialize_in_place E f kt (p ++ s_bytes s ++ q) (length p) w = Ok (v, n) /\
          copy_of x v.
Proof.
  intros E span K f k c n kt vt o value before after x0 wf Hchk Hs H0 wk Hf Ht Hct object Hh0 Hp.
  apply (elem_read E span K f k c (KMap n kt vt) o kt
    (fun x => OMap (before ++ key_slot value x :: after)) x0); auto; try discriminate.
  - apply (within_slots E _ _ kt vt (key_slot value)); [reflexivity|].
    unfold wpair. cbn [key_slot s_key s_val]. apply within_r, within_id.
  - intros x (Hx & _). pose proof (ko_elems _ _ _ _ _ _ Hx) as HF. unfold occupied in HF.
    rewrite filter_app in HF. cbn [filter key_slot s_occ] in HF. apply in_mid in HF. split; apply HF.
Qed.
Print Assumptions C80_map_key_read.

(** A view of strings of any length, by itself; and the places in the owner of
    PropMembers.v of PropKPatch.v. *)
Definition words (x : val) : view := view_with [] [2] [1] [str_ [x61]] [] x.
Lemma words_held : forall c cap l, len l <= cap -> cap < two64 ->
  kheld (ex c) ex_span ex_map 3 (KView (ex_vt TString 1 LRight false)) (OView (words (VStr cap l))).
Proof.
  intros c cap l Hl Hc. cbn [kheld]. vok. intros _. split; [|split].
  - intros idx H. destruct (bounds1 _ _ H) as (i & -> & Hi).
    cbn [offset words view_with v_str].
    match goal with |- _ < ?x => let y := eval vm_compute in x in change x with y end. lia.
  - vm_compute. discriminate.
  - cbn [words view_with v_data app].
    constructor; [split; [|cbn; lia]|constructor; [split; [|cbn; lia]|constructor]].
    + constructor; [vm_compute; discriminate|reflexivity].
    + constructor; [exact Hl|lia].
Qed.
Example C80_element_case : forall c, exists p q, forall cap l, len l <= cap -> cap < two64 ->
  len (enc_root (ex c) TString (VStr cap l)) < two64 ->
  exists s, serialize (ex c) 3 TString (VStr cap l) None = Ok s /\
    kstands_for (ex c) ex_span ex_map 3 (KView (ex_vt TString 1 LRight false))
      (p ++ contents (s_bytes s) ++ q) (OView (words (VStr cap l))).
Proof.
  intros c.
  destruct (C80_element (ex c) ex_span ex_map 3 (KView (ex_vt TString 1 LRight false)) KCHere
    (ex_vt TString 1 LRight false) true [] [2] [1] [str_ [x61]] [] [1] (VStr 15 [])) as (p & q & H);
    [apply ex_wf; exact I|apply ex_span_wf|reflexivity|apply ex_map_wf|lia|cbn; repeat split; discriminate|
     apply words_held; [vm_compute; discriminate|reflexivity]|left; reflexivity| |].
  - split; [repeat constructor|]. split; [reflexivity|].
    intros j Hj. destruct (bounds1 _ _ Hj) as (a & -> & Ha). cbn [offset]. intros Heq.
    assert (a = 1) by lia. now subst.
  - exists p, q. intros cap l Hl Hc Hr. apply (H (VStr cap l)); [now apply words_held|exact Hr].
Qed.
Example C80_kept_case : forall c,
  (exists p q, forall b, length b = 4%nat -> exists s, serialize (ex c) 3 INT (VB b) None = Ok s /\
    kstands_for (ex c) ex_span ex_map 3 ex_owner (p ++ contents (s_bytes s) ++ q) (middle_with b)) /\
  (exists p q, forall b, length b = 4%nat -> exists s, serialize (ex c) 3 INT (VB b) None = Ok s /\
    kstands_for (ex c) ex_span ex_map 3 ex_owner (p ++ contents (s_bytes s) ++ q) (value_with b)) /\
  (exists p q, forall n, n = 5 \/ n = 9 -> exists s, serialize (ex c) 3 INT (i_ n) None = Ok s /\
    kstands_for (ex c) ex_span ex_map 3 ex_owner (p ++ contents (s_bytes s) ++ q) (key_with (le 4 n))).
Proof.
  intros c.
  assert (HL : forall b, length b = 4%nat -> len (enc_root (ex c) INT (VB b)) < two64).
  { intros b Hb. destruct b as [|b0 [|b1 [|b2 [|b3 [|]]]]]; try discriminate. destruct c; reflexivity. }
  split; [|split].
  - destruct (C80_dynamic (ex c) ex_span ex_map 3 ex_owner middle (TPrim 93 48) INT true [x61] 4 8
      (map i_ [1; 2]) (map i_ [4; 5]) (i_ 3)) as (p & q & H);
      [apply ex_wf; exact I|apply ex_span_wf|reflexivity|apply ex_map_wf|lia|apply ex_object_ok|
       apply (middle_held c (le 4 3)); reflexivity|reflexivity|].
    exists p, q. intros b Hb. apply (H (VB b)); auto. now apply middle_held.
  - destruct (C80_map_value (ex c) ex_span ex_map 3 ex_owner first_map (TPrim 92 40) INT INT true (i_ 5)
      [slot_ 3 30; empty_slot] [empty_slot] (i_ 50)) as (p & q & H);
      [apply ex_wf; exact I|apply ex_span_wf|reflexivity|apply ex_map_wf|lia|apply ex_object_ok|
       apply (value_held c (le 4 50)); reflexivity|reflexivity|].
    exists p, q. intros b Hb. apply (H (VB b)); auto. now apply value_held.
  - destruct (C80_map_key (ex c) ex_span ex_map 3 ex_owner first_map (TPrim 92 40) INT INT true (i_ 50)
      [slot_ 3 30; empty_slot] [empty_slot] (i_ 5)) as (p & q & H);
      [apply ex_wf; exact I|apply ex_span_wf|reflexivity|apply ex_map_wf|lia|apply ex_object_ok|
       apply (ex_object_ok c)|reflexivity|].
    exists p, q. intros n [-> | ->]; [apply (H (i_ 5))|apply (H (i_ 9))]; try (apply HL; reflexivity).
    + apply (ex_object_ok c).
    + apply key_held.
Qed.
Example C80_kept_read_case :
  exists p q, forall b, length b = 4%nat -> exists s, serialize (ex true) 3 INT (VB b) None = Ok s /\
    kstands_for (ex true) ex_span ex_map 3 ex_owner (p ++ s_bytes s ++ q) (value_with b) /\
    exists v n, deserialize (ex true) 3 INT (p ++ s_bytes s ++ q) (length p) = Ok (v, n) /\ copy_of (VB b) v.
Proof.
  destruct (C80_map_value_read (ex true) ex_span ex_map 3 ex_owner first_map (TPrim 92 40) INT INT true (i_ 5)
    [slot_ 3 30; empty_slot] [empty_slot] (i_ 50)) as (p & q & H);
    [apply ex_wf; exact I|reflexivity|apply ex_span_wf|reflexivity|apply ex_map_wf|lia|apply ex_object_ok|
     discriminate|apply (value_held true (le 4 50)); reflexivity|reflexivity|].
  exists p, q. intros b Hb. destruct (H (VB b)) as (s & H1 & H2 & H3 & _).
  - now apply value_held.
  - destruct b as [|b0 [|b1 [|b2 [|b3 [|]]]]]; try discriminate. reflexivity.
  - eauto.
Qed.
