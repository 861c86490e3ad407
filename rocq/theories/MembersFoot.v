(** Footprints of objects that contain Kokkos views and maps: a specification of what such
    an object occupies, and the proof that footprinting computes it. *)
From Coq Require Import List NArith Arith Bool Lia.
From Coq.Strings Require Import Byte.
From Verif Require Import Base Syntax Prog Serializers Traverse Spec ProgFacts EnvFacts ValFacts
  Fails RegistryFacts Pack ApiFacts Foot Views ViewSpec ViewFacts ViewRound KMap DynViews Crs CrsSpec
  CrsFoot DynFoot Members MembersSpec MembersFacts.
Import ListNotations.
Local Open Scope N_scope.

(** ** Specification *)

Section Spec.
Variable E : env.
Variable span : list N -> list N -> N.

(** [ktakes k v n]: the object [v], of type [k], is reported to occupy [n] bytes. *)
Inductive ktakes : kty -> kval -> N -> Prop :=
| KtVal t v n : takes E t v n -> ktakes (KVal t) (OVal v) n
| KtView vt v l ns :
    vt_const vt = false -> vt_managed vt = true -> is_virtual E (vt_elem vt) = false ->
    stored span vt v l -> Forall2 (takes E (vt_elem vt)) l ns ->
    ktakes (KView vt) (OView v) (header E vt v + total ns)
| KtRank vt v l ns :
    is_virtual E (vt_elem vt) = false ->
    stored span vt v l -> Forall2 (takes E (vt_elem vt)) l ns ->
    ktakes (KDynRank vt) (OView v) (dyn_header E vt v + total ns)
| KtDynamic name t v ns :
    Forall2 (takes E t) (d_elems v) ns ->
    ktakes (KDynamic name t) (ODynamic v) (dynamic_header E v + total ns)
| KtMap name kt vt mp :
    ktakes (KMap name kt vt) (OMap mp)
      (sizeof E name + len mp * sizeof E kt + len (occupied mp) * sizeof E vt)
| KtClass name ks vs ns :
    length ks = length vs ->
    Forall2 (fun p n => ktakes (fst p) (snd p) n) (combine ks vs) ns ->
    ktakes (KClass name ks) (OObj vs) (total ns)
| KtVec name k cap l ns :
    (forall t, k <> KVal t) -> Forall2 (ktakes k) l ns ->
    ktakes (KVec name k) (OVec cap l)
      (sizeof E name + total ns + sizeof E (name_of k) * (cap - len l))
| KtNone name k : ktakes (KOpt name k) (OOpt None) (sizeof E name)
| KtSome name k v : ktakes (KOpt name k) (OOpt (Some v)) (sizeof E name + sizeof E (name_of k))
| KtNull name k : ktakes (KPtr name k) (OOpt None) (sizeof E name)
| KtPtr name k v n : ktakes k v n -> ktakes (KPtr name k) (OOpt (Some v)) (sizeof E name + n).

(** [inside opt k v k' v']: the object [v'] of type [k'] is [v] or a part of it; [opt]: parts
    held by an optional count as well. *)
Inductive inside (opt : bool) : kty -> kval -> kty -> kval -> Prop :=
| InSelf k v : inside opt k v k v
| InClass name ks vs i k v k' v' :
    nth_error ks i = Some k -> nth_error vs i = Some v -> inside opt k v k' v' ->
    inside opt (KClass name ks) (OObj vs) k' v'
| InVec name k cap l v k' v' :
    In v l -> inside opt k v k' v' -> inside opt (KVec name k) (OVec cap l) k' v'
| InPtr name k v k' v' :
    inside opt k v k' v' -> inside opt (KPtr name k) (OOpt (Some v)) k' v'
| InOpt name k v k' v' :
    opt = true -> inside opt k v k' v' -> inside opt (KOpt name k) (OOpt (Some v)) k' v'.
End Spec.

Lemma total_in : forall ns n, In n ns -> n <= total ns.
Proof.
  induction ns as [|m ns IH]; intros n []; cbn [total fold_right].
  - subst. lia.
  - specialize (IH n H). unfold total in IH. lia.
Qed.

Lemma ktakes_inside : forall E span k v k' v', inside false k v k' v' ->
  forall n, ktakes E span k v n -> exists n', ktakes E span k' v' n' /\ n' <= n.
Proof.
  intros E span k v k' v' H. induction H as
    [k v|name ks vs i k v k' v' Hk Hv _ IH|name k cap l v k' v' Hv _ IH|name k v k' v' _ IH|name k v k' v' Ho _ IH];
    intros n Hn.
  - exists n. split; [exact Hn|lia].
  - inversion Hn as [| | | | |? ? ? ns Hl HF| | | | |]; subst.
    assert (K : forall l i p, nth_error l i = Some p -> forall ns,
      Forall2 (fun p n => ktakes E span (fst p) (snd p) n) l ns -> exists m, In m ns /\ ktakes E span (fst p) (snd p) m).
    { clear. induction l as [|q l IHl]; intros [|i] p Hp ns HF; try discriminate; inversion HF; subst; cbn in Hp.
      - inversion Hp; subst. eexists. split; [now left|eauto].
      - destruct (IHl _ _ Hp _ H3) as (m & Hm & Ht). exists m. split; [now right|exact Ht]. }
    assert (Hc : nth_error (combine ks vs) i = Some (k, v)).
    { clear - Hk Hv. revert vs i Hk Hv. induction ks as [|a ks IHk]; intros [|b vs] [|i] Hk Hv; try discriminate; cbn in *.
      - congruence.
      - eauto. }
    destruct (K _ _ _ Hc _ HF) as (m & Hm & Ht). destruct (IH m Ht) as (n' & Hn' & Hle).
    exists n'. split; [exact Hn'|]. pose proof (total_in _ _ Hm). lia.
  - inversion Hn as [| | | | | |? ? ? ? ns Hnv HF| | | |]; subst.
    assert (exists m, In m ns /\ ktakes E span k v m) as (m & Hm & Ht).
    { clear - HF Hv. induction HF; [destruct Hv|]. destruct Hv as [->|Hv].
      - eexists. split; [now left|eauto].
      - destruct (IHHF Hv) as (m & Hm & Ht). exists m. split; [now right|exact Ht]. }
    destruct (IH m Ht) as (n' & Hn' & Hle).
    exists n'. split; [exact Hn'|]. pose proof (total_in _ _ Hm).
    generalize (sizeof E (name_of k) * (cap - len l)). intros z. lia.
  - inversion Hn as [| | | | | | | | | |? ? ? m Hm]; subst. destruct (IH _ Hm) as (n' & Hn' & Hle). exists n'. split; [exact Hn'|lia].
  - discriminate.
Qed.

Section Foot.
Variable E : env.
Hypothesis wf : wf_env any E.
Variable span : list N -> list N -> N.
Hypothesis Hspan0 : span [] [] = 1.
Variable K : kokkos_map.
Variable f : nat.
Hypothesis Hf : (2 < f)%nat.
Notation m := MFootprinting.
Notation rec := (with_ E m f).
Let R := proj1 (foot_all any E wf f).

Ltac last := eapply tallies_eq; [eapply tallies_bind; [|apply tallies_ret]|].

Lemma f_member : forall k v n, kheld E span K f k v -> ktakes E span k v n ->
  ((forall t, k <> KVal t) -> tallies (own E span K m rec k v) false v false n) ->
  tallies (member E m rec k v (own E span K m rec k v)) false v false n.
Proof.
  intros k v n Hh Hn Ho. destruct k; cbn [kheld] in Hh;
    try (assert (Hb := Ho ltac:(discriminate)); cbn [member name_of];
         destruct v; apply f_object; exact Hb).
  destruct v; try contradiction. destruct Hh as (Hv & Hd). inversion Hn; subst. cbn [member].
  last; [apply (f_ser E rec f R); eauto|]. f_equal. lia.
Qed.

Lemma f_own : forall k v n, kheld E span K f k v -> ktakes E span k v n -> (forall t, k <> KVal t) ->
  tallies (own E span K m rec k v) false v false n.
Proof.
  induction k as [t|vt|vt|name t|name kt vt|name ms IH|name k IH|name k IH|name k IH] using kty_rec';
    intros v n Hh Hn Hno; try (now elim (Hno t)).
  - inversion Hn as [|? ? l ns Hc Hm Hv Hst HF| | | | | | | | |]; subst. cbn [own]. rewrite Hc.
    last; [apply (f_view E wf span f Hf vt v0 l ns); auto|]. f_equal. lia.
  - inversion Hn as [| |? ? l ns Hv Hst HF| | | | | | | |]; subst. cbn [own].
    last; [apply (f_dyn_view E wf span Hspan0 f Hf vt v0 l ns); auto|]. f_equal. lia.
  - inversion Hn as [| | |? ? ? ns HF| | | | | | |]; subst. cbn [own]. destruct Hh as (Hh & _).
    last; [apply (f_dynamic_view E wf f Hf t v0 ns); auto|]. f_equal. lia.
  - inversion Hn; subst. cbn [own is_footprinting]. unfold foot_kmap.
    last; [apply tallies_count, tallies_count, tallies_ret|].
    rewrite !N.add_0_r, wrap_add_r. f_equal. lia.
  - inversion Hn as [| | | | |? ? vs ns Hl HF| | | | |]; subst. cbn [own].
    last; [|now rewrite N.add_0_r].
    cbn [kheld] in Hh. clear Hno Hn. revert vs ns Hl HF Hh.
    induction IH as [|k ms Hk _ IHl]; intros [|v vs] ns Hl HF Hh; try contradiction.
    + inversion HF; subst. apply tallies_ret.
    + cbn [combine] in HF. inversion HF as [|? n ? ns' Hn HF']; subst. destruct Hh as (Hhk & Hhr).
      cbn [total fold_right]. eapply tallies_bind.
      { apply f_member; auto. }
      last; [apply IHl; eauto|now rewrite N.add_0_r].
  - inversion Hn as [| | | | | |? ? cap l ns Hnv HF| | | |]; subst. cbn [own is_footprinting].
    destruct Hh as (Hl & Hle & Hc).
    eapply tallies_eq.
    + apply tallies_count. eapply tallies_bind with (a := l) (vf1 := false) (n := total ns).
      * assert (G : tallies (mapP (own E span K m rec k) l) false l false (total ns)).
        { apply tallies_mapP. clear - HF Hl IH Hnv. induction HF; constructor; inversion Hl; subst; auto. }
        unfold array_of. destruct l as [|x l]; [inversion HF; subst; apply tallies_ret|].
        exact (tallies_framed E (list kval) _ (name_of k) (length (x :: l)) _ _ _ _ G).
      * apply tallies_count, tallies_ret.
    + rewrite N.add_0_r, !N.add_assoc, wrap_add_r. reflexivity.
  - cbn [own is_footprinting]. inversion Hn; subst.
    + eapply tallies_eq; [apply tallies_count, tallies_ret|]. now rewrite N.add_0_r.
    + eapply tallies_eq; [apply tallies_count, tallies_count, tallies_ret|]. now rewrite N.add_0_r.
  - cbn [own is_footprinting]. inversion Hn; subst.
    + eapply tallies_eq; [eapply tallies_bind; [apply tallies_count, tallies_ret|apply tallies_ret]|].
      now rewrite !N.add_0_r.
    + eapply tallies_eq; [eapply tallies_bind; [apply tallies_count, tallies_ret|]; cbn match|].
      * eapply tallies_bind; [apply f_member; eauto|apply tallies_ret].
      * now rewrite !N.add_0_r.
Qed.

Lemma f_footprint_member : forall k v n off, kheld E span K f k v -> ktakes E span k v n ->
  (forall t, k <> KVal t) -> off + N.max n (sizeof E (name_of k)) < two64 ->
  footprint_member E span K f k v off = Ok (v, off + N.max n (sizeof E (name_of k))).
Proof.
  intros k v n off Hh Hn Hno Hlt. unfold footprint_member, footprint_object, root_member.
  rewrite (f_root E _ _ _ _ _ (f_own k v n Hh Hn Hno) 0 eq_refl).
  rewrite N.add_0_l. unfold wrap64. rewrite (N.mod_small n) by lia. now rewrite N.mod_small.
Qed.
End Foot.

(** ** Every object that can be serialized has a footprint *)

Lemma takes_list : forall E t f l,
  (forall c k i, cls E c = Some k -> In i (cser k MFootprinting) -> (i < length (cfields k))%nat) ->
  wf_env any E -> Forall (fun x => has_ty E t x /\ (depth x < f)%nat) l ->
  exists ns, Forall2 (takes E t) l ns.
Proof.
  intros E t f l Hcl wf H. induction H as [|x l (Hx & _) _ (ns & IH)]; [eauto|].
  destruct (has_takes any E wf Hcl x t Hx) as (n & Hn). eauto.
Qed.

Lemma stored_ok : forall E span vt f v, view_ok E span vt f v -> exists l, stored span vt v l /\
  Forall (fun x => has_ty E (vt_elem vt) x /\ (depth x < f)%nat) l.
Proof.
  intros E span vt f v Hok. unfold stored. destruct (v_live v) eqn:Hl; [|eauto].
  destruct (vo_live _ _ _ _ _ Hok Hl) as (Hmem & _ & Hel).
  destruct (contiguous span (vt_kind vt) v).
  - eexists. split; [reflexivity|]. now apply Forall_firstn'.
  - exists (elements v). split.
    + exists (indices (v_ext v)). split; [apply indices_row_major|now apply elements_at].
    + rewrite Forall_forall in *. intros x Hx. now apply Hel, elements_in.
Qed.

Lemma has_ktakes : forall E span K f,
  (forall c k i, cls E c = Some k -> In i (cser k MFootprinting) -> (i < length (cfields k))%nat) ->
  wf_env any E -> forall k v, kty_ok E k -> kheld E span K f k v -> exists n, ktakes E span k v n.
Proof.
  intros E span K f Hcl wf.
  induction k as [t|vt|vt|name t|name kt vt|name ms IH|name k IH|name k IH|name k IH] using kty_rec';
    intros v Ht Hh; destruct v as [v|v|v|mp|vs|cap l|o]; try contradiction.
  - destruct Hh as (Hh & _). destruct (has_takes any E wf Hcl v t Hh) as (n & Hn). exists n. now constructor.
  - destruct Ht as (Hc & Hm & Hv & _), (stored_ok _ _ _ _ _ Hh) as (l & Hl & HF).
    destruct (takes_list E (vt_elem vt) f l Hcl wf HF) as (ns & Hns).
    eexists. eapply KtView; eauto.
  - destruct Ht as (Hv & _).
    assert (exists l, stored span vt v l /\ Forall (fun x => has_ty E (vt_elem vt) x /\ (depth x < f)%nat) l)
      as (l & Hl & HF).
    { destruct Hh as [->|(_ & Hok & _)]; [exists []; split; [reflexivity|constructor]|].
      exact (stored_ok _ _ _ _ _ Hok). }
    destruct (takes_list E (vt_elem vt) f l Hcl wf HF) as (ns & Hns).
    eexists. eapply KtRank; eauto.
  - destruct Hh as (Hok & _). destruct (takes_list E t f (d_elems v) Hcl wf (do_elems _ _ _ _ Hok)) as (ns & Hns).
    eexists. eapply KtDynamic; eauto.
  - eexists. apply KtMap.
  - cbn [kty_ok kheld] in Ht, Hh.
    assert (exists ns, length ms = length vs /\
      Forall2 (fun p n => ktakes E span (fst p) (snd p) n) (combine ms vs) ns) as (ns & Hl & HF).
    { revert vs Hh. induction IH as [|k ms Hk _ IHl]; intros [|v vs] Hh; try contradiction.
      - exists []. split; [reflexivity|constructor].
      - destruct Ht as (Htk & Htr), Hh as (Hhk & Hhr).
        destruct (Hk v Htk Hhk) as (n & Hn), (IHl Htr vs Hhr) as (ns & Hl & HF).
        exists (n :: ns). split; [cbn [length]; now f_equal|]. constructor; auto. }
    eexists. eapply KtClass; eauto.
  - destruct Ht as (Htk & _ & Hnv), Hh as (Hl & _).
    assert (exists ns, Forall2 (ktakes E span k) l ns) as (ns & HF).
    { induction Hl as [|x l Hx _ (ns & IHl)]; [eauto|]. destruct (IH x Htk Hx) as (n & Hn). eauto. }
    eexists. eapply KtVec; eauto.
  - destruct o; eexists; [apply KtSome|apply KtNone].
  - destruct Ht as (Htk & _). destruct o as [v|]; [|eexists; apply KtNull].
    destruct (IH v Htk Hh) as (n & Hn). eexists. apply KtPtr. exact Hn.
Qed.
