(** Reading data that was not written for it as an object that contains Kokkos views and maps:
    specification and proofs. *)
From Coq Require Import List NArith Arith Bool Lia.
From Coq.Strings Require Import Byte.
From Verif Require Import Base Syntax Prog Serializers Traverse Spec ProgFacts EnvFacts
  RegistryFacts Unpack ApiFacts Robust RobustFacts Views ViewSpec ViewFacts ViewRound Damage DamageDyn
  Members MembersFacts.
Import ListNotations.
Local Open Scope N_scope.

(** ** Specification *)

(** The types of the parts of an object. *)
Inductive part_of : kty -> kty -> Prop :=
| PoSelf k : part_of k k
| PoMember k k' name ms : In k' ms -> part_of k k' -> part_of k (KClass name ms)
| PoVec k k' name : part_of k k' -> part_of k (KVec name k')
| PoOpt k k' name : part_of k k' -> part_of k (KOpt name k')
| PoPtr k k' name : part_of k k' -> part_of k (KPtr name k').

(** [s] is what is left of [d] at some point. *)
Definition left_of (d s : bytes) : Prop := exists before, d = before ++ s.

(** Somewhere in [d] there is data that no object of type [k] can be read from without undefined
    behaviour: a damaged view, a bool that is neither false nor true. *)
Definition hurt (E : env) (span : list N -> list N -> N) (d : bytes) (k : kty) : Prop :=
  match k with
  | KView vt => exists s, left_of d s /\ damaged E span vt (le 4 (tix E (vt_name vt)) ++ s)
  | KDynRank vt => exists s, left_of d s /\
      (dyn_damaged E span vt (le 4 (tix E (vt_name vt)) ++ s) \/
       dyn_astray E span vt (le 4 (tix E (vt_name vt)) ++ s))
  | KOpt _ _ | KPtr _ _ => exists c s, left_of d (flag E c ++ s) /\ no_bool c
  | _ => False
  end.

(** Somewhere in [d] there is a view of dynamic size with more elements than chunks. *)
Definition overfull (E : env) (d : bytes) (k : kty) : Prop :=
  match k with
  | KDynamic name _ => exists s, left_of d s /\ too_small E name (le 4 (tix E name) ++ s)
  | _ => False
  end.

Section Spec.
Variable E : env.
Variable T : ty -> Prop.
Variable K : kokkos_map.

(** Types that can be read. *)
Fixpoint kreadable (k : kty) : Prop :=
  match k with
  | KVal t => T t
  | KView vt => T (vt_elem vt) /\ dflt E (vt_elem vt) <> None /\ (vt_rank vt <= 8)%nat /\
      (vt_managed vt = true \/ asserts E = false)
  | KDynRank vt => T (vt_elem vt) /\ dflt E (vt_elem vt) <> None
  | KDynamic _ t => T t /\ dflt E t <> None
  | KMap _ kt vt => T kt /\ T vt /\ constructible E kt /\ constructible E vt /\ safe_kokkos E kt vt K
  | KClass _ ms => (fix all (ks : list kty) := match ks with
                                               | [] => True
                                               | k :: r => kreadable k /\ all r
                                               end) ms
  | KVec _ k => kreadable k /\ blank E k <> None /\ (forall t, k <> KVal t)
  | KOpt _ k | KPtr _ k => kreadable k /\ blank E k <> None
  end.

(** An object of type [k] whose plain members and maps can be used, and whose views too if [full]. *)
Fixpoint ksound (full : bool) (k : kty) (v : kval) : Prop :=
  match k, v with
  | KVal t, OVal x => Robust.valid E t x
  | KView vt, OView x => full = true -> usable E vt x
  | KDynRank vt, OView x => full = true -> dyn_usable E vt x
  | KDynamic _ t, ODynamic x => full = true -> dynamic_usable E t x
  | KMap _ kt vt, OMap mp => map_usable E K kt vt mp
  | KClass _ ms, OObj vs =>
      (fix all (ks : list kty) (vs : list kval) := match ks, vs with
         | [], [] => True
         | k :: ks', v :: vs' => ksound full k v /\ all ks' vs'
         | _, _ => False
         end) ms vs
  | KVec _ k, OVec _ l => Forall (ksound full k) l
  | KOpt _ k, OOpt o | KPtr _ k, OOpt o => match o with Some v => ksound full k v | None => True end
  | _, _ => False
  end.
End Spec.

(** ** Proofs *)
Lemma left_refl : forall d, left_of d d.
Proof. intros d. now exists []. Qed.
Lemma left_trans : forall d s s', left_of d s -> left_of s s' -> left_of d s'.
Proof. intros d s s' (a & ->) (b & ->). exists (a ++ b). now rewrite app_assoc. Qed.

Lemma ends_step : forall (C : fail -> Prop) A B (p : nat -> prog A) (k : nat -> A -> prog B) vf s Q Q',
  ends C p vf s Q ->
  (forall a vf' s', left_of s s' -> Q a s' -> ends C (fun f => k f a) vf' s' Q') ->
  ends C (fun f => bind (p f) (k f)) vf s Q'.
Proof.
  intros C A B p k vf s Q Q' (f0 & r & Hr & Hq) H.
  eapply (ends_bind C _ _ p k vf s (fun a s' => left_of s s' /\ Q a s')).
  - exists f0, r. split; auto. destruct r as [[[a vf'] s']|e]; auto. split; auto.
    specialize (Hr f0 (Nat.le_refl _)). apply reader_local in Hr. destruct Hr as (i & -> & _). now exists i.
  - intros a vf' s' (Hl & Ha). now apply H.
Qed.
Lemma ends_ret : forall (C : fail -> Prop) A (a : A) vf s (Q : A -> bytes -> Prop), Q a s -> ends C (fun _ => Ret a) vf s Q.
Proof. intros C A a vf s Q H. exists O, (Ok (a, vf, s)). split; auto. Qed.
Lemma ends_mapP : forall (C : fail -> Prop) A B (g : nat -> A -> prog B) (P : B -> Prop) d l vf s,
  left_of d s ->
  (forall x vf' s', In x l -> left_of d s' -> ends C (fun f => g f x) vf' s' (fun y _ => P y)) ->
  ends C (fun f => mapP (g f) l) vf s (fun ys _ => Forall P ys).
Proof.
  intros C A B g P d l. induction l as [|x l IH]; intros vf s Hs H; cbn [mapP]; [apply ends_ret; constructor|].
  match goal with |- ends _ (fun f => bind _ (@?k f)) _ _ _ => eapply (ends_step C _ _ _ k) end;
    [apply H; [now left|exact Hs]|].
  intros y vf1 s1 Hl1 Hy. cbn beta.
  match goal with |- ends _ (fun f => bind _ (@?k f)) _ _ _ => eapply (ends_step C _ _ _ k) end.
  { apply IH; [eapply left_trans; eauto|]. intros; apply H; auto. now right. }
  intros ys vf2 s2 _ Hys. apply ends_ret. now constructor.
Qed.

Section Body.
Variable E : env.
Hypothesis wf : wf_env any E.
Variable T : ty -> Prop.
Hypothesis rd : Robust.readable E T.
Variable span : list N -> list N -> N.
Hypothesis wsp : wf_span span.
Variable K : kokkos_map.
Variables U V : Prop.
Hypothesis HU : forall t, T t -> by_flag t = true -> U.
Variable d : bytes.
Notation R := (fun f => with_ E MUnpacking f).
Definition may_fail (e : fail) : Prop := caught U e \/ (e = Terminate /\ V).
Notation Sound := (ksound E K).
Notation Readable := (kreadable E T K).
Notation Own := (fun f => own E span K MUnpacking (R f)).

Lemma may_fail_caught : forall e, caught U e -> may_fail e.
Proof. intros e H. now left. Qed.
Lemma may_fail_bump : forall t e, may_fail e -> may_fail (bump t e).
Proof. intros t e [H|(-> & H)]; [left; destruct e; cbn in *; auto|right; auto]. Qed.
Hint Resolve may_fail_caught may_fail_bump : core.

Lemma blank_sound : forall k v, Readable k -> blank E k = Some v -> Sound false k v.
Proof.
  induction k as [t|vt|vt|n t|n kt vt|n ms IH|n k IH|n k IH|n k IH] using kty_rec'; intros v Hk Hb;
    cbn [blank] in Hb; try (injection Hb as <-; cbn [ksound]; auto; discriminate).
  - destruct (dflt E t) eqn:Hd; [|discriminate]. injection Hb as <-. cbn. eapply dflt_valid; eauto.
  - injection Hb as <-. cbn. constructor; constructor.
  - match type of Hb with match ?x with _ => _ end = _ => destruct x as [l|] eqn:Hl; [|discriminate] end.
    injection Hb as <-. cbn [kreadable] in Hk. cbn [ksound].
    revert l Hl Hk. induction IH as [|k ms Hk0 _ IHm]; intros l Hl Hk.
    + injection Hl as <-. exact I.
    + destruct (blank E k) as [d0|] eqn:Hd; [|discriminate].
      match type of Hl with match ?x with _ => _ end = _ => destruct x as [l'|] eqn:Hl'; [|discriminate] end.
      injection Hl as <-. destruct Hk as (H1 & H2). split; [now apply Hk0|]. now apply IHm.
Qed.

Lemma as_object_ends : forall A name (p : nat -> prog A) vf s (Q : A -> Prop), left_of d s ->
  (forall vf1 s1, left_of d s1 -> ends may_fail p vf1 s1 (fun a _ => Q a)) ->
  ends may_fail (fun f => as_object E MUnpacking name (p f)) vf s (fun a _ => Q a).
Proof.
  intros A name p vf s Q Hs Hp. unfold as_object. destruct (chk E); [|now apply Hp].
  eapply (ends_step may_fail _ _ (fun _ => with_type_idx E MUnpacking name) (fun f _ => _)).
  { eapply ends_runs; [apply may_fail_caught|]. eapply x_idx; eauto. }
  intros u vf1 s1 Hl1 _.
  match goal with |- ends _ (fun f => bind _ (@?k f)) _ _ _ => eapply (ends_step may_fail _ _ _ k) end.
  { apply ends_catch; [apply may_fail_bump|]. apply Hp. eapply left_trans; eauto. }
  intros a vf2 s2 Hl2 Ha. cbn beta.
  eapply (ends_step may_fail _ _ (fun _ => with_mem_used E MUnpacking name 1) (fun f _ => Ret a)).
  { eapply ends_runs; [apply may_fail_caught|]. eapply x_used; eauto. }
  intros u' vf3 s3 _ _. now apply ends_ret.
Qed.

Lemma member_ends : forall k v (p : nat -> prog kval) vf s, left_of d s -> Readable k -> Sound false k v ->
  ((forall t, k <> KVal t) -> forall vf1 s1, left_of d s1 -> ends may_fail p vf1 s1 (fun a _ => Sound true k a)) ->
  ends may_fail (fun f => member E MUnpacking (R f) k v (p f)) vf s (fun a _ => Sound true k a).
Proof.
  intros k v p vf s Hs Hk Hv Hp.
  destruct k; try (apply as_object_ends; [exact Hs|]; apply Hp; discriminate).
  destruct v; cbn in Hv; try contradiction. cbn [member].
  match goal with |- ends _ (fun f => bind _ (@?k f)) _ _ _ => eapply (ends_step may_fail _ _ _ k) end.
  { eapply ends_runs; [apply may_fail_caught|]. eapply run_one; eauto. }
  intros x vf1 s1 _ Hx. now apply ends_ret.
Qed.

Lemma array_ends : forall k (p : nat -> kval -> prog kval) l vf s, left_of d s ->
  (forall x vf1 s1, In x l -> left_of d s1 -> ends may_fail (fun f => p f x) vf1 s1 (fun a _ => Sound true k a)) ->
  ends may_fail (fun f => array_of E MUnpacking k (p f) l) vf s (fun l' _ => Forall (Sound true k) l').
Proof.
  intros k p l vf s Hs Hp. unfold array_of. destruct l as [|x l]; [apply ends_ret; constructor|].
  destruct (chk E); [|eapply ends_mapP; eauto].
  eapply (ends_step may_fail _ _ (fun _ => with_type_idx E MUnpacking (name_of k)) (fun f _ => _)).
  { eapply ends_runs; [apply may_fail_caught|]. eapply x_idx; eauto. }
  intros u vf1 s1 Hl1 _.
  match goal with |- ends _ (fun f => bind _ (@?k f)) _ _ _ => eapply (ends_step may_fail _ _ _ k) end.
  { apply ends_catch; [apply may_fail_bump|]. eapply (ends_mapP may_fail _ _ _ _ d); [eapply left_trans; eauto|]. apply Hp. }
  intros a vf2 s2 Hl2 Ha. cbn beta.
  eapply (ends_step may_fail _ _ (fun _ => with_mem_used E MUnpacking (name_of k) (length (x :: l))) (fun f _ => Ret a)).
  { eapply ends_runs; [apply may_fail_caught|]. eapply x_used; eauto. }
  intros u' vf3 s3 _ _. now apply ends_ret.
Qed.

Lemma Forall_resize : forall A (P : A -> Prop) n x l, P x -> Forall P l -> Forall P (resize n x l).
Proof.
  intros A P n x l Hx Hl. unfold resize. apply Forall_app. split.
  - now apply Forall_firstn'.
  - apply Forall_forall. intros y Hy. apply repeat_spec in Hy. now subst.
Qed.

Ltac step := match goal with |- ends _ (fun f => bind _ (@?k f)) _ _ _ => eapply (ends_step may_fail _ _ _ k) end.
Ltac plain := eapply ends_runs; [apply may_fail_caught|].

Lemma own_ends : forall k, (forall t, k <> KVal t) -> Readable k ->
  (forall k', part_of k' k -> hurt E span d k' -> U) -> (forall k', part_of k' k -> overfull E d k' -> V) ->
  forall v vf s, left_of d s -> Sound false k v ->
  ends may_fail (fun f => Own f k v) vf s (fun a _ => Sound true k a).
Proof.
  induction k as [t|vt|vt|n t|n kt vt|n ms IH|n k IH|n k IH|n k IH] using kty_rec';
    intros Hn Hk Hh Ho v vf s Hs Hv.
  - now elim (Hn t).
  - destruct v as [|w| | | | |]; try contradiction. cbn [own]. destruct Hk as (Ht & Hd & Hr & Hm).
    destruct (dflt E (vt_elem vt)) as [d0|] eqn:Hdf; [clear Hd|congruence].
    assert (Hb : forall w' vf s, left_of d s ->
      runs U (fun f => ser_view E span MUnpacking (R f) vt w') vf s (fun x _ => usable E vt x)).
    { intros w' vf' s' Hs'. eapply run_view; eauto. intros Hdam. apply (Hh (KView vt) (PoSelf _)).
      exists s'. auto. }
    step.
    { instantiate (1 := fun y _ => usable E vt y). plain. destruct (vt_const vt); [|now apply Hb].
      unfold ser_const_view. cbn [is_packing is_unpacking]. unfold new_view at 1.
      rewrite Hdf. cbn [of_opt bind].
      match goal with |- runs _ (fun f => bind _ (@?k f)) _ _ _ => eapply (runs_bind U _ _ _ k) end; [now apply Hb|].
      intros x vf1 s1 _ Hx. now apply runs_ret. }
    intros y vf1 s1 _ Hy. apply ends_ret. cbn. auto.
  - destruct v as [|w| | | | |]; try contradiction. cbn [own]. destruct Hk as (Ht & Hd).
    destruct (dflt E (vt_elem vt)) as [d0|] eqn:Hdf; [clear Hd|congruence].
    step.
    { plain. eapply run_dyn_view; eauto; intros Hdam; apply (Hh (KDynRank vt) (PoSelf _)); exists s; auto. }
    intros y vf1 s1 _ Hy. apply ends_ret. cbn. auto.
  - destruct v as [| |w| | | |]; try contradiction. cbn [own]. destruct Hk as (Ht & Hd).
    destruct (dflt E t) as [d0|] eqn:Hdf; [clear Hd|congruence].
    step.
    { destruct (run_dynamic_view E wf T rd U HU n t d0 w vf s _ Ht Hdf eq_refl) as (f0 & r & Hr & Hq).
      exists f0, r. split; [exact Hr|]. instantiate (1 := fun y _ => dynamic_usable E t y).
      destruct r as [[[a vf'] s']|e]; auto. destruct Hq as [Hq|(-> & Hq)]; [now left|right].
      split; auto. apply (Ho (KDynamic n t) (PoSelf _)). exists s. auto. }
    intros y vf1 s1 _ Hy. apply ends_ret. cbn. auto.
  - destruct v as [| | |mp| | |]; try contradiction. cbn [own is_footprinting].
    destruct Hk as (H1 & H2 & H3 & H4 & HK).
    step.
    { plain. eapply run_kmap; eauto. }
    intros y vf1 s1 _ Hy. apply ends_ret. exact Hy.
  - destruct v as [| | | |vs| |]; try contradiction. cbn [own].
    match goal with |- ends _ (fun f => bind (@?p f) (@?k f)) _ _ _ =>
      eapply (ends_step may_fail _ _ p k vf s (fun ys _ => Sound true (KClass n ms) (OObj ys))) end.
    2:{ intros ys vf1 s1 _ Hys. now apply ends_ret. }
    assert (Hh' : forall k, In k ms -> forall k', part_of k' k -> hurt E span d k' -> U).
    { intros k Hin k' Hp. apply Hh. eapply PoMember; eauto. }
    assert (Ho' : forall k, In k ms -> forall k', part_of k' k -> overfull E d k' -> V).
    { intros k Hin k' Hp. apply Ho. eapply PoMember; eauto. }
    cbn [kreadable] in Hk. cbn [ksound] in Hv |- *. clear Hn Hh Ho.
    revert vs vf s Hs Hk Hv Hh' Ho'. induction IH as [|k ms Hk0 _ IHm]; intros vs vf s Hs Hk Hv Hh' Ho'.
    + destruct vs; [|contradiction]. now apply ends_ret.
    + destruct vs as [|v vs]; [contradiction|]. destruct Hk as (Hk1 & Hk2). destruct Hv as (Hv1 & Hv2).
      step.
      { eapply (member_ends k v (fun f => own E span K MUnpacking (R f) k v)); eauto.
        intros Hnv vf1 s1 Hs1. apply Hk0; auto; [apply Hh'|apply Ho']; now left. }
      intros y vf1 s1 Hl1 Hy. cbn beta. step.
      { apply (IHm vs); auto; [eapply left_trans; eauto|..]; intros k1 Hin; [apply Hh'|apply Ho']; now right. }
      intros ys vf2 s2 _ Hys. apply ends_ret. split; [exact Hy|exact Hys].
  - destruct v as [| | | | |cap l|]; try contradiction. cbn [own is_footprinting is_unpacking].
    destruct Hk as (Hk & Hb & Hnv). cbn [ksound] in Hv.
    assert (IH' : forall v vf s, left_of d s -> Sound false k v ->
      ends may_fail (fun f => Own f k v) vf s (fun a _ => Sound true k a)).
    { apply IH; auto; intros k' Hp; [apply Hh|apply Ho]; now constructor. }
    step.
    { plain. unfold ser_vector_meta.
      match goal with |- runs _ (fun f => bind _ (@?k f)) _ _ _ => eapply (runs_bind U _ _ _ k) end;
        [eapply x_size; eauto|].
      intros c vf1 s1 _ _. cbn beta.
      match goal with |- runs _ (fun f => bind _ (@?k f)) _ _ _ => eapply (runs_bind U _ _ _ k) end;
        [eapply x_size; eauto|].
      intros c' vf2 s2 _ _. apply (runs_ret U _ _ _ _ (fun _ _ => True)). exact I. }
    intros (cap', n') vf1 s1 Hl1 _. cbn beta iota.
    destruct (blank E k) as [d0|] eqn:Hd0; [clear Hb|congruence]. cbn [of_opt bind].
    pose proof (blank_sound k d0 Hk Hd0) as Hd0s.
    step.
    { eapply (array_ends k (fun f => own E span K MUnpacking (R f) k)); [eapply left_trans; eauto|].
      intros x vf2 s2 Hin Hs2. apply IH'; auto.
      assert (Hall : Forall (Sound false k) (resize (N.to_nat n') d0 l)) by now apply Forall_resize.
      rewrite Forall_forall in Hall. now apply Hall. }
    intros l2 vf2 s2 _ Hl2. apply ends_ret. exact Hl2.
  - destruct v as [| | | | | |o]; try contradiction. cbn [own is_footprinting is_unpacking].
    destruct Hk as (Hk & Hb).
    destruct (blank E k) as [d0|] eqn:Hd0; [clear Hb|congruence]. cbn [of_opt bind].
    pose proof (blank_sound k d0 Hk Hd0) as Hd0s.
    step.
    { plain. eapply x_bool; eauto. intros c s' Hc Hb. apply (Hh (KOpt n k) (PoSelf _)).
      exists c, s'. split; auto. now rewrite <- Hc. }
    intros has vf1 s1 Hl1 _. cbn beta. destruct has; [|apply ends_ret; exact I].
    step.
    { eapply (member_ends k d0 (fun f => own E span K MUnpacking (R f) k d0)); eauto.
      { eapply left_trans; eauto. }
      intros Hnv vf2 s2 Hs2. apply IH; auto; intros k' Hp; [apply Hh|apply Ho]; now constructor. }
    intros x vf2 s2 _ Hx. apply ends_ret. exact Hx.
  - destruct v as [| | | | | |o]; try contradiction. cbn [own is_footprinting is_unpacking].
    destruct Hk as (Hk & Hb).
    assert (Hmem : forall v vf s, left_of d s -> Sound false k v ->
      ends may_fail (fun f => member E MUnpacking (R f) k v (Own f k v)) vf s (fun a _ => Sound true k a)).
    { intros v vf0 s0 Hs0 Hv0.
      eapply (member_ends k v (fun f => own E span K MUnpacking (R f) k v)); eauto.
      intros Hnv vf2 s2 Hs2. apply IH; auto; intros k' Hp; [apply Hh|apply Ho]; now constructor. }
    step.
    { plain. eapply x_bool; eauto. intros c s' Hc Hbb. apply (Hh (KPtr n k) (PoSelf _)).
      exists c, s'. split; auto. now rewrite <- Hc. }
    intros isnull vf1 s1 Hl1 _. cbn beta. destruct isnull; [apply ends_ret; exact I|].
    assert (Hs1 : left_of d s1) by (eapply left_trans; eauto).
    destruct o as [v|].
    + step; [apply Hmem; auto|]. intros x vf2 s2 _ Hx. apply ends_ret. exact Hx.
    + destruct (blank E k) as [d0|] eqn:Hd0; [clear Hb|congruence]. cbn [of_opt bind].
      pose proof (blank_sound k d0 Hk Hd0) as Hd0s.
      step; [apply Hmem; auto|]. intros x vf2 s2 _ Hx. apply ends_ret. exact Hx.
Qed.

Lemma root_ends : forall k, (forall t, k <> KVal t) -> Readable k ->
  (forall k', part_of k' k -> hurt E span d k' -> U) -> (forall k', part_of k' k -> overfull E d k' -> V) ->
  forall v, Sound false k v ->
  ends may_fail (fun f => root_member E span K f k MUnpacking v) false d (fun a _ => Sound true k a).
Proof.
  intros k Hn Hk Hh Ho v Hv. unfold root_member.
  eapply (ends_root E U may_fail _ (name_of k) _ d (fun a _ => Sound true k a)); auto.
  intros s1 Hs. apply own_ends; auto. rewrite Hs. now exists (le 4 (tix E (name_of k))).
Qed.
End Body.
