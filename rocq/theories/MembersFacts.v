(** Round trip of objects that contain Kokkos views and maps. *)
From Coq Require Import List NArith Arith Bool Lia.
From Coq.Strings Require Import Byte.
From Verif Require Import Base Syntax Prog Serializers Traverse Spec ProgFacts EnvFacts ValFacts
  Fails RegistryFacts Pack Unpack ApiFacts Views ViewSpec ViewFacts ViewRound KMap DynViews
  Members MembersSpec.
Import ListNotations.
Local Open Scope N_scope.

Section Ind.
Variable P : kty -> Prop.
Hypothesis Hval : forall t, P (KVal t).
Hypothesis Hview : forall vt, P (KView vt).
Hypothesis Hrank : forall vt, P (KDynRank vt).
Hypothesis Hdyn : forall n t, P (KDynamic n t).
Hypothesis Hmap : forall n kt vt, P (KMap n kt vt).
Hypothesis Hclass : forall n ms, Forall P ms -> P (KClass n ms).
Hypothesis Hvec : forall n k, P k -> P (KVec n k).
Hypothesis Hopt : forall n k, P k -> P (KOpt n k).
Hypothesis Hptr : forall n k, P k -> P (KPtr n k).
Fixpoint kty_rec' (k : kty) : P k :=
  match k with
  | KVal t => Hval t
  | KView vt => Hview vt
  | KDynRank vt => Hrank vt
  | KDynamic n t => Hdyn n t
  | KMap n kt vt => Hmap n kt vt
  | KClass n ms => Hclass n ms ((fix go l : Forall P l := match l with
                                  | [] => Forall_nil P
                                  | k :: r => Forall_cons k (kty_rec' k) (go r)
                                  end) ms)
  | KVec n k => Hvec n k (kty_rec' k)
  | KOpt n k => Hopt n k (kty_rec' k)
  | KPtr n k => Hptr n k (kty_rec' k)
  end.
End Ind.

(** ** The bytes written *)
Section Wire.
Variable E : env.
Variable span : list N -> list N -> N.

Definition wmember (k : kty) (v : kval) (b : bytes) : bytes :=
  match k, v with
  | KVal t, OVal x => enc E t x
  | _, _ => framed E (name_of k) 1 b
  end.

Fixpoint wown (k : kty) (v : kval) : bytes :=
  match k, v with
  | KView vt, OView x => wview E span vt x
  | KDynRank vt, OView x => wdyn E span vt x
  | KDynamic _ t, ODynamic x => wdynamic E t x
  | KMap _ kt vt, OMap x => wkmap E kt vt x
  | KClass _ ms, OObj vs =>
      (fix go ks vs := match ks, vs with
         | k :: ks', v :: vs' => wmember k v (wown k v) ++ go ks' vs'
         | _, _ => []
         end) ms vs
  | KVec _ k, OVec cap l =>
      wsize E cap ++ wsize E (len l) ++
      match l with
      | [] => []
      | _ => framed E (name_of k) (length l) (concat (map (wown k) l))
      end
  | KOpt _ k, OOpt o =>
      match o with Some v => wbool E true ++ wmember k v (wown k v) | None => wbool E false end
  | KPtr _ k, OOpt o =>
      match o with Some v => wbool E false ++ wmember k v (wown k v) | None => wbool E true end
  | _, _ => []
  end.
End Wire.

Section Emit.
Variable E : env.
Variable span : list N -> list N -> N.
Hypothesis Hspan0 : span [] [] = 1.
Variable K : kokkos_map.
Hypothesis wf : wf_env any E.
Variable m : mode.
Hypothesis Hm : m = MPacking \/ m = MSizing.
Variable f : nat.
Hypothesis Hf : (2 < f)%nat.
Notation rec := (with_ E m f).
Let P := proj1 (pack_all any E wf m Hm f).

Lemma e_member : forall k v, kty_ok E k -> kheld E span K f k v ->
  ((forall t, k <> KVal t) -> emits (own E span K m rec k v) false v false (wown E span k v)) ->
  emits (member E m rec k v (own E span K m rec k v)) false v false
    (wmember E k v (wown E span k v)).
Proof.
  intros k v Ht Hh Ho. destruct k; cbn [kheld] in Hh;
    try (assert (Hb := Ho ltac:(discriminate)); cbn [member wmember name_of];
         destruct v; apply (e_object E m Hm); exact Hb).
  destruct v; try contradiction. destruct Hh as (Hv & Hd). cbn [member wmember].
  eapply emits_eq; [|apply app_nil_r]. eapply emits_bind; [|apply emits_ret].
  apply (p_ser E rec f P); auto. now constructor.
Qed.

Lemma e_own : forall k v, kty_ok E k -> kheld E span K f k v -> (forall t, k <> KVal t) ->
  emits (own E span K m rec k v) false v false (wown E span k v).
Proof.
  induction k as [t|vt|vt|n t|n kt vt|n ms IH|n k IH|n k IH|n k IH] using kty_rec'; intros v Ht Hh Hn.
  - now elim (Hn t).
  - destruct v; try contradiction. cbn [own wown]. destruct Ht as (Hc & Hman & Hv & Hd).
    rewrite Hc. eapply emits_eq; [|apply app_nil_r]. eapply emits_bind; [|apply emits_ret].
    eapply e_view; eauto.
  - destruct v; try contradiction. cbn [own wown]. destruct Ht as (Hv & Hd).
    eapply emits_eq; [|apply app_nil_r]. eapply emits_bind; [|apply emits_ret].
    eapply e_dyn; eauto.
  - destruct v; try contradiction. cbn [own wown]. destruct Hh as (Hh & _).
    eapply emits_eq; [|apply app_nil_r]. eapply emits_bind; [|apply emits_ret].
    eapply e_dynamic; eauto.
  - destruct v; try contradiction. cbn [own wown]. rewrite (m_fp m Hm). destruct Hh as (Hh & Hno).
    eapply emits_eq; [|apply app_nil_r]. eapply emits_bind; [|apply emits_ret].
    eapply e_kmap; eauto. lia.
  - destruct v as [| | | |vs| |]; try contradiction. cbn [own wown]. try rewrite (m_fp m Hm).
    eapply emits_eq; [|apply app_nil_r]. eapply emits_bind; [|apply emits_ret].
    cbn [kty_ok kheld] in Ht, Hh. clear Hn.
    revert vs Hh. induction IH as [|k ms Hk _ IHl]; intros [|v vs] Hh; try contradiction.
    + apply emits_ret.
    + destruct Ht as (Htk & Htr), Hh as (Hhk & Hhr).
      eapply emits_bind.
      { apply e_member; auto. }
      eapply emits_eq; [|apply app_nil_r]. eapply emits_bind; [|apply emits_ret].
      now apply IHl.
  - destruct v as [| | | | |cap l|]; try contradiction. cbn [own wown]. try rewrite (m_fp m Hm).
    destruct Ht as (Htk & _ & Hnv), Hh as (Hl & Hle & Hc). rewrite (m_unp m Hm).
    unfold ser_vector_meta. rewrite app_assoc.
    eapply emits_bind.
    { eapply emits_bind; [apply (p_ser_size E rec f P); auto; lia|].
      eapply emits_eq; [|apply app_nil_r].
      eapply emits_bind; [apply (p_ser_size E rec f P); auto; lia|]. apply emits_ret. }
    cbn beta iota. eapply emits_eq; [|apply app_nil_l]. eapply emits_bind; [apply emits_ret|].
    eapply emits_eq; [|apply app_nil_r]. eapply emits_bind with (a := l).
    + unfold array_of. destruct l as [|x l]; [apply emits_ret|].
      apply emits_framed; auto. apply emits_mapP_id. intros y Hy. apply IH; auto.
      rewrite Forall_forall in Hl. auto.
    + replace (N.max (N.max cap cap) (len l)) with cap by lia. apply emits_ret.
  - destruct v as [| | | | | |o]; try contradiction. cbn [own wown]. try rewrite (m_fp m Hm).
    destruct Ht as (Htk & _). rewrite (m_unp m Hm).
    destruct o as [v|].
    + eapply emits_bind; [apply (p_ser_bool E rec f P); lia|].
      eapply emits_eq; [|apply app_nil_r].
      eapply emits_bind; [apply e_member; auto|]. apply emits_ret.
    + eapply emits_eq; [|apply app_nil_r].
      eapply emits_bind; [apply (p_ser_bool E rec f P); lia|]. apply emits_ret.
  - destruct v as [| | | | | |o]; try contradiction. cbn [own wown]. try rewrite (m_fp m Hm).
    destruct Ht as (Htk & _). rewrite (m_unp m Hm).
    destruct o as [v|].
    + eapply emits_bind; [apply (p_ser_bool E rec f P); lia|].
      eapply emits_eq; [|apply app_nil_r].
      eapply emits_bind; [apply e_member; auto|]. apply emits_ret.
    + eapply emits_eq; [|apply app_nil_r].
      eapply emits_bind; [apply (p_ser_bool E rec f P); lia|]. apply emits_ret.
Qed.
End Emit.

Lemma blank_class : forall E n ms, blank E (KClass n ms) =
  match (fix all (ks : list kty) : option (list kval) :=
               match ks with
               | [] => Some []
               | k :: r =>
                   match blank E k, all r with
                   | Some d, Some l => Some (d :: l)
                   | _, _ => None
                   end
               end) ms with
      | Some l => Some (OObj l)
      | None => None
      end.
Proof. reflexivity. Qed.

(** A default-constructed object may be overwritten with any. *)
Lemma blank_over : forall E span K f, wf_env any E -> forall k v d,
  kheld E span K f k v -> blank E k = Some d -> over E k v d.
Proof.
  intros E span K f wf.
  induction k as [t|vt|vt|n t|n kt vt|n ms IH|n k IH|n k IH|n k IH] using kty_rec'; intros v d Hh Hd;
    try (destruct v; try contradiction; inversion Hd; subst; exact I).
  - destruct v; try contradiction. cbn [blank] in Hd. destruct (dflt E t) eqn:Ed; [|discriminate].
    inversion Hd; subst. cbn [over]. destruct Hh as (Hh & _).
    eapply (dflt_tgt any E wf Cany Cany_any); eauto.
  - destruct v; try contradiction. inversion Hd; subst. reflexivity.
  - destruct v as [| | | |vs| |]; try contradiction. rewrite blank_class in Hd.
    destruct ((fix all (ks : list kty) : option (list kval) :=
               match ks with
               | [] => Some []
               | k :: r =>
                   match blank E k, all r with
                   | Some d, Some l => Some (d :: l)
                   | _, _ => None
                   end
               end) ms) as [ds|] eqn:Hds; [|discriminate].
    inversion Hd; subst. clear Hd. cbn [kheld over] in *.
    revert vs ds Hh Hds. induction IH as [|k ms Hk _ IHl]; intros [|v vs] ds Hh Hds; try contradiction.
    + inversion Hds; subst. exact I.
    + destruct Hh as (Hhk & Hhr). destruct (blank E k) as [d|] eqn:Hb; [|discriminate].
      match type of Hds with match ?X with _ => _ end = _ => destruct X as [l|] eqn:Hl; [|discriminate] end.
      inversion Hds; subst. split; [now apply Hk|]. now apply IHl.
  - destruct v; try contradiction. inversion Hd; subst. cbn [over]. intros x y _ [].
  - destruct v as [| | | | | |o]; try contradiction. inversion Hd; subst. cbn [over].
    now destruct o.
Qed.

Section Read.
Variable E : env.
Hypothesis wf : wf_env any E.
Variable span : list N -> list N -> N.
Hypothesis Hspan0 : span [] [] = 1.
Hypothesis Hspan : wf_span span.
Variable K : kokkos_map.
Hypothesis wk : wf_kokkos K.
Variable f : nat.
Hypothesis Hf : (2 < f)%nat.
Notation m := MUnpacking.
Notation rec := (with_ E m f).
Let U := proj1 (unpack_all any E wf Cany N.le Cany_any Cany_max f).

Lemma r_member : forall k v w, kty_ok E k -> kheld E span K f k v -> over E k v w ->
  ((forall t, k <> KVal t) -> exists x, kcopy k v x /\
     reads (own E span K m rec k w) false (wown E span k v) x false) ->
  exists x, kcopy k v x /\
    reads (member E m rec k w (own E span K m rec k w)) false (wmember E k v (wown E span k v)) x false.
Proof.
  intros k v w Ht Hh Hw Ho. destruct k;
    try (destruct (Ho ltac:(discriminate)) as (x & Hx & Hr); exists x; split; [exact Hx|];
         cbn [member wmember name_of] in *; destruct v, w; try contradiction;
         apply (r_object E wf); exact Hr).
  destruct v, w; try contradiction. cbn [kheld over member wmember] in *.
  destruct (r_ser E wf f t v v0) as (y & Hy & Hr); auto.
  exists (OVal y). split; [exact Hy|]. eapply reads_eq; [|apply app_nil_r].
  eapply reads_bind; [exact Hr|]. apply reads_ret.
Qed.

Ltac one Hr := eapply reads_eq; [|apply app_nil_r]; eapply reads_bind; [exact Hr|]; apply reads_ret.

Lemma r_own : forall k v w, kty_ok E k -> kheld E span K f k v -> over E k v w ->
  (forall t, k <> KVal t) -> exists x, kcopy k v x /\
    reads (own E span K m rec k w) false (wown E span k v) x false.
Proof.
  induction k as [t|vt|vt|n t|n kt vt|n ms IH|n k IH|n k IH|n k IH] using kty_rec'; intros v w Ht Hh Hw Hn.
  - now elim (Hn t).
  - destruct v, w; try contradiction. cbn [own wown is_footprinting]. destruct Ht as (Hc & Hman & Hv & Hd).
    destruct (dflt E (vt_elem vt)) as [d|] eqn:Ed; [|contradiction].
    destruct (r_view_full E wf span f Hf vt d v v0) as (x & Hx & Hx' & Hr); auto.
    exists (OView x). split; [|rewrite Hc; one Hr]. cbn [kcopy]. destruct (v_live v) eqn:Hl.
    + destruct (Hx eq_refl) as [Hcp (_ & _ & _ & Hlx & _) _ _]. split; [exact Hcp|exact Hlx].
    + rewrite (Hx' eq_refl). split; [|reflexivity]. constructor; auto; [|congruence].
      intros Hk. cbn [v_str shell]. now rewrite Hk.
  - destruct v, w; try contradiction. cbn [own wown is_footprinting]. destruct Ht as (Hv & Hd).
    destruct (dflt E (vt_elem vt)) as [d|] eqn:Ed; [|contradiction].
    destruct (r_dyn_full E span Hspan0 f Hf vt Hv d v v0) as (x & Hx & Hx' & Hr); auto.
    exists (OView x). split; [split; auto|one Hr]. intros Hl.
    destruct (Hx Hl) as [Hcp (_ & _ & _ & Hlx & _) _ _]. split; [exact Hcp|exact Hlx].
  - destruct v, w; try contradiction. cbn [own wown is_footprinting]. destruct Hh as (Hh & Hc & Ha).
    cbn [kty_ok] in Ht. destruct (dflt E t) as [d|] eqn:Ed; [|contradiction].
    destruct (r_dynamic E f Hf t d v v0) as (x & H1 & H2 & _ & H3 & Hr); auto.
    exists (ODynamic x). split; [split; auto|]. one Hr.
  - destruct v, w; try contradiction. cbn [own wown is_footprinting]. destruct Hh as (Hh & _), Ht as (Hk & Hv).
    destruct (r_kmap E wf K wk f ltac:(lia) kt vt Hk Hv mp mp0) as (x & Hx & _ & Hr); auto.
    exists (OMap x). split; [exact Hx|]. one Hr.
  - destruct v as [| | | |vs| |], w as [| | | |ws| |]; try contradiction.
    cbn [own wown kcopy kty_ok kheld over] in *. clear Hn.
    match goal with |- context [bind (?g ms ws) _] => set (visit := g) end.
    match goal with |- exists x, _ /\ reads _ _ (?g ms vs) _ _ => set (wgo := g) end.
    assert (G : exists xs,
      (fix all (ks : list kty) (vs xs : list kval) := match ks, vs, xs with
         | [], [], [] => True
         | k :: ks', v :: vs', x :: xs' => kcopy k v x /\ all ks' vs' xs'
         | _, _, _ => False
         end) ms vs xs /\ reads (visit ms ws) false (wgo ms vs) xs false).
    { revert vs ws Hh Hw. induction IH as [|k ms Hk _ IHl]; intros [|v vs] [|w ws] Hh Hw; try contradiction.
      - exists []. split; [exact I|]. apply reads_ret.
      - destruct Ht as (Htk & Htr), Hh as (Hhk & Hhr), Hw as (Hwk & Hwr).
        destruct (r_member k v w) as (x & Hx & Hr); auto.
        destruct (IHl Htr vs ws Hhr Hwr) as (xs & Hxs & Hrs).
        exists (x :: xs). split; [split; auto|].
        eapply reads_bind; [exact Hr|]. eapply reads_eq; [|apply app_nil_r].
        eapply reads_bind; [exact Hrs|]. apply reads_ret. }
    destruct G as (xs & Hxs & Hrs). exists (OObj xs). split; [exact Hxs|]. one Hrs.
  - destruct v as [| | | | |cap l|], w as [| | | | |cap' l'|]; try contradiction.
    cbn [own wown is_footprinting]. destruct Ht as (Htk & Hb & Hnv), Hh as (Hl & Hle & Hc).
    destruct (blank E k) as [d|] eqn:Hd; [|contradiction]. cbn [over] in Hw.
    assert (Hall : Forall2 (over E k) l (resize (length l) d l')).
    { rewrite Forall_forall in Hl.
      assert (Hbl : forall x, In x l -> over E k x d).
      { intros x Hx. eapply blank_over; eauto. }
      clear Hle Hc. revert l' Hw. induction l as [|x l IHl]; intros [|y l'] Hw.
      - constructor.
      - constructor.
      - unfold resize. cbn [length firstn app Nat.sub repeat].
        constructor; [apply Hbl; now left|].
        specialize (IHl ltac:(intros; apply Hl; now right) ltac:(intros; apply Hbl; now right) []
                        ltac:(intros ? ? ? [])).
        unfold resize in IHl. rewrite firstn_nil, Nat.sub_0_r in IHl. exact IHl.
      - unfold resize. cbn [length firstn app Nat.sub].
        constructor; [apply Hw; now left|].
        apply IHl.
        + intros z Hz. apply Hl. now right.
        + intros z Hz. apply Hbl. now right.
        + intros z z' Hz Hz'. apply Hw; now right. }
    assert (G : exists xs, Forall2 (kcopy k) l xs /\
      reads (mapP (own E span K m rec k) (resize (length l) d l')) false
            (concat (map (wown E span k) l)) xs false).
    { apply reads_mapP. clear - Hall Hl IH Htk Hnv.
      induction Hall as [|x y lx ly Hxy Hall IHa]; constructor; inversion Hl; subst; auto. }
    destruct G as (xs & Hxs & Hr).
    exists (OVec (N.max (N.max cap' cap) (len xs)) xs). split; [split; [lia|exact Hxs]|].
    unfold ser_vector_meta. rewrite app_assoc.
    eapply reads_bind.
    { eapply reads_bind; [apply (u_size E Cany N.le rec f U); auto; lia|].
      eapply reads_eq; [|apply app_nil_r].
      eapply reads_bind; [apply (u_size E Cany N.le rec f U) with (x := len l); auto; lia|].
      apply reads_ret. }
    cbn beta iota. cbn [is_unpacking of_opt]. rewrite len_nat.
    eapply reads_eq; [|apply app_nil_l]. eapply reads_bind with (vf1 := false).
    { apply reads_ret. }
    eapply reads_eq; [|apply app_nil_r]. eapply reads_bind; [|apply reads_ret].
    unfold array_of. destruct l as [|x l].
    + inversion Hxs; subst. cbn [length resize firstn app repeat Nat.sub]. apply reads_ret.
    + assert (Hlen : length (x :: l) = length (resize (length (x :: l)) d l')).
      { clear - Hall. induction Hall; cbn [length]; auto. }
      destruct (resize (length (x :: l)) d l') as [|y r]; [discriminate|].
      rewrite Hlen. apply (reads_framed any E wf). exact Hr.
  - destruct v as [| | | | | |o], w as [| | | | | |o']; try contradiction.
    cbn [own wown is_unpacking is_footprinting]. destruct Ht as (Htk & Hb).
    destruct (blank E k) as [d|] eqn:Hd; [|contradiction]. cbn [of_opt bind].
    destruct o as [v|].
    + destruct (r_member k v d) as (x & Hx & Hr); auto.
      { eapply blank_over; eauto. }
      { intros Hn'. apply IH; auto. eapply blank_over; eauto. }
      exists (OOpt (Some x)). split; [exact Hx|].
      eapply reads_bind; [apply (u_bool E Cany N.le rec f U); lia|]. cbn iota. one Hr.
    + exists (OOpt None). split; [exact I|].
      eapply reads_eq; [|apply app_nil_r].
      eapply reads_bind; [apply (u_bool E Cany N.le rec f U); lia|]. apply reads_ret.
  - destruct v as [| | | | | |o], w as [| | | | | |o']; try contradiction.
    cbn [own wown is_unpacking is_footprinting]. destruct Ht as (Htk & Hb).
    destruct (blank E k) as [d|] eqn:Hd; [|contradiction]. cbn [of_opt bind].
    destruct o as [v|].
    + assert (Hw' : over E k v match o' with Some y => y | None => d end).
      { destruct o'; [exact Hw|]. eapply blank_over; eauto. }
      destruct (r_member k v _ Htk Hh Hw') as (x & Hx & Hr).
      { intros Hn'. apply IH; auto. }
      exists (OOpt (Some x)). split; [exact Hx|].
      eapply reads_bind; [apply (u_bool E Cany N.le rec f U); lia|]. cbn iota.
      destruct o'; one Hr.
    + exists (OOpt None). split; [exact I|].
      eapply reads_eq; [|apply app_nil_r].
      eapply reads_bind; [apply (u_bool E Cany N.le rec f U); lia|]. apply reads_ret.
Qed.
End Read.

Lemma member_round_trip : forall E span K f k v, wf_env any E -> wf_span span -> span [] [] = 1 ->
  wf_kokkos K -> (2 < f)%nat -> (forall t, k <> KVal t) ->
  kty_ok E k -> kheld E span K f k v ->
  exists b, (stream_member E span K f k v = Ok (b, v) /\
     (len b < two64 -> serialize_member E span K f k v = Ok (b, v))) /\
    forall w, over E k v w -> exists x, kcopy k v x /\ forall before after,
      deserialize_member E span K f k (before ++ b ++ after) (length before) w = Ok (x, len b).
Proof.
  intros E span K f k v wf Hs Hs0 wk Hf Hn Ht Hh.
  exists (wroot E (name_of k) (wown E span k v)). split.
  - unfold stream_member, serialize_member, root_member.
    refine (both_ways _ _ _ _ v v _ _ _ _ eq_refl).
    + apply e_root; [now right|]. apply e_own; auto.
    + apply e_root; [now left|]. apply e_own; auto.
  - intros w Hw. destruct (r_own E wf span Hs0 Hs K wk f Hf k v w Ht Hh Hw Hn) as (x & Hx & Hr).
    exists x. split; auto. intros before after. apply deserialize_reads.
    unfold root_member. now apply r_root.
Qed.
