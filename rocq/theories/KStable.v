(** Restarting objects that contain Kokkos views again and again: when the data stays the same. *)
From Coq Require Import List NArith Arith Bool Lia Permutation.
From Coq.Strings Require Import Byte.
From Verif Require Import Base Syntax Prog Serializers Traverse Spec ProgFacts EnvFacts ValFacts
  Fails Pack Unpack ApiFacts Stable PropLaws Views ViewSpec ViewFacts ViewRound KMap DynViews
  Members MembersSpec MembersFacts Foot FootCopy Crs CrsSpec DynFoot MembersFoot ViewFoot.
Import ListNotations.
Local Open Scope N_scope.

(** ** Specification *)

(** The strides that Kokkos gives to a view it allocates itself. *)
Definition own_strides (vt : vty) (v : view) : Prop :=
  match vt_kind vt with LStride => True | k => v_str v = natural k (v_ext v) end.

(** Objects that are not changed by writing and reading them: their views have been allocated, with
    the strides that Kokkos chooses; a view of dynamic rank may also never have been allocated. *)
Fixpoint settled (k : kty) (v : kval) : Prop :=
  match k, v with
  | KVal _, OVal _ => True
  | KView vt, OView x => v_live x = true /\ own_strides vt x
  | KDynRank vt, OView x => x = no_view \/ (v_live x = true /\ own_strides vt x)
  | KDynamic _ _, ODynamic _ => True
  | KClass _ ms, OObj vs =>
      (fix all (ks : list kty) (vs : list kval) := match ks, vs with
         | [], [] => True
         | k :: ks', v :: vs' => settled k v /\ all ks' vs'
         | _, _ => False
         end) ms vs
  | KVec _ k, OVec _ l => Forall (settled k) l
  | KOpt _ k, OOpt o | KPtr _ k, OOpt o => match o with Some v => settled k v | None => True end
  | _, _ => False
  end.

(** Objects without Kokkos maps and without unordered containers. *)
Fixpoint orderly (k : kty) (v : kval) : Prop :=
  match k, v with
  | KVal _, OVal x => no_bags x
  | KView _, OView x | KDynRank _, OView x => v_live x = true -> Forall no_bags (v_data x)
  | KDynamic _ _, ODynamic x => Forall no_bags (d_elems x)
  | KClass _ ms, OObj vs =>
      (fix all (ks : list kty) (vs : list kval) := match ks, vs with
         | [], [] => True
         | k :: ks', v :: vs' => orderly k v /\ all ks' vs'
         | _, _ => False
         end) ms vs
  | KVec _ k, OVec _ l => Forall (orderly k) l
  | KOpt _ k, OOpt o | KPtr _ k, OOpt o => match o with Some v => orderly k v | None => True end
  | _, _ => False
  end.

(** Objects that take as much memory when they have been written and read, if plain values do of
    which [P] holds: [P] holds of all of them outside of optionals, whose contents are not counted;
    and views have been allocated or have no elements. *)
Fixpoint steady (P : val -> Prop) (k : kty) (v : kval) : Prop :=
  match k, v with
  | KVal _, OVal x => P x
  | KView _, OView x => (v_live x = true -> Forall P (v_data x)) /\
                        (v_live x = true \/ prod (v_ext x) = 0)
  | KDynRank _, OView x => v_live x = true -> Forall P (v_data x)
  | KDynamic _ _, ODynamic x => Forall P (d_elems x)
  | KClass _ ms, OObj vs =>
      (fix all (ks : list kty) (vs : list kval) := match ks, vs with
         | [], [] => True
         | k :: ks', v :: vs' => steady P k v /\ all ks' vs'
         | _, _ => False
         end) ms vs
  | KVec _ k, OVec _ l => Forall (steady P k) l
  | KOpt _ _, OOpt _ => True
  | KPtr _ k, OOpt o => match o with Some v => steady P k v | None => True end
  | _, _ => False
  end.

(** The object after [g] has been applied to its plain members and to the elements of its views. *)
Fixpoint plain_by (g : val -> val) (v : kval) : kval :=
  match v with
  | OVal x => OVal (g x)
  | OView x => OView (elems_by g x)
  | ODynamic x => ODynamic {| d_label := d_label x; d_chunk := d_chunk x; d_chunks := d_chunks x;
                              d_elems := map g (d_elems x) |}
  | OMap x => OMap x
  | OObj vs => OObj (map (plain_by g) vs)
  | OVec c l => OVec c (map (plain_by g) l)
  | OOpt o => OOpt (option_map (plain_by g) o)
  end.

(** What Kokkos puts in a new view is such an element. *)
Definition elem_ok (E : env) (f : nat) (t : ty) : Prop :=
  forall d, dflt E t = Some d -> has_ty E t d /\ (depth d < f)%nat /\ no_bags d.
Fixpoint defaults (E : env) (f : nat) (k : kty) : Prop :=
  match k with
  | KVal _ | KDynamic _ _ | KMap _ _ _ => True
  | KView vt | KDynRank vt => elem_ok E f (vt_elem vt)
  | KClass _ ms => (fix all (ks : list kty) := match ks with
                                               | [] => True
                                               | k :: r => defaults E f k /\ all r
                                               end) ms
  | KVec _ k | KOpt _ k | KPtr _ k => defaults E f k
  end.

(** Objects with the same contents: plain members that are the same but for capacities; views with
    the same label, extents and elements; maps with the same keys and values in some order. *)
Definition view_agree (kd : lkind) (a b : view) : Prop :=
  v_label a = v_label b /\ v_ext a = v_ext b /\ (kd = LStride -> v_str a = v_str b) /\
  (v_live a = true -> v_live b = true -> forall idx, in_bounds idx (v_ext a) ->
    exists x y, at_ a idx = Some x /\ at_ b idx = Some y /\ same x y).
Fixpoint kagree (k : kty) (a b : kval) : Prop :=
  match k, a, b with
  | KVal _, OVal x, OVal y => same x y
  | KView vt, OView x, OView y => view_agree (vt_kind vt) x y
  | KDynRank vt, OView x, OView y =>
      v_live x = v_live y /\ (v_live x = true -> view_agree (vt_kind vt) x y)
  | KDynamic _ _, ODynamic x, ODynamic y =>
      d_label x = d_label y /\ d_chunk x = d_chunk y /\ Forall2 same (d_elems x) (d_elems y)
  | KMap _ _ _, OMap x, OMap y => exists l, Permutation l (occupied y) /\
      Forall2 (fun s s' => same (s_key s) (s_key s') /\ same (s_val s) (s_val s')) (occupied x) l
  | KClass _ ms, OObj xs, OObj ys =>
      (fix all (ks : list kty) (xs ys : list kval) := match ks, xs, ys with
         | [], [], [] => True
         | k :: ks', x :: xs', y :: ys' => kagree k x y /\ all ks' xs' ys'
         | _, _, _ => False
         end) ms xs ys
  | KVec _ k, OVec _ l, OVec _ l' => Forall2 (kagree k) l l'
  | KOpt _ k, OOpt o, OOpt o' | KPtr _ k, OOpt o, OOpt o' =>
      match o, o' with
      | Some x, Some y => kagree k x y
      | None, None => True
      | _, _ => False
      end
  | _, _, _ => False
  end.

(** ** Values read without change *)
Section Values.
Variable E : env.
Hypothesis wf : wf_env any E.

Lemma exact_same : forall t v w, sim eq v w -> no_bags v ->
  encb E t w = encb E t v /\ enc E t w = enc E t v.
Proof.
  intros t v w Hc Hb. assert (H : encb E t v = encb E t w) by (now apply encb_sim).
  split; [congruence|]. unfold enc. now rewrite H.
Qed.
Lemma exact_held : forall t f v w, sim eq v w -> no_bags v -> has_ty E t v -> (depth v < f)%nat ->
  has_ty E t w /\ (depth w < f)%nat /\ no_bags w.
Proof.
  intros t f v w Hc Hb Ht Hd. split; [eapply has_ty_sim; eauto|].
  split; [now rewrite <- (depth_sim eq v w Hc Hb)|]. eapply no_bags_sim; eauto.
Qed.
End Values.

(** ** Views *)
Section ViewsAgain.
Variable E : env.
Hypothesis wf : wf_env any E.
Variable span : list N -> list N -> N.
Hypothesis Hspan : wf_span span.
Variable f : nat.
Variable vt : vty.

Definition cell (x : val) : Prop := (has_ty E (vt_elem vt) x /\ (depth x < f)%nat) /\ no_bags x.

Lemma shaped_ok : forall d v x, view_ok E span vt f v -> same_shape (shell vt span d v) x ->
  Forall cell (v_data x) ->
  view_ok E span vt f x /\ v_live x = true /\ own_strides vt x /\ Forall no_bags (v_data x).
Proof.
  intros d v x Hok (S1 & S2 & S3 & S4 & S5) Hc. destruct Hok.
  cbn [shell v_label v_ext v_str v_live v_data] in S1, S2, S3, S4, S5. rewrite repeat_length in S5.
  split; [|split; [exact S4|split]].
  - constructor; auto; try (rewrite ?S1, ?S2; auto; fail).
    + rewrite S3. destruct (vt_kind vt); auto; rewrite natural_length; auto.
    + intros Hk. rewrite S3, Hk. auto.
    + intros _. split; [|split].
      * intros idx Hi. rewrite S2 in Hi. rewrite S3. unfold len. rewrite S5, N2Nat.id.
        destruct (vt_kind vt); try apply natural_bound; auto. apply Hspan; auto. congruence.
      * intros Hcon. rewrite S2. unfold len. rewrite S5, N2Nat.id. unfold contiguous in Hcon.
        rewrite S2, S3 in Hcon. destruct (vt_kind vt); try apply N.le_refl.
        apply N.eqb_eq in Hcon. rewrite Hcon. apply N.le_refl.
      * eapply Forall_impl; [|exact Hc]. intros y Hy. apply Hy.
  - unfold own_strides. rewrite S3, S2. destruct (vt_kind vt); auto.
  - eapply Forall_impl; [|exact Hc]. intros y Hy. apply Hy.
Qed.

Lemma read_ok : forall d v x, view_ok E span vt f v -> v_live v = true ->
  dflt E (vt_elem vt) = Some d -> elem_ok E f (vt_elem vt) -> Forall no_bags (v_data v) ->
  read_by eq span vt v (shell vt span d v) x ->
  view_ok E span vt f x /\ v_live x = true /\ own_strides vt x /\ Forall no_bags (v_data x).
Proof.
  intros d v x Hok Hl Hd He Hfl [_ Hs _ Hc]. eapply shaped_ok; eauto.
  destruct (vo_live _ _ _ _ _ Hok Hl) as (_ & _ & Hel). rewrite Forall_forall in Hfl, Hel.
  eapply Forall_impl; [|exact Hc]. cbn beta. intros y [Hy|(z & Hz & Hzy)].
  - cbn [shell v_data] in Hy. apply repeat_spec in Hy. subst y. destruct (He d Hd) as (H1 & H2 & H3).
    repeat split; auto.
  - destruct (Hel z Hz) as (H1 & H2). destruct (exact_held E wf (vt_elem vt) f z y) as (G1 & G2 & G3); auto.
    repeat split; auto.
Qed.

Lemma new_ok : forall d v, view_ok E span vt f v ->
  dflt E (vt_elem vt) = Some d -> elem_ok E f (vt_elem vt) ->
  view_ok E span vt f (shell vt span d v) /\ own_strides vt (shell vt span d v) /\
  Forall no_bags (v_data (shell vt span d v)).
Proof.
  intros d v Hok Hd He. destruct (shaped_ok d v (shell vt span d v)) as (H1 & _ & H2 & H3); auto.
  - repeat split; auto.
  - apply Forall_forall. intros y Hy. cbn [shell v_data] in Hy. apply repeat_spec in Hy. subst y.
    destruct (He d Hd) as (H1 & H2 & H3). repeat split; auto.
Qed.

Lemma elements_same : forall l v x,
  (forall idx, In idx l -> exists a b, at_ v idx = Some a /\ at_ x idx = Some b /\
     enc E (vt_elem vt) b = enc E (vt_elem vt) a) ->
  map (enc E (vt_elem vt)) (flat_map (fun idx => match at_ x idx with Some y => [y] | None => [] end) l) =
  map (enc E (vt_elem vt)) (flat_map (fun idx => match at_ v idx with Some y => [y] | None => [] end) l).
Proof.
  induction l as [|i l IH]; intros v x H; auto. cbn [flat_map]. rewrite !map_app.
  destruct (H i (or_introl eq_refl)) as (a & b & Ha & Hb & He). rewrite Ha, Hb. cbn [map app].
  rewrite He, (IH v x); auto. intros idx Hi. apply H. now right.
Qed.

(** The data of a view with the strides that Kokkos would choose stays the same. *)
Lemma read_same : forall d v x, view_ok E span vt f v -> v_live v = true -> own_strides vt v ->
  Forall no_bags (v_data v) -> read_by eq span vt v (shell vt span d v) x ->
  v_label x = v_label v /\ v_ext x = v_ext v /\ v_str x = v_str v /\ v_live x = v_live v /\
  wbody E span vt x = wbody E span vt v.
Proof.
  intros d v x Hok Hl Hst Hfl [Hc (S1 & S2 & S3 & S4 & S5) Hp _].
  cbn [shell v_label v_ext v_str v_live v_data] in S1, S2, S3, S4.
  assert (Hs : v_str x = v_str v).
  { rewrite S3. unfold own_strides in Hst. destruct (vt_kind vt); auto. }
  repeat (split; [congruence|]). unfold wbody. rewrite S4, Hl.
  assert (Hcon : contiguous span (vt_kind vt) x = contiguous span (vt_kind vt) v).
  { unfold contiguous. now rewrite S2, Hs. }
  rewrite Hcon, S2. destruct (contiguous span (vt_kind vt) v).
  - f_equal. specialize (Hp eq_refl).
    assert (Hff : Forall no_bags (firstn (N.to_nat (prod (v_ext v))) (v_data v))) by now apply Forall_firstn'.
    revert Hff. induction Hp as [|a b l l' Hab Hp IH]; intros Hff; auto. inversion Hff; subst.
    cbn [map]. f_equal; auto. now apply exact_same.
  - f_equal. unfold elements. rewrite S2. apply elements_same. intros idx Hi.
    apply in_indices in Hi. destruct (vc_elems _ _ _ Hc Hl idx Hi) as (a & b & Ha & Hb & Hab).
    exists a, b. repeat split; auto. apply exact_same; auto.
    rewrite Forall_forall in Hfl. apply Hfl. eapply at_in; eauto.
Qed.

Lemma layout_same : forall v x, v_ext x = v_ext v -> v_str x = v_str v -> layout_of x = layout_of v.
Proof. intros v x H1 H2. unfold layout_of. now rewrite H1, H2. Qed.

Lemma wview_same : forall d v x, view_ok E span vt f v -> v_live v = true -> own_strides vt v ->
  Forall no_bags (v_data v) -> read_by eq span vt v (shell vt span d v) x ->
  wview E span vt x = wview E span vt v /\ wdyn E span vt x = wdyn E span vt v.
Proof.
  intros d v x Hok Hl Hst Hfl Hr. destruct (read_same d v x) as (H1 & H2 & H3 & H4 & H5); auto.
  unfold wview, wdyn, dyn_size, contiguous. rewrite (layout_same v x) by auto.
  rewrite H1, H2, H3, H4, H5. auto.
Qed.
End ViewsAgain.

(** New objects have no capacity, so that what is read has that of the original. *)
Definition Cless (c w : N) : Prop := w <= c.
Lemma less_zero : forall c w, zero_cap w -> Cless c w.
Proof. unfold zero_cap, Cless. intros. lia. Qed.
Lemma less_max : forall c w, Cless c w -> c = N.max w c.
Proof. unfold Cless. intros. lia. Qed.

(** ** Objects *)
Section Again.
Variable E : env.
Hypothesis wf0 : wf_env zero_cap E.
Let wf : wf_env any E := zero_any E wf0.
Variable span : list N -> list N -> N.
Hypothesis Hspan0 : span [] [] = 1.
Hypothesis Hspan : wf_span span.
Variable K : kokkos_map.
Variable f : nat.
Hypothesis Hf : (2 < f)%nat.
Notation m := MUnpacking.
Notation rec := (with_ E m f).
Let U := proj1 (unpack_all any E wf Cany N.le Cany_any Cany_max f).

(** [x] can be written again, nothing changes from now on, and nothing has if [v] was like that; [x]
    takes as much memory as [v]. *)
Definition again (k : kty) (v x : kval) : Prop :=
  kheld E span K f k x /\ orderly k x /\ settled k x /\
  (settled k v -> wown E span k x = wown E span k v /\
     wmember E k x (wown E span k x) = wmember E k v (wown E span k v)) /\
  (forall g ok, carries E g ok -> steady ok k v ->
     forall n, ktakes E span k (plain_by g v) n -> ktakes E span k (plain_by g x) n).

Definition rereads (k : kty) : Prop := forall v w, kty_ok E k -> defaults E f k ->
  kheld E span K f k v -> orderly k v -> blank E k = Some w -> (forall t, k <> KVal t) ->
  exists x, again k v x /\ reads (own E span K m rec k w) false (wown E span k v) x false.

Lemma same_member : forall k v x, (forall t, k <> KVal t) -> wown E span k x = wown E span k v ->
  wown E span k x = wown E span k v /\
  wmember E k x (wown E span k x) = wmember E k v (wown E span k v).
Proof.
  intros k v x Hn H. split; auto. rewrite H. destruct k; auto. now elim (Hn t).
Qed.

Lemma reread_member : forall k, rereads k -> forall v w, kty_ok E k -> defaults E f k ->
  kheld E span K f k v -> orderly k v -> blank E k = Some w ->
  exists x, again k v x /\
    reads (member E m rec k w (own E span K m rec k w)) false (wmember E k v (wown E span k v)) x false.
Proof.
  intros k Hk v w Ht Hdf Hh Ho Hw.
  destruct k;
    try (destruct (Hk v w Ht Hdf Hh Ho Hw ltac:(discriminate)) as (x & Hx & Hr); exists x; split; [exact Hx|];
         cbn [member wmember name_of] in *; destruct v, w; apply (r_object E wf); exact Hr).
  destruct v; try contradiction. cbn [blank] in Hw. destruct (dflt E t) as [d|] eqn:Hd; [|discriminate].
  injection Hw as <-. destruct Hh as (Hty & Hdep). cbn [orderly] in Ho.
  pose proof (proj1 (unpack_all zero_cap E wf0 Cless eq less_zero less_max f)) as UE.
  destruct (u_ser E Cless eq rec f UE t v d) as (x & Hx & Hr); auto.
  { now constructor. }
  { left. eapply (dflt_tgt zero_cap E wf0 Cless less_zero); eauto. }
  exists (OVal x). split.
  - split; [|split; [|split; [|split]]].
    + cbn [kheld]. split; [eapply has_ty_sim; eauto|]. now rewrite <- (depth_sim eq v x).
    + cbn [orderly]. eapply no_bags_sim; eauto.
    + exact I.
    + intros _. split; auto. cbn [wmember]. unfold enc. now rewrite (encb_sim E v x).
    + intros g ok Hg Hs n Hn. cbn [plain_by] in *. inversion Hn; subst. constructor. eapply Hg; eauto.
  - cbn [member wmember]. eapply reads_eq; [|apply app_nil_r]. eapply reads_bind; [exact Hr|]. apply reads_ret.
Qed.

Ltac one Hr := eapply reads_eq; [|apply app_nil_r]; eapply reads_bind; [exact Hr|]; apply reads_ret.

Lemma reread_view : forall vt, rereads (KView vt).
Proof.
  intros vt v w Ht Hdf Hh Ho Hw Hn. destruct v; try contradiction. cbn [blank] in Hw. injection Hw as <-.
  cbn [kheld orderly defaults] in *. destruct Ht as (Hc & Hman & Hv & Hd).
  destruct (dflt E (vt_elem vt)) as [d|] eqn:Ed; [|contradiction].
  match goal with |- context [own E span K m rec (KView vt) (OView ?b)] => set (w := b) end.
  destruct (g_view_full E zero_cap wf0 Cless eq less_zero less_max span f Hf vt d v w) as (x & Hx & Hx' & Hr); auto.
  exists (OView x). split.
  - destruct (v_live v) eqn:Hl.
    + specialize (Hx eq_refl). specialize (Ho eq_refl).
      destruct (read_ok E wf span Hspan f vt d v x) as (H1 & H2 & H3 & H4); auto.
      split; [exact H1|]. split; [intros _; exact H4|]. split; [split; auto|].
      split.
      { intros (_ & Hst). apply same_member; [discriminate|]. cbn [wown].
        now apply (wview_same E span f vt d v x). }
      intros g ok Hg (Hs & _) n Hk. cbn [plain_by] in *. inversion Hk as [|? ? l ns K1 K2 K3 K4 K5| | | | | | | | | ]; subst.
      destruct (vo_live _ _ _ _ _ Hh Hl) as (Hmem & _).
      destruct (stored_read E g ok span vt d v x l ns) as (l' & ns' & L1 & L2 & L3); auto.
      { rewrite (vo_str _ _ _ _ _ Hh). symmetry. apply (vo_rank _ _ _ _ _ Hh). }
      replace (header E vt (elems_by g v) + total ns) with (header E vt (elems_by g x) + total ns'); [now apply KtView with (l := l')|].
      rewrite L3. unfold header. cbn [elems_by with_data v_label]. now rewrite (vc_label _ _ _ (rf_copy _ _ _ _ _ Hx)).
    + rewrite (Hx' eq_refl). destruct (new_ok E span Hspan f vt d v) as (H1 & H2 & H3); auto.
      split; [exact H1|]. split; [intros _; exact H3|]. split; [split; auto|].
      split; [intros (Hl' & _); congruence|].
      intros g ok Hg (_ & [Hs|Hs]) n Hk; [congruence|]. cbn [plain_by] in *. inversion Hk as [|? ? l ns K1 K2 K3 K4 K5| | | | | | | | | ]; subst.
      unfold stored in K4. cbn [elems_by with_data v_live] in K4. rewrite Hl in K4. subst l. inversion K5; subst.
      change (header E vt (elems_by g v)) with (header E vt (elems_by g (shell vt span d v))).
      apply KtView with (l := []); auto. apply stored_by. exists []. split; auto. apply stored_none; auto.
      rewrite (vo_str _ _ _ _ _ Hh). apply (vo_rank _ _ _ _ _ Hh).
  - cbn [own wown]. rewrite Hc. one Hr.
Qed.

Lemma reread_rank : forall vt, rereads (KDynRank vt).
Proof.
  intros vt v w Ht Hdf Hh Ho Hw Hn. destruct v; try contradiction. cbn [blank] in Hw. injection Hw as <-.
  cbn [kheld orderly defaults] in *. destruct Ht as (Hv & Hd).
  destruct (dflt E (vt_elem vt)) as [d|] eqn:Ed; [|contradiction].
  destruct (g_dyn_full E span Hspan0 f Hf vt Hv zero_cap Cless eq less_zero less_max d v no_view) as (x & Hx & Hx' & Hr); auto.
  exists (OView x). split.
  - destruct Hh as [Hno|(Hl & Hok & H7 & Hnd)].
    + rewrite (Hx' Hno). rewrite Hno. split; [now left|]. split; [discriminate|]. split; [now left|].
      split; [intros _; apply same_member; [discriminate|]; reflexivity|auto].
    + specialize (Hx Hl). specialize (Ho Hl).
      set (vt' := at_rank vt (length (v_ext v))).
      assert (Hx2 : read_by eq span vt' v (shell vt' span d v) x) by (destruct Hx; constructor; auto).
      destruct (read_ok E wf span Hspan f vt' d v x) as (H1 & H2 & H3 & H4); auto.
      assert (He : v_ext x = v_ext v) by (destruct Hx as [Hc _ _ _]; apply (vc_ext _ _ _ Hc)).
      split; [right; rewrite He; auto|]. split; [intros _; exact H4|]. split; [right; split; auto|].
      split.
      { intros [Hno|(_ & Hst)]; [rewrite Hno in Hl; discriminate|].
        apply same_member; [discriminate|]. cbn [wown].
        exact (proj2 (wview_same E span f vt' d v x Hok Hl Hst Ho Hx2)). }
      intros g ok Hg Hs n Hk. cbn [plain_by] in *. inversion Hk as [| |? ? l ns K1 K2 K3| | | | | | | | ]; subst.
      destruct (vo_live _ _ _ _ _ Hok Hl) as (Hmem & _).
      destruct (stored_read E g ok span vt d v x l ns) as (l' & ns' & L1 & L2 & L3); auto.
      { exact (vo_str _ _ _ _ _ Hok). }
      replace (dyn_header E vt (elems_by g v) + total ns) with (dyn_header E vt (elems_by g x) + total ns'); [now apply KtRank with (l := l')|].
      rewrite L3. unfold dyn_header. cbn [elems_by with_data v_live v_label]. rewrite H2, Hl. now rewrite (vc_label _ _ _ (rf_copy _ _ _ _ _ Hx)).
  - cbn [own wown]. one Hr.
Qed.

Lemma reread_dynamic : forall n t, rereads (KDynamic n t).
Proof.
  intros n t v w Ht Hdf Hh Ho Hw Hn. destruct v; try contradiction. cbn [blank] in Hw. injection Hw as <-.
  cbn [kheld orderly defaults kty_ok] in *. destruct Hh as (Hh & Hc & Ha).
  destruct (dflt E t) as [d|] eqn:Ed; [|contradiction].
  match goal with |- context [own E span K m rec _ (ODynamic ?b)] => set (w := b) end.
  destruct (g_dynamic E f Hf t zero_cap Cless eq less_zero less_max d v w) as (x & H1 & H2 & H3 & H4 & Hr); auto.
  exists (ODynamic x).
  assert (Hl : len (d_elems x) = len (d_elems v)) by (symmetry; eapply Forall2_len; eauto).
  assert (Hal : allocation_extent x = allocation_extent v) by (unfold allocation_extent; now rewrite H2, Hl).
  assert (Hel : Forall (fun y => (has_ty E t y /\ (depth y < f)%nat) /\ no_bags y) (d_elems x)).
  { pose proof (do_elems _ _ _ _ Hh) as Hel. clear - H4 Hel Ho wf.
    induction H4 as [|a b l l' Hab H4 IH]; constructor; inversion Hel as [|? ? (Hta & Hda) Hel']; subst;
      inversion Ho; subst; auto.
    destruct (exact_held E wf t f a b) as (G1 & G2 & G3); auto. }
  split.
  - split; [|split; [|split; [exact I|split]]].
    + cbn [kheld]. rewrite Hal, H2. split; auto. destruct Hh. constructor; auto.
      * now rewrite H1.
      * now rewrite H2.
      * now rewrite H2.
      * now rewrite Hal.
      * rewrite H2, H3, Hl. apply N.le_refl.
      * eapply Forall_impl; [|exact Hel]. intros y Hy. apply Hy.
    + cbn [orderly]. eapply Forall_impl; [|exact Hel]. intros y Hy. apply Hy.
    + intros _. apply same_member; [discriminate|]. cbn [wown]. unfold wdynamic.
      rewrite H1, H2, Hal, Hl. do 5 f_equal. clear - H4 Ho wf.
      induction H4 as [|a b l l' Hab H4 IH]; auto. inversion Ho; subst. cbn [map]. f_equal; auto.
      now apply exact_same.
    + intros g ok Hg Hs k Hk. cbn [plain_by] in *. inversion Hk as [| | |? ? ? ns K1| | | | | | | ]; subst. cbn [d_elems] in K1.
      match goal with |- ktakes _ _ _ (ODynamic ?b) (dynamic_header E ?a + _) =>
        replace (dynamic_header E a) with (dynamic_header E b) by (unfold dynamic_header; cbn [d_label]; now rewrite H1) end.
      constructor. cbn [d_elems]. eapply takes_read_list; eauto.
  - cbn [own wown]. one Hr.
Qed.

Lemma reread : forall k, rereads k.
Proof.
  induction k as [t|vt|vt|n t|n kt vt|n ms IH|n k IH|n k IH|n k IH] using kty_rec'.
  - intros v w _ _ _ _ _ Hn. now elim (Hn t).
  - apply reread_view.
  - apply reread_rank.
  - apply reread_dynamic.
  - intros v w _ _ _ Ho _ _. destruct v; contradiction.
  - intros v w Ht Hdf Hh Ho Hw Hn. destruct v as [| | | |vs| |]; try contradiction.
    rewrite blank_class in Hw.
    match type of Hw with match ?X with _ => _ end = _ => destruct X as [ws|] eqn:Hws; [|discriminate] end.
    injection Hw as <-. cbn [own wown kty_ok kheld orderly defaults] in *. clear Hn.
    match goal with |- context [bind (?g ms ws) _] => set (visit := g) end.
    match goal with |- exists x, _ /\ reads _ _ (?g ms vs) _ _ => set (wgo := g) end.
    assert (G : exists xs, again (KClass n ms) (OObj vs) (OObj xs) /\
       reads (visit ms ws) false (wgo ms vs) xs false).
    { assert (G' : exists xs,
        (kheld E span K f (KClass n ms) (OObj xs) /\ orderly (KClass n ms) (OObj xs) /\
         settled (KClass n ms) (OObj xs) /\
         (settled (KClass n ms) (OObj vs) -> wgo ms xs = wgo ms vs) /\
         (forall g ok, carries E g ok -> steady ok (KClass n ms) (OObj vs) -> forall ns,
            length ms = length (map (plain_by g) vs) ->
            Forall2 (fun p n => ktakes E span (fst p) (snd p) n) (combine ms (map (plain_by g) vs)) ns ->
            length ms = length (map (plain_by g) xs) /\
            Forall2 (fun p n => ktakes E span (fst p) (snd p) n) (combine ms (map (plain_by g) xs)) ns)) /\
        reads (visit ms ws) false (wgo ms vs) xs false).
      { cbn [kheld orderly settled steady].
        revert vs ws Hh Ho Hws. induction IH as [|k ms Hk _ IHl]; intros [|v vs] ws Hh Ho Hws; try contradiction.
        - injection Hws as <-. exists []. split; [|apply reads_ret]. repeat split; auto.
        - destruct Ht as (Htk & Htr), Hdf as (Hdk & Hdr), Hh as (Hhk & Hhr), Ho as (Hok & Hor).
          destruct (blank E k) as [w|] eqn:Hb; [|discriminate].
          match type of Hws with match ?X with _ => _ end = _ => destruct X as [ws'|] eqn:Hl; [|discriminate] end.
          injection Hws as <-.
          destruct (reread_member k Hk v w) as (x & (X1 & X2 & X3 & X4 & X5) & Hr); auto.
          destruct (IHl Htr Hdr vs ws' Hhr Hor eq_refl) as (xs & (Y1 & Y2 & Y3 & Y4 & Y5) & Hrs).
          exists (x :: xs). split.
          + do 3 (split; [split; auto|]). split.
            2:{ intros g ok Hg (S1 & S2) ns Hlen Hns. cbn [combine length map] in *. inversion Hns as [|? ? ? ns' N1 N2]; subst.
                destruct (Y5 g ok Hg S2 ns') as (Z1 & Z2); auto. split; [now f_equal|].
                constructor; auto. eapply X5; eauto. }
            intros (S1 & S2).
            change (wmember E k x (wown E span k x) ++ wgo ms xs = wmember E k v (wown E span k v) ++ wgo ms vs).
            rewrite (Y4 S2). now rewrite (proj2 (X4 S1)).
          + eapply reads_bind; [exact Hr|]. eapply reads_eq; [|apply app_nil_r].
            eapply reads_bind; [exact Hrs|]. apply reads_ret. }
      destruct G' as (xs & (Y1 & Y2 & Y3 & Y4 & Y5) & Hrs). exists xs. split; [|exact Hrs].
      split; auto. split; auto. split; auto. split; [intros Hs; apply same_member; [discriminate|]; exact (Y4 Hs)|].
      intros g ok Hg Hs q Hq. cbn [plain_by] in *. inversion Hq; subst.
      destruct (Y5 g ok Hg Hs ns) as (Z1 & Z2); auto. now constructor. }
    destruct G as (xs & Hxs & Hrs). exists (OObj xs). split; [exact Hxs|]. one Hrs.
  - intros v w Ht Hdf Hh Ho Hw Hn. destruct v as [| | | | |cap l|]; try contradiction.
    cbn [blank] in Hw. injection Hw as <-. cbn [own wown is_footprinting kheld orderly defaults kty_ok] in *.
    destruct Ht as (Htk & Hb & Hnv), Hh as (Hl & Hle & Hc).
    destruct (blank E k) as [d|] eqn:Hd; [|contradiction].
    assert (G : exists xs, Forall2 (again k) l xs /\
      reads (mapP (own E span K m rec k) (resize (length l) d [])) false
            (concat (map (wown E span k) l)) xs false).
    { apply reads_mapP. unfold resize. rewrite firstn_nil. cbn [app length]. rewrite Nat.sub_0_r.
      clear Hle Hc. induction l as [|y l IHl]; constructor; inversion Hl; inversion Ho; subst; auto. }
    destruct G as (xs & Hxs & Hr).
    assert (Hlen : len xs = len l) by (symmetry; eapply Forall2_len; eauto).
    exists (OVec (N.max (N.max 0 cap) (len xs)) xs). split.
    + replace (N.max (N.max 0 cap) (len xs)) with cap by lia.
      split; [|split; [|split; [|split]]].
      * split; [|split; [lia|exact Hc]]. clear - Hxs. induction Hxs as [|a b l l' Hab]; constructor; auto. apply Hab.
      * cbn [orderly]. clear - Hxs. induction Hxs as [|a b l l' Hab]; constructor; auto. apply Hab.
      * cbn [settled]. clear - Hxs. induction Hxs as [|a b l l' Hab]; constructor; auto. apply Hab.
      * intros Hs. apply same_member; [discriminate|]. cbn [wown settled] in *. rewrite Hlen. do 2 f_equal.
        assert (Hm : map (wown E span k) xs = map (wown E span k) l).
        { clear - Hxs Hs. induction Hxs as [|a b l l' Hab Hxs IH]; auto. inversion Hs; subst.
          cbn [map]. f_equal; auto. now apply Hab. }
        pose proof (Forall2_length _ _ _ _ _ Hxs) as HL.
        destruct l as [|y l], xs as [|z xs]; try discriminate; auto. now rewrite Hm, HL.
      * cbn [steady plain_by]. intros g ok Hg Hs q Hq. inversion Hq as [| | | | | |? ? ? ? ns Q1 Q2| | | | ]; subst.
        replace (len (map (plain_by g) l)) with (len (map (plain_by g) xs))
          by (unfold len in *; rewrite !map_length; lia).
        constructor; auto. clear - Hg Hxs Hs Q2. revert ns Q2.
        induction Hxs as [|a b l l' Hab Hxs IH]; intros ns Q2; cbn [map] in *; inversion Q2; subst; constructor;
          inversion Hs; subst; auto.
        eapply Hab; eauto.
    + unfold ser_vector_meta. rewrite app_assoc.
      eapply reads_bind.
      { eapply reads_bind; [apply (u_size E Cany N.le rec f U); auto; lia|].
        eapply reads_eq; [|apply app_nil_r].
        eapply reads_bind; [apply (u_size E Cany N.le rec f U) with (x := len l); auto; lia|].
        apply reads_ret. }
      cbn beta iota. cbn [is_unpacking of_opt]. rewrite len_nat.
      eapply reads_eq; [|apply app_nil_l]. eapply reads_bind with (vf1 := false).
      { apply reads_ret. }
      eapply reads_eq; [|apply app_nil_r]. eapply reads_bind; [|apply reads_ret].
      unfold array_of. destruct l as [|y l].
      * inversion Hxs; subst. cbn [length resize firstn app repeat Nat.sub]. apply reads_ret.
      * assert (Hlr : length (y :: l) = length (resize (length (y :: l)) d [])).
        { unfold resize. rewrite firstn_nil. cbn [app length]. now rewrite repeat_length, Nat.sub_0_r. }
        destruct (resize (length (y :: l)) d []) as [|z r]; [discriminate|].
        rewrite Hlr. apply (reads_framed any E wf). exact Hr.
  - intros v w Ht Hdf Hh Ho Hw Hn. destruct v as [| | | | | |o]; try contradiction.
    cbn [blank] in Hw. injection Hw as <-.
    cbn [own wown is_unpacking is_footprinting kheld orderly defaults kty_ok] in *. destruct Ht as (Htk & Hb).
    destruct (blank E k) as [d|] eqn:Hd; [|contradiction]. cbn [of_opt bind].
    destruct o as [v|].
    + destruct (reread_member k IH v d) as (x & (X1 & X2 & X3 & X4 & X5) & Hr); auto.
      exists (OOpt (Some x)). split.
      * split; [exact X1|]. split; [exact X2|]. split; [exact X3|]. split.
        { intros Hs. apply same_member; [discriminate|]. cbn [wown]. now rewrite (proj2 (X4 Hs)). }
        intros g ok Hg Hs q Hq. cbn [plain_by option_map] in *. inversion Hq; subst. constructor.
      * eapply reads_bind; [apply (u_bool E Cany N.le rec f U); lia|]. cbn iota. one Hr.
    + exists (OOpt None). split.
      * repeat split; auto.
      * eapply reads_eq; [|apply app_nil_r].
        eapply reads_bind; [apply (u_bool E Cany N.le rec f U); lia|]. apply reads_ret.
  - intros v w Ht Hdf Hh Ho Hw Hn. destruct v as [| | | | | |o]; try contradiction.
    cbn [blank] in Hw. injection Hw as <-.
    cbn [own wown is_unpacking is_footprinting kheld orderly defaults kty_ok] in *. destruct Ht as (Htk & Hb).
    destruct (blank E k) as [d|] eqn:Hd; [|contradiction]. cbn [of_opt bind].
    destruct o as [v|].
    + destruct (reread_member k IH v d) as (x & (X1 & X2 & X3 & X4 & X5) & Hr); auto.
      exists (OOpt (Some x)). split.
      * split; [exact X1|]. split; [exact X2|]. split; [exact X3|]. split.
        { intros Hs. apply same_member; [discriminate|]. cbn [wown]. now rewrite (proj2 (X4 Hs)). }
        intros g ok Hg Hs q Hq. cbn [plain_by option_map] in *. inversion Hq; subst. constructor. eapply X5; eauto.
      * eapply reads_bind; [apply (u_bool E Cany N.le rec f U); lia|]. cbn iota. one Hr.
    + exists (OOpt None). split.
      * repeat split; auto.
      * eapply reads_eq; [|apply app_nil_r].
        eapply reads_bind; [apply (u_bool E Cany N.le rec f U); lia|]. apply reads_ret.
Qed.
End Again.

(** ** Whole objects *)
Section Restart.
Variable E : env.
Hypothesis wf0 : wf_env zero_cap E.
Variable span : list N -> list N -> N.
Hypothesis Hspan0 : span [] [] = 1.
Hypothesis Hspan : wf_span span.
Variable K : kokkos_map.
Hypothesis wk : wf_kokkos K.
Variable f : nat.
Hypothesis Hf : (2 < f)%nat.
Variable k : kty.
Hypothesis Hk : forall t, k <> KVal t.
Hypothesis Ht : kty_ok E k.

Definition wobj (v : kval) : bytes := wroot E (name_of k) (wown E span k v).

Lemma writes_obj : forall v, kheld E span K f k v ->
  stream_member E span K f k v = Ok (wobj v, v) /\
  (len (wobj v) < two64 -> serialize_member E span K f k v = Ok (wobj v, v)).
Proof.
  intros v Hh. pose proof (zero_any E wf0) as wf.
  unfold stream_member, serialize_member, root_member, wobj.
  refine (both_ways _ _ _ _ v v _ _ _ _ eq_refl).
  - apply e_root; [now right|]. apply e_own; auto.
  - apply e_root; [now left|]. apply e_own; auto.
Qed.

Lemma restart_obj : forall v w, kheld E span K f k v -> defaults E f k -> orderly k v ->
  blank E k = Some w ->
  exists x, kcopy k v x /\ kheld E span K f k x /\ orderly k x /\ settled k x /\
    (settled k v -> wobj x = wobj v) /\
    (forall g ok, carries E g ok -> steady ok k v ->
     forall n, ktakes E span k (plain_by g v) n -> ktakes E span k (plain_by g x) n) /\
    forall before after,
      deserialize_member E span K f k (before ++ wobj v ++ after) (length before) w = Ok (x, len (wobj v)).
Proof.
  intros v w Hh Hd Ho Hw. pose proof (zero_any E wf0) as wf.
  destruct (reread E wf0 span Hspan0 Hspan K f Hf k v w Ht Hd Hh Ho Hw Hk) as (x & (X1 & X2 & X3 & X4 & X6) & Hr).
  assert (Hov : over E k v w) by (eapply blank_over; eauto).
  destruct (r_own E wf span Hspan0 Hspan K wk f Hf k v w Ht Hh Hov Hk) as (x' & Hx' & Hr').
  assert (R : forall y, reads (own E span K MUnpacking (with_ E MUnpacking f) k w) false (wown E span k v) y false ->
    forall before after,
    deserialize_member E span K f k (before ++ wobj v ++ after) (length before) w = Ok (y, len (wobj v))).
  { intros y Hy before after. unfold deserialize_member. apply deserialize_reads.
    unfold root_member. now apply r_root. }
  assert (He : x' = x).
  { pose proof (R x Hr [] []) as R1. pose proof (R x' Hr' [] []) as R2. rewrite R1 in R2. congruence. }
  subst x'. exists x. do 4 (split; [assumption|]). split; [|split; [exact X6|now apply R]].
  intros Hs. unfold wobj. now rewrite (proj1 (X4 Hs)).
Qed.
End Restart.

(** ** Data that agrees *)
Lemma copies_same : forall a b x, copy_of a x -> copy_of b x -> same a b.
Proof.
  intros a b x H1 H2. eapply same_trans; [eapply sim_mono; [|exact H1]; auto|].
  apply same_sym. eapply sim_mono; [|exact H2]; auto.
Qed.
Lemma copies_list : forall l l' m, Forall2 copy_of l m -> Forall2 copy_of l' m -> Forall2 same l l'.
Proof.
  intros l l' m H. revert l'. induction H; intros r H'; inversion H'; subst; constructor; eauto using copies_same.
Qed.
Lemma copies_view : forall kd a b x, view_copy kd a x -> view_copy kd b x -> view_agree kd a b.
Proof.
  intros kd a b x [A1 A2 A3 A4] [B1 B2 B3 B4]. split; [congruence|]. split; [congruence|].
  split; [intros Hk; rewrite <- (A3 Hk); now apply B3|]. intros Ha Hb idx Hi.
  assert (Hi' : in_bounds idx (v_ext b)) by congruence.
  destruct (A4 Ha idx Hi) as (u & y & Hu & Hy & Hc). destruct (B4 Hb idx Hi') as (u' & y' & Hu' & Hy' & Hc').
  exists u, u'. repeat split; auto. rewrite Hy in Hy'. injection Hy' as <-. eapply copies_same; eauto.
Qed.

Lemma copies_agree : forall E span K f k a b x, kheld E span K f k a -> kheld E span K f k b ->
  kcopy k a x -> kcopy k b x -> kagree k a b.
Proof.
  intros E span K f.
  induction k as [t|vt|vt|n t|n kt vt|n ms IH|n k IH|n k IH|n k IH] using kty_rec'; intros a b x Ha Hb Hca Hcb;
    destruct a, x; try contradiction; destruct b; try contradiction; cbn [kcopy kagree kheld] in *.
  - eapply copies_same; eauto.
  - destruct Hca, Hcb. eapply copies_view; eauto.
  - destruct Hca as (A1 & A2), Hcb as (B1 & B2).
    destruct Ha as [->|(La & _)], Hb as [->|(Lb & _)].
    + split; auto. discriminate.
    + rewrite (A2 eq_refl) in B1. destruct (B1 Lb) as (_ & H). discriminate.
    + rewrite (B2 eq_refl) in A1. destruct (A1 La) as (_ & H). discriminate.
    + split; [congruence|]. intros _. destruct (A1 La), (B1 Lb). eapply copies_view; eauto.
  - destruct Hca as (A1 & A2 & A3), Hcb as (B1 & B2 & B3). split; [congruence|]. split; [congruence|].
    eapply copies_list; eauto.
  - destruct Hca as (la & Pa & Fa), Hcb as (lb & Pb & Fb).
    assert (Fb' : Forall2 (fun s' s => copy_of (s_key s) (s_key s') /\ copy_of (s_val s) (s_val s')) lb (occupied mp1)).
    { clear - Fb. induction Fb; constructor; auto. }
    destruct (Permutation_Forall2 (Permutation_trans Pb (Permutation_sym Pa)) Fb') as (l & Pl & Fl).
    exists l. split; [now apply Permutation_sym|]. clear - Fa Fl. revert l Fl.
    induction Fa as [|s s' l1 l2 (H1 & H2) Fa IH]; intros l Fl; inversion Fl as [|? u ? ? (H3 & H4)]; subst;
      constructor; auto. split; eapply copies_same; eauto.
  - revert members members0 members1 Ha Hb Hca Hcb.
    induction IH as [|k ms Hk _ IHl]; intros [|a la] [|x lx] [|b lb] Ha Hb Hca Hcb; try contradiction; auto.
    destruct Ha as (Ha & Ha'), Hb as (Hb & Hb'), Hca as (Hca & Hca'), Hcb as (Hcb & Hcb').
    split; [exact (Hk a b x Ha Hb Hca Hcb)|exact (IHl la lx lb Ha' Hb' Hca' Hcb')].
  - destruct Ha as (Ha & _), Hb as (Hb & _), Hca as (_ & Hca), Hcb as (_ & Hcb).
    revert elems1 Hb Hcb. induction Hca as [|a x la lx Hax Hca IHl]; intros lb Hb Hcb; inversion Hcb; subst;
      constructor; inversion Ha; inversion Hb; subst; eauto.
  - destruct o as [a|], o0 as [x|]; try contradiction; destruct o1 as [b|]; try contradiction; eauto.
  - destruct o as [a|], o0 as [x|]; try contradiction; destruct o1 as [b|]; try contradiction; eauto.
Qed.

Lemma obj_prefix : forall E span K f k v1 v2 w b1 b2 a1 a2, wf_env any E -> wf_span span -> span [] [] = 1 ->
  wf_kokkos K -> (2 < f)%nat -> (forall t, k <> KVal t) -> kty_ok E k ->
  kheld E span K f k v1 -> kheld E span K f k v2 -> over E k v1 w -> over E k v2 w ->
  stream_member E span K f k v1 = Ok (b1, v1) -> stream_member E span K f k v2 = Ok (b2, v2) ->
  b1 ++ a1 = b2 ++ a2 ->
  b1 = b2 /\ a1 = a2 /\ kagree k v1 v2.
Proof.
  intros E span K f k v1 v2 w b1 b2 a1 a2 wf Hs H0 wk Hf Hk Ht H1 H2 O1 O2 W1 W2 He.
  destruct (member_round_trip E span K f k v1) as (c1 & (C1 & _) & R1); auto.
  destruct (member_round_trip E span K f k v2) as (c2 & (C2 & _) & R2); auto.
  rewrite W1 in C1. rewrite W2 in C2. injection C1 as <-. injection C2 as <-.
  destruct (R1 w O1) as (x1 & X1 & D1). destruct (R2 w O2) as (x2 & X2 & D2).
  pose proof (D1 [] a1) as G1. pose proof (D2 [] a2) as G2. cbn [app length] in G1, G2.
  rewrite He in G1. rewrite G1 in G2. injection G2 as Gx Gl. subst x2.
  assert (Hl : length b1 = length b2) by (unfold len in Gl; lia).
  assert (Hb : b1 = b2).
  { rewrite <- (firstn_all b1), <- (firstn_all b2), Hl.
    transitivity (firstn (length b2) (b1 ++ a1)).
    - rewrite firstn_app, Hl, Nat.sub_diag, firstn_O, app_nil_r. reflexivity.
    - rewrite He, firstn_app, Nat.sub_diag, firstn_O, app_nil_r. reflexivity. }
  subst b2. split; auto. split; [now apply app_inv_head in He|].
  eapply copies_agree; eauto.
Qed.
