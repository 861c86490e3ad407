(** Facts on views in device memory. *)
From Coq Require Import List NArith Arith Bool Lia.
From Coq.Strings Require Import Byte.
From Verif Require Import Base Syntax Prog Serializers Traverse Spec ProgFacts EnvFacts ValFacts
  Fails RegistryFacts Pack Unpack ApiFacts Views ViewSpec ViewFacts ViewRound Crs CrsSpec CrsFacts
  DynViews Device.
Import ListNotations.
Local Open Scope N_scope.

Section Device.
Variable E : env.
Hypothesis wf : wf_env any E.
Variable span : list N -> list N -> N.
Hypothesis Hsp : wf_span span.
Variable f : nat.
Hypothesis Hf : (2 < f)%nat.
Variable vt : vty.
Hypothesis Hman : vt_managed vt = true.
Hypothesis Hvir : is_virtual E (vt_elem vt) = false.
Variable d : val.
Hypothesis Hd : dflt E (vt_elem vt) = Some d.
Hypothesis Hdt : has_ty E (vt_elem vt) d.
Hypothesis Hdd : (depth d < f)%nat.

(** The bytes of the elements of a view of which [h] is a mirror. *)
Definition wmirror (v h : view) : bytes :=
  if contiguous span (vt_kind vt) v
  then warray E (vt_elem vt) (map (encb E (vt_elem vt)) (firstn (N.to_nat (prod (v_ext v))) (v_data h)))
  else concat (map (enc E (vt_elem vt)) (elements h)).
Definition wdevice (v h : view) : bytes :=
  wlabel E (v_label v) ++ wint E (N.of_nat (length (v_ext v))) ++ wlayout E vt (layout_of v) ++
  wsize E (prod (v_ext v)) ++ wbool E (contiguous span (vt_kind vt) v) ++ wbool E (v_live v) ++
  (if v_live v then wmirror v h else []).

Lemma shell_span : forall v, contiguous span (vt_kind vt) v = true ->
  len (v_data (shell vt span d v)) = prod (v_ext v) /\ v_str (shell vt span d v) = v_str v.
Proof.
  intros v Hc. unfold shell, len. cbn [v_data v_str]. rewrite repeat_length.
  unfold contiguous in Hc. destruct (vt_kind vt).
  - apply eqb_list_eq in Hc. split; [lia|auto].
  - apply eqb_list_eq in Hc. split; [lia|auto].
  - apply N.eqb_eq in Hc. split; [lia|auto].
Qed.

(** The elements in a mirror [h] of [v] are emitted. *)
Lemma e_mirror : forall m, m = MPacking \/ m = MSizing -> forall v h, view_ok E span vt f v ->
  same_shape (shell vt span d v) h -> view_ok E span vt f h ->
  emits (if contiguous span (vt_kind vt) v then ser_data (with_ E m f) (vt_elem vt) (prod (v_ext v)) h
         else traverse_manual E m (with_ E m f) (vt_rank vt) (vt_elem vt) h) false h false (wmirror v h).
Proof.
  intros m Hm v h Hok (S1 & S2 & S3 & S4 & S5) Hh. cbn [v_label v_ext v_str v_live shell] in *.
  destruct (vo_live _ _ _ _ _ Hh S4) as (Hmem & Hcon & Hel). unfold wmirror.
  destruct (contiguous span (vt_kind vt) v) eqn:Hc.
  - eapply e_data; eauto. destruct (shell_span v Hc) as (H1 & _). rewrite <- H1.
    unfold len. rewrite S5. lia.
  - destruct Hok. rewrite <- vo_rank, <- S2. eapply e_traverse; eauto; [rewrite S2; lia|now apply elements_at|].
    rewrite Forall_forall in *. intros x Hx. apply Hel. now apply elements_in.
Qed.

(** Copying to a mirror [nv]. *)
Lemma mirror_copy : forall v nv, view_ok E span vt f v -> v_live v = true ->
  same_shape (shell vt span d v) nv ->
  Forall (fun x => has_ty E (vt_elem vt) x /\ (depth x < f)%nat) (v_data nv) ->
  exists c, same_shape (shell vt span d v) c /\ view_ok E span vt f c /\
    (forall idx, in_bounds idx (v_ext v) -> at_ c idx = at_ v idx) /\ deep_copy nv v = Ret c.
Proof.
  intros v nv Hok Hl (N1 & N2 & N3 & N4 & N5) Hnv. pose proof Hok as Hok'. destruct Hok'.
  destruct (vo_live Hl) as (Hmem & _ & Hel).
  assert (Hlen : len (v_data nv) = len (v_data (shell vt span d v))) by (unfold len; congruence).
  destruct (deep_copy_ret (indices (v_ext v)) [] nv v) as (c & Hc & Hat & Hout & Hcp).
  - intros idx Hi. cbn [app] in Hi. apply in_indices in Hi. rewrite N3, Hlen.
    apply (shell_memory span Hsp f Hf vt d Hdd v); auto. congruence.
  - intros idx Hi. cbn [app] in Hi. apply in_indices in Hi. apply at_some. now apply Hmem.
  - intros i j Hi Hj Ho. cbn [app] in *. rewrite N3 in Ho. cbn [v_str shell] in Ho.
    destruct (vt_kind vt) eqn:Hk.
    + f_equal. apply (natural_inj LLeft (v_ext v)); auto; now apply in_indices.
    + f_equal. apply (natural_inj LRight (v_ext v)); auto; now apply in_indices.
    + unfold at_. now rewrite Ho.
  - intros idx [].
  - cbn [app] in *. exists c.
    assert (Hsh : same_shape (shell vt span d v) c).
    { destruct Hc as (C1 & C2 & C3 & C4 & C5). repeat split; congruence. }
    split; auto. split; [|split].
    + eapply shell_shape_ok; eauto.
      rewrite Forall_forall in *. intros x Hx. apply In_nth_error in Hx. destruct Hx as (k & Hx).
      destruct (in_dec N.eq_dec (N.of_nat k) (map (offset (v_str nv)) (indices (v_ext v)))) as [Hin|Hni].
      * apply in_map_iff in Hin. destruct Hin as (idx & Ho & Hi). specialize (Hat idx Hi).
        unfold at_ at 1 in Hat. destruct Hc as (_ & _ & C3 & _). rewrite C3, Ho, Nat2N.id in Hat.
        rewrite Hx in Hat. apply Hel. eapply at_in. symmetry. exact Hat.
      * rewrite Hout in Hx.
        -- apply Hnv. eapply nth_error_In; eauto.
        -- intros idx Hi Ho. apply Hni. apply in_map_iff. exists idx. split; auto. lia.
    + intros idx Hi. apply Hat. now apply in_indices.
    + exact Hcp.
Qed.

(** Packing and sizing through a mirror [nv]. *)
Lemma e_mirrored : forall m, m = MPacking \/ m = MSizing -> forall v nv, view_ok E span vt f v ->
  v_live v = true -> same_shape (shell vt span d v) nv ->
  Forall (fun x => has_ty E (vt_elem vt) x /\ (depth x < f)%nat) (v_data nv) ->
  exists h, same_shape (shell vt span d v) h /\ view_ok E span vt f h /\
    (m = MPacking -> forall idx, in_bounds idx (v_ext v) -> at_ h idx = at_ v idx) /\
    emits (ser_mirrored E m (with_ E m f) (vt_elem vt) (vt_rank vt)
             (contiguous span (vt_kind vt) v) (prod (v_ext v)) nv v) false v false (wmirror v h).
Proof.
  intros m Hm v nv Hok Hl Hnv Hty.
  assert (exists h, (same_shape (shell vt span d v) h /\ view_ok E span vt f h) /\
     (m = MPacking -> forall idx, in_bounds idx (v_ext v) -> at_ h idx = at_ v idx) /\
     (if is_packing m then deep_copy nv v else Ret nv) = Ret h)
    as (h & (H1 & H2) & H3 & H4).
  { destruct Hm as [-> | ->].
    - destruct (mirror_copy v nv Hok Hl Hnv Hty) as (c & C1 & C2 & C3 & C4).
      exists c. split; [split; assumption|]. split; auto.
    - exists nv. split; [split; [exact Hnv|]|].
      + eapply shell_shape_ok; eauto.
      + split; [discriminate|reflexivity]. }
  exists h. split; auto. split; auto. split; auto.
  unfold ser_mirrored. rewrite H4. cbn [bind].
  eapply emits_eq; [|apply app_nil_r]. eapply emits_bind; [apply e_mirror; eauto|].
  rewrite (m_unp m Hm). apply emits_ret.
Qed.

(** Unpacking through a mirror [nv]. *)
Lemma r_mirrored : forall v h nv, view_ok E span vt f v -> v_live v = true ->
  same_shape (shell vt span d v) h -> view_ok E span vt f h ->
  (forall idx, in_bounds idx (v_ext v) -> at_ h idx = at_ v idx) ->
  same_shape (shell vt span d v) nv ->
  Forall (fun y => forall x, has_ty E (vt_elem vt) x -> target Cany E (vt_elem vt) x y) (v_data nv) ->
  exists x, view_copy (vt_kind vt) v x /\
    reads (ser_mirrored E MUnpacking (with_ E MUnpacking f) (vt_elem vt) (vt_rank vt)
             (contiguous span (vt_kind vt) v) (prod (v_ext v)) nv (shell vt span d v))
      false (wmirror v h) x false.
Proof.
  intros v h nv Hok Hl Hsh Hhok Hat Hnv Hty.
  assert (exists x, view_copy (vt_kind vt) v x /\
    reads (if contiguous span (vt_kind vt) v
           then ser_data (with_ E MUnpacking f) (vt_elem vt) (prod (v_ext v)) nv
           else traverse_manual E MUnpacking (with_ E MUnpacking f) (vt_rank vt) (vt_elem vt) nv)
      false (wmirror v h) x false) as (x & Hx & Hr).
  { unfold wmirror. destruct (contiguous span (vt_kind vt) v) eqn:Hc.
    - pose proof Hsh as Hsh'. destruct Hsh' as (S1 & S2 & S3 & S4 & S5). destruct (shell_span v Hc) as (_ & Hstr).
      assert (Hs : shell vt span d h = shell vt span d v).
      { unfold shell in *. cbn [v_label v_ext v_str v_live v_data] in *. rewrite S1, S2, S3.
        destruct (vt_kind vt); auto. }
      destruct (r_body_on E wf span f Hf vt d h nv Hsp Hhok Hvir) as (x & Hx & _ & Hr); auto.
      { now rewrite Hs. }
      assert (Hch : contiguous span (vt_kind vt) h = true).
      { unfold contiguous in *. rewrite S2, S3, Hstr. exact Hc. }
      rewrite Hch in Hr. unfold wbody in Hr. rewrite S4, Hch in Hr.
      cbn [v_label v_ext v_str v_live shell] in *. rewrite S2 in Hr. exists x. split; [|exact Hr].
      destruct Hx as [X1 X2 X3 X4]. constructor; try congruence.
      + intros Hk. rewrite X3 by auto. congruence.
      + intros _ idx Hi. rewrite <- Hat by auto. apply X4; auto. now rewrite S2.
    - destruct (r_body_on E wf span f Hf vt d v nv Hsp Hok Hvir) as (x & Hx & _ & Hr); auto.
      rewrite Hc in Hr. unfold wbody in Hr. rewrite Hl, Hc in Hr. exists x. split; auto.
      destruct Hsh as (S1 & S2 & S3 & S4 & S5). cbn [v_ext shell] in S2.
      assert (He : elements h = elements v).
      { unfold elements. rewrite S2. clear -Hat.
        assert (H : forall i, In i (indices (v_ext v)) -> at_ h i = at_ v i) by (intros; apply Hat; now apply in_indices).
        induction (indices (v_ext v)) as [|i l IH]; [reflexivity|]. cbn [flat_map].
        rewrite H by now left. now rewrite IH by (intros; apply H; now right). }
      now rewrite He. }
  pose proof Hx as Hx'. destruct Hx' as [X1 X2 X3 X4].
  pose proof Hok as Hok'. destruct Hok'.
  destruct (deep_copy_ret (indices (v_ext x)) [] (shell vt span d v) x) as (y & Hy & Hay & _ & Hyc).
  - intros idx Hi. cbn [app] in Hi. rewrite X2 in Hi. apply (shell_memory span Hsp f Hf vt d Hdd v).
    + congruence.
    + now apply in_indices.
  - intros idx Hi. cbn [app] in Hi. rewrite X2 in Hi. apply in_indices in Hi.
    destruct (X4 Hl idx Hi) as (a & b & _ & Hb & _). eauto.
  - intros i j Hi Hj Ho. cbn [app v_str shell] in *. rewrite X2 in *.
    destruct (vt_kind vt) eqn:Hk.
    + f_equal. apply (natural_inj LLeft (v_ext v)); auto; now apply in_indices.
    + f_equal. apply (natural_inj LRight (v_ext v)); auto; now apply in_indices.
    + unfold at_. rewrite X3 by auto. now rewrite Ho.
  - intros idx [].
  - exists y. split.
    + destruct Hy as (Y1 & Y2 & Y3 & Y4 & Y5). cbn [v_label v_ext v_str v_live shell app] in *.
      constructor; auto.
      * intros Hk. rewrite Y3, Hk. reflexivity.
      * intros _ idx Hi. rewrite Hay; auto. rewrite X2. now apply in_indices.
    + unfold ser_mirrored. cbn [is_packing bind].
      eapply reads_eq; [|apply app_nil_r]. eapply reads_bind; [exact Hr|]. cbn [is_unpacking].
      unfold deep_copy. rewrite Hyc. apply reads_ret.
Qed.

Lemma mirror_shell : forall v, mirror E span vt v = Ret (shell vt span d v).
Proof.
  intros v. unfold mirror, new_view. rewrite Hd. cbn [of_opt bind]. unfold shell.
  destruct (vt_kind vt); reflexivity.
Qed.
Lemma shell_shell : forall v, shell vt span d (shell vt span d v) = shell vt span d v.
Proof. intros v. unfold shell. cbn [v_label v_ext v_str v_live v_data]. destruct (vt_kind vt); reflexivity. Qed.

Lemma e_device : forall m, m = MPacking \/ m = MSizing -> forall v, view_ok E span vt f v ->
  exists h, (v_live v = true -> same_shape (shell vt span d v) h /\ view_ok E span vt f h) /\
    (m = MPacking -> v_live v = true -> forall idx, in_bounds idx (v_ext v) -> at_ h idx = at_ v idx) /\
    emits (ser_device_view E span m (with_ E m f) vt v) false v false (wdevice v h).
Proof.
  intros m Hm v Hok.
  assert (exists h, v_live v = true ->
     (same_shape (shell vt span d v) h /\ view_ok E span vt f h) /\
     (m = MPacking -> forall idx, in_bounds idx (v_ext v) -> at_ h idx = at_ v idx) /\
     emits (ser_mirrored E m (with_ E m f) (vt_elem vt) (vt_rank vt)
             (contiguous span (vt_kind vt) v) (prod (v_ext v)) (shell vt span d v) v) false v false (wmirror v h))
    as (h & Hh).
  { destruct (v_live v) eqn:Hl; [|exists v; discriminate].
    destruct (e_mirrored m Hm v (shell vt span d v) Hok Hl) as (h & H1 & H2 & H3 & H4).
    - repeat split; auto.
    - apply (shell_data E span f vt d Hdt Hdd).
    - exists h. intros _. split; [split; assumption|]. split; assumption. }
  exists h. split; [intros Hl; apply (Hh Hl)|]. split; [intros Hp Hl; apply (Hh Hl); auto|].
  pose proof (proj1 (pack_all any E wf m Hm f)) as P.
  assert (Hf1 : (1 < f)%nat) by lia.
  pose proof (layout_of_64 _ _ _ _ _ Hok) as Hlay. pose proof Hok as Hok'. destruct Hok'.
  unfold ser_device_view, wdevice. rewrite (m_unp m Hm).
  eapply emits_eq; [|apply app_nil_l].
  eapply emits_bind with (a := tt) (vf1 := false).
  { rewrite Hman. destruct (asserts E); apply emits_ret. }
  eapply emits_bind; [eapply e_label; eauto|].
  eapply emits_bind; [apply (p_ser_int E _ f P); auto; rewrite vo_rank; lia|].
  eapply emits_bind; [eapply e_layout; eauto|].
  eapply emits_eq; [|apply app_nil_l]. eapply emits_bind; [apply emits_ret|].
  eapply emits_bind; [apply (p_ser_size E _ f P); auto|].
  eapply emits_bind; [apply (p_ser_bool E _ f P); auto|].
  eapply emits_bind; [apply (p_ser_bool E _ f P); auto|].
  destruct (v_live v) eqn:Hl; [|apply emits_ret].
  rewrite mirror_shell. cbn [bind]. now apply Hh.
Qed.

Lemma r_device : forall v h, view_ok E span vt f v ->
  (v_live v = true -> same_shape (shell vt span d v) h /\ view_ok E span vt f h) ->
  (v_live v = true -> forall idx, in_bounds idx (v_ext v) -> at_ h idx = at_ v idx) ->
  forall w, exists x, view_copy (vt_kind vt) v x /\
    reads (ser_device_view E span MUnpacking (with_ E MUnpacking f) vt w) false (wdevice v h) x false.
Proof.
  intros v h Hok Hh Hat w.
  assert (exists x, view_copy (vt_kind vt) v x /\
    reads (if v_live v
           then bind (mirror E span vt (shell vt span d v)) (fun h0 =>
                  ser_mirrored E MUnpacking (with_ E MUnpacking f) (vt_elem vt) (vt_rank vt)
                    (contiguous span (vt_kind vt) v) (prod (v_ext v)) h0 (shell vt span d v))
           else Ret (shell vt span d v)) false (if v_live v then wmirror v h else []) x false)
    as (x & Hx & Hr).
  { destruct (v_live v) eqn:Hl.
    - destruct (Hh eq_refl) as (Hsh & Hhok). specialize (Hat eq_refl).
      destruct (r_mirrored v h (shell vt span d v) Hok Hl Hsh Hhok Hat) as (x & Hx & Hr).
      + repeat split; auto.
      + apply Forall_forall. intros y Hy x Hx. apply repeat_spec in Hy. subst y.
        eapply (dflt_tgt any E wf Cany Cany_any); eauto.
      + exists x. split; auto. rewrite mirror_shell, shell_shell. exact Hr.
    - exists (shell vt span d v). split; [|apply reads_ret]. constructor; auto.
      + intros Hk. unfold shell. cbn [v_str]. now rewrite Hk.
      + congruence. }
  exists x. split; auto. pose proof (layout_of_64 _ _ _ _ _ Hok) as Hlay.
  pose proof Hok as Hok'. destruct Hok'.
  pose proof (proj1 (unpack_all any E wf Cany N.le Cany_any Cany_max f)) as U.
  assert (Hf1 : (1 <= f)%nat) by lia.
  unfold ser_device_view, wdevice. cbn [is_unpacking].
  eapply reads_eq; [|apply app_nil_l].
  eapply reads_bind with (a := tt) (vf1 := false).
  { rewrite Hman. destruct (asserts E); apply reads_ret. }
  eapply reads_bind; [now apply (r_label E wf f)|].
  eapply reads_bind; [apply (u_int E Cany N.le _ f U); auto; rewrite vo_rank; lia|].
  eapply reads_bind; [now apply (r_layout E wf f)|].
  eapply reads_eq; [|apply app_nil_l].
  eapply reads_bind with (a := shell vt span d v) (vf1 := false).
  { unfold layout_of. cbn [fst snd]. rewrite pad8_firstn by auto.
    pose proof (r_new_shell E span vt d v false Hd) as Hn. rewrite vo_rank in Hn.
    destruct (vt_kind vt); auto. now rewrite pad8_firstn by auto. }
  eapply reads_bind; [apply (u_size E Cany N.le _ f U); auto|].
  eapply reads_bind; [apply (u_bool E Cany N.le _ f U); auto|].
  eapply reads_bind; [apply (u_bool E Cany N.le _ f U); auto|].
  exact Hr.
Qed.

(** Sizing and packing agree when all elements take the same space. *)
Lemma len_device : forall v h h', view_ok E span vt f v -> fixed_size E (vt_elem vt) ->
  (v_live v = true -> same_shape (shell vt span d v) h /\ view_ok E span vt f h) ->
  (v_live v = true -> same_shape (shell vt span d v) h' /\ view_ok E span vt f h') ->
  len (wdevice v h) = len (wdevice v h').
Proof.
  intros v h h' Hok Hfix Hh Hh'. unfold wdevice. rewrite !len_app. do 6 f_equal.
  destruct (v_live v) eqn:Hl; [|reflexivity].
  destruct (Hh eq_refl) as (Hsh & Ho). destruct (Hh' eq_refl) as (Hsh' & Ho').
  assert (Hw : len (wview E span vt h) = len (wview E span vt h')).
  { eapply len_wview; eauto. destruct Hsh as (A1 & A2 & A3 & A4 & A5), Hsh' as (B1 & B2 & B3 & B4 & B5).
    repeat split; congruence. }
  unfold wmirror.
  destruct (vo_live _ _ _ _ _ Ho) as (Hm1 & Hc1 & Hel1); [apply Hsh|].
  destruct (vo_live _ _ _ _ _ Ho') as (Hm2 & Hc2 & Hel2); [apply Hsh'|].
  destruct Hsh as (A1 & A2 & A3 & A4 & A5), Hsh' as (B1 & B2 & B3 & B4 & B5).
  destruct (contiguous span (vt_kind vt) v).
  - set (a := firstn _ (v_data h)). set (b := firstn _ (v_data h')).
    assert (Hab : Forall2 (fun x y => len (encb E (vt_elem vt) x) = len (encb E (vt_elem vt) y)) a b).
    { apply Forall2_all with (P := has_ty E (vt_elem vt)) (Q := has_ty E (vt_elem vt)).
      - apply Hfix.
      - unfold a, b. rewrite !firstn_length. congruence.
      - apply Forall_firstn'. eapply Forall_impl; [|exact Hel1]. intros x (Hx & _). exact Hx.
      - apply Forall_firstn'. eapply Forall_impl; [|exact Hel2]. intros x (Hx & _). exact Hx. }
    apply (Forall2_map2 _ _ (encb E (vt_elem vt)) (fun x y => len x = len y)) in Hab.
    unfold warray. inversion Hab as [|p q lp lq Hpq Hl2 Hep Heq]; auto.
    pose proof (Forall2_length _ _ _ _ _ Hl2) as Hll. cbn [length]. rewrite Hll.
    apply len_framed. apply len_concat. constructor; auto.
  - apply len_concat.
    apply (Forall2_map2 _ _ (enc E (vt_elem vt)) (fun x y => len x = len y)).
    apply Forall2_all with (P := has_ty E (vt_elem vt)) (Q := has_ty E (vt_elem vt)).
    + intros x y Hx Hy. unfold enc. now apply len_framed, Hfix.
    + rewrite <- (Forall2_length _ _ _ _ _ (elements_at h Hm1)),
        <- (Forall2_length _ _ _ _ _ (elements_at h' Hm2)). now rewrite A2, B2.
    + rewrite Forall_forall in *. intros x Hx. apply Hel1, elements_in; auto.
    + rewrite Forall_forall in *. intros x Hx. apply Hel2, elements_in; auto.
Qed.

(** What serialization does when a sizing and a packing emission are known. *)
Lemma two_passes : forall A i (ps pp : prog A) a b out' out,
  emits ps false a false out' -> emits pp false b false out ->
  stream_object ps pp = Ok (out, b) /\
  interp sizer ps false 0 = Ok (a, false, wrap64 (len out')) /\
  (len out' = len out -> len out < two64 ->
     wrap64 (len out') = len out /\ serialize_object i ps pp = Ok (out, b)) /\
  (wrap64 (len out') < len out -> len out < two64 -> serialize_object i ps pp = Err UB).
Proof.
  intros A i ps pp a b out' out Hs Hp. split; [eapply stream_emits; eauto|]. split; [|split].
  - exact (emits_sizer _ _ _ _ _ _ Hs 0).
  - intros Hle Hl. split.
    + rewrite Hle. unfold wrap64. now rewrite N.mod_small by auto.
    + exact (serialize_emits_sizes _ _ _ _ _ _ _ _ Hs Hp Hle Hl).
  - intros Hlt Hl. unfold serialize_object.
    pose proof (emits_sizer _ _ _ _ _ _ Hs 0) as H. change (wrap64 0) with 0 in H. rewrite H.
    rewrite N.add_0_l. rewrite (emits_packer_overflow _ _ _ _ _ _ Hp).
    + reflexivity.
    + cbn [p_buf p_cur]. rewrite repeat_length. revert Hlt.
      generalize (wrap64 (len out')). intros n0 Hlt. rewrite <- (len_nat _ out). lia.
    + intros He. rewrite He in Hlt. rewrite len_nil in Hlt. lia.
Qed.

(** Whether the elements are constant or not. *)
Lemma device_round : forall v, view_ok E span vt f v -> (vt_const vt = true -> readable v) ->
  exists b n, stream_device_view E span f vt v = Ok (b, v) /\
    interp sizer (root_device_view E span f MSizing vt v) false 0 = Ok (v, false, n) /\
    (fixed_size E (vt_elem vt) -> len b < two64 ->
       n = len b /\ serialize_device_view E span f vt v = Ok (b, v)) /\
    (n < len b -> len b < two64 -> serialize_device_view E span f vt v = Err UB) /\
    forall w, exists x, view_copy (vt_kind vt) v x /\ forall before after,
      deserialize_device_view E span f vt (before ++ b ++ after) (length before) w = Ok (x, len b).
Proof.
  intros v Hok Hrd. destruct (vt_const vt) eqn:Hc.
  - destruct (const_copy E span Hsp f Hf vt d Hdt Hdd v Hok (Hrd eq_refl)) as (c & Hsh & Hcok & Hat & Hem).
    pose proof (shell_ok E span Hsp f Hf vt d Hdt Hdd v Hok) as Hso.
    destruct (e_device MPacking (or_introl eq_refl) c Hcok) as (h & H1 & H2 & H3).
    destruct (e_device MSizing (or_intror eq_refl) (shell vt span d v) Hso) as (h' & H1' & _ & H3').
    assert (Hs : emits (root_device_view E span f MSizing vt v) false v false
              (wroot E (vt_name vt) (wdevice (shell vt span d v) h'))).
    { unfold root_device_view. rewrite Hc. apply e_root; [now right|]. unfold ser_device_const_view.
      eapply emits_eq; [|apply app_nil_l]. eapply emits_bind; [apply (shell_emits E span vt d Hd)|]. cbn [is_packing].
      eapply emits_eq; [|apply app_nil_l]. eapply emits_bind; [apply emits_ret|].
      eapply emits_eq; [|apply app_nil_r]. eapply emits_bind; [exact H3'|]. apply emits_ret. }
    assert (Hp : emits (root_device_view E span f MPacking vt v) false v false
              (wroot E (vt_name vt) (wdevice c h))).
    { unfold root_device_view. rewrite Hc. apply e_root; [now left|]. unfold ser_device_const_view.
      eapply emits_eq; [|apply app_nil_l]. eapply emits_bind; [apply (shell_emits E span vt d Hd)|]. cbn [is_packing].
      eapply emits_eq; [|apply app_nil_l]. eapply emits_bind; [exact Hem|].
      eapply emits_eq; [|apply app_nil_r]. eapply emits_bind; [exact H3|]. apply emits_ret. }
    destruct (two_passes _ (tix E (vt_name vt)) _ _ _ _ _ _ Hs Hp) as (T0 & T1 & T2 & T3).
    eexists _, _. split; [exact T0|]. split; [exact T1|]. split; [|split; [exact T3|]].
    + intros Hfix. apply T2. apply len_wroot.
      assert (Hsc : shell vt span d c = shell vt span d v /\ shell vt span d (shell vt span d v) = shell vt span d v).
      { destruct Hsh as (S1 & S2 & S3 & S4 & S5). unfold shell in *.
        cbn [v_label v_ext v_str v_live v_data] in *. rewrite S1, S2, S3. destruct (vt_kind vt); auto. }
      destruct Hsc as (Hs1 & Hs2).
      transitivity (len (wdevice c h')).
      * destruct Hsh as (S1 & S2 & S3 & S4 & S5). unfold wdevice, layout_of, wmirror, contiguous.
        now rewrite S1, S2, S3, S4.
      * apply len_device; auto. intros _. rewrite Hs1, <- Hs2. apply H1'. reflexivity.
    + intros w.
      destruct (r_device c h Hcok H1 (H2 eq_refl) (shell vt span d w)) as (x & Hx & Hr).
      exists x. split.
      * destruct Hx as [X1 X2 X3 X4], Hsh as (S1 & S2 & S3 & S4 & S5).
        cbn [v_label v_ext v_str v_live shell] in *. constructor; try congruence.
        -- intros Hk. rewrite X3 by auto. rewrite S3, Hk. reflexivity.
        -- intros _ idx Hi. rewrite <- Hat by auto. apply X4; auto. now rewrite S2.
      * intros before after. apply deserialize_reads. unfold root_device_view. rewrite Hc.
        apply r_root; auto. unfold ser_device_const_view.
        eapply reads_eq; [|apply app_nil_l]. eapply reads_bind; [apply (shell_reads E span vt d Hd)|]. cbn [is_packing].
        eapply reads_eq; [|apply app_nil_l]. eapply reads_bind; [apply reads_ret|].
        eapply reads_eq; [|apply app_nil_r]. eapply reads_bind; [exact Hr|]. apply reads_ret.
  - destruct (e_device MPacking (or_introl eq_refl) v Hok) as (h & H1 & H2 & H3).
    destruct (e_device MSizing (or_intror eq_refl) v Hok) as (h' & H1' & _ & H3').
    assert (Hs : emits (root_device_view E span f MSizing vt v) false v false
              (wroot E (vt_name vt) (wdevice v h'))).
    { unfold root_device_view. rewrite Hc. apply e_root; auto. }
    assert (Hp : emits (root_device_view E span f MPacking vt v) false v false
              (wroot E (vt_name vt) (wdevice v h))).
    { unfold root_device_view. rewrite Hc. apply e_root; auto. }
    destruct (two_passes _ (tix E (vt_name vt)) _ _ _ _ _ _ Hs Hp) as (T0 & T1 & T2 & T3).
    eexists _, _. split; [exact T0|]. split; [exact T1|]. split; [|split; [exact T3|]].
    + intros Hfix. apply T2. apply len_wroot. now apply len_device.
    + intros w. destruct (r_device v h Hok H1 (H2 eq_refl) w) as (x & Hx & Hr). exists x. split; auto.
      intros before after. apply deserialize_reads. unfold root_device_view. rewrite Hc.
      now apply r_root.
Qed.
End Device.

(** ** DynRankView *)

(** Byte-copyable objects all take the same space and can be overwritten in place. *)
Lemma bytes_fixed : forall E t, wf_env any E -> bytecopy E t = true -> fixed_size E t.
Proof.
  intros E t wf Hb x y Hx Hy.
  destruct (bytecopy_vb any E t x wf (HoldsTy _ _ _ Hx) Hb) as (_ & H1 & ->).
  destruct (bytecopy_vb any E t y wf (HoldsTy _ _ _ Hy) Hb) as (_ & H2 & ->). congruence.
Qed.
Lemma bytes_target : forall E t x y, wf_env any E -> bytecopy E t = true -> has_ty E t y ->
  target Cany E t x y.
Proof.
  intros E t x y wf Hb Hy.
  destruct (bytecopy_vb any E t y wf (HoldsTy _ _ _ Hy) Hb) as (He & _ & _).
  inversion Hy; subst; cbn [vb] in He; try discriminate; econstructor; eauto.
Qed.

Section DeviceRank.
Variable E : env.
Hypothesis wf : wf_env any E.
Variable span : list N -> list N -> N.
Hypothesis Hsp : wf_span span.
Hypothesis Hspan0 : span [] [] = 1.
Variable f : nat.
Hypothesis Hf : (2 < f)%nat.
Variable vt : vty.
Hypothesis Hvir : is_virtual E (vt_elem vt) = false.
Hypothesis Hbc : bytecopy E (vt_elem vt) = true.
Variable d : val.
Hypothesis Hd : dflt E (vt_elem vt) = Some d.
Hypothesis Hdt : has_ty E (vt_elem vt) d.
Hypothesis Hdd : (depth d < f)%nat.
Variable junk : nat -> val.
Hypothesis Hjunk : forall k, has_ty E (vt_elem vt) (junk k).

Notation vtr v := (at_rank vt (length (v_ext v))).

Definition wdevice_dyn (v h : view) : bytes :=
  wlabel E (v_label v) ++ framed E (TPrim 2 4) 1 (le 4 (N.of_nat (length (v_ext v)))) ++
  wlayout E vt (layout_of v) ++ wsize E (dyn_size v) ++
  if v_live v
  then wbool E (contiguous span (vt_kind vt) v) ++ wbool E true ++ wmirror E span vt v h
  else [].

(** The mirror: some values in the shape of the view. *)
Definition raw (v : view) : view :=
  with_data (shell vt span d v) (map junk (seq 0 (length (v_data (shell vt span d v))))).
Lemma raw_mirror_raw : forall v, raw_mirror E span junk vt v = Ret (raw v).
Proof.
  intros v. unfold raw_mirror, new_view. rewrite Hbc, Hd. cbn [of_opt bind]. unfold raw, shell.
  destruct (vt_kind vt); reflexivity.
Qed.
Lemma raw_shape : forall v, same_shape (shell (vtr v) span d v) (raw v).
Proof.
  intros v. unfold raw. repeat split; auto. cbn [with_data v_data]. now rewrite map_length, seq_length.
Qed.
Lemma raw_data : forall v,
  Forall (fun x => has_ty E (vt_elem vt) x /\ (depth x < f)%nat) (v_data (raw v)).
Proof.
  intros v. apply Forall_forall. intros x Hx. cbn [raw with_data v_data] in Hx.
  apply in_map_iff in Hx. destruct Hx as (k & <- & _). split; auto.
  destruct (bytecopy_vb any E _ _ wf (HoldsTy _ _ _ (Hjunk k)) Hbc) as (-> & _). cbn [depth]. lia.
Qed.

Lemma e_device_dyn : forall m, m = MPacking \/ m = MSizing -> forall v, dyn_ok E span vt f v ->
  exists h, (v_live v = true -> same_shape (shell (vtr v) span d v) h /\ view_ok E span (vtr v) f h) /\
    (m = MPacking -> v_live v = true -> forall idx, in_bounds idx (v_ext v) -> at_ h idx = at_ v idx) /\
    emits (ser_device_dyn_view E span m (with_ E m f) junk vt v) false v false (wdevice_dyn v h).
Proof.
  intros m Hm v Hok. pose proof (proj1 (pack_all any E wf m Hm f)) as P.
  assert (Hf1 : (1 < f)%nat) by lia.
  destruct Hok as [->|(Hl & Hok & H7 & Hnd)].
  - exists no_view. split; [discriminate|]. split; [discriminate|].
    unfold ser_device_dyn_view, wdevice_dyn. rewrite (m_unp m Hm).
    eapply emits_bind; [now apply (e_label any E wf m Hm f Hf)|].
    eapply emits_bind; [apply (p_ser_word E _ f P); auto; reflexivity|].
    eapply emits_bind; [apply (e_layout any E wf m Hm f Hf), layout_no_view|].
    eapply emits_bind; [apply (p_ser_size E _ f P); auto; reflexivity|].
    cbn [dyn_size no_view v_live v_ext length N.of_nat N.eqb andb bind]. apply emits_ret.
  - destruct (e_mirrored E wf span Hsp f Hf (vtr v) Hvir d Hdd m Hm v (raw v) Hok Hl
      (raw_shape v) (raw_data v)) as (h & H1 & H2 & H3 & H4).
    exists h. split; [split; assumption|]. split; [auto|].
    pose proof (layout_of_64 _ _ _ _ _ Hok) as Hlay. destruct Hok. cbn [at_rank vt_rank vt_kind vt_elem] in *.
    unfold ser_device_dyn_view, wdevice_dyn. rewrite (m_unp m Hm).
    eapply emits_bind; [now apply (e_label any E wf m Hm f Hf)|].
    eapply emits_bind; [apply (p_ser_word E _ f P); auto; change (256 ^ N.of_nat 4) with (2 ^ 32); lia|].
    eapply emits_bind; [now apply (e_layout any E wf m Hm f Hf)|].
    eapply emits_bind; [apply (p_ser_size E _ f P); auto; unfold dyn_size; rewrite Hl; auto|].
    cbn zeta. rewrite (dims_pos v Hl). cbn [bind]. rewrite Hl.
    eapply emits_bind; [apply (p_ser_bool E _ f P); auto|].
    eapply emits_bind; [apply (p_ser_bool E _ f P); auto|].
    rewrite raw_mirror_raw. cbn [bind]. rewrite Nat2N.id.
    assert (Hb : (contiguous span (vt_kind vt) v ||
                  Nat.leb 1 (length (v_ext v)) && Nat.leb (length (v_ext v)) 7)%bool = true).
    { destruct (contiguous span (vt_kind vt) v) eqn:Hc; [reflexivity|].
      eapply traverse_range; eauto. }
    rewrite Hb. replace (dyn_size v) with (prod (v_ext v)) by (unfold dyn_size; now rewrite Hl).
    exact H4.
Qed.

Lemma r_device_dyn : forall v h, dyn_ok E span vt f v ->
  (v_live v = true -> same_shape (shell (vtr v) span d v) h /\ view_ok E span (vtr v) f h) ->
  (v_live v = true -> forall idx, in_bounds idx (v_ext v) -> at_ h idx = at_ v idx) ->
  forall w, exists x, (v_live v = true -> view_copy (vt_kind vt) v x) /\ (v = no_view -> x = no_view) /\
    reads (ser_device_dyn_view E span MUnpacking (with_ E MUnpacking f) junk vt w) false
      (wdevice_dyn v h) x false.
Proof.
  intros v h Hok Hh Hat w.
  pose proof (proj1 (unpack_all any E wf Cany N.le Cany_any Cany_max f)) as U.
  unfold ser_device_dyn_view, wdevice_dyn. cbn [is_unpacking].
  assert (Hf1 : (1 <= f)%nat) by lia.
  destruct Hok as [->|(Hl & Hok & H7 & Hnd)].
  - exists no_view. split; [discriminate|]. split; auto.
    eapply reads_bind; [now apply (r_label E wf f Hf)|].
    eapply reads_bind; [apply (u_word E Cany N.le _ f U); auto; reflexivity|].
    eapply reads_bind; [apply (r_layout E wf f Hf), layout_no_view|].
    eapply reads_bind; [apply (u_size E Cany N.le _ f U); auto; reflexivity|].
    cbn [dyn_size no_view v_live v_ext length N.of_nat N.eqb andb bind]. apply reads_ret.
  - destruct (Hh Hl) as (Hsh & Hhok). specialize (Hat Hl).
    destruct (r_mirrored E wf span Hsp f Hf (vtr v) Hvir d Hd Hdd v h (raw v) Hok Hl Hsh Hhok Hat
      (raw_shape v)) as (x & Hx & Hr).
    { eapply Forall_impl; [|exact (raw_data v)]. intros y (Hy & _) x _. now apply bytes_target. }
    exists x. split; auto. split; [intros ->; discriminate|].
    pose proof (layout_of_64 _ _ _ _ _ Hok) as Hlay. destruct Hok.
    cbn [at_rank vt_rank vt_kind vt_elem] in *.
    eapply reads_bind; [now apply (r_label E wf f Hf)|].
    eapply reads_bind; [apply (u_word E Cany N.le _ f U); auto; change (256 ^ N.of_nat 4) with (2 ^ 32); lia|].
    eapply reads_bind; [now apply (r_layout E wf f Hf)|].
    eapply reads_bind; [apply (u_size E Cany N.le _ f U); auto; unfold dyn_size; rewrite Hl; auto|].
    cbn zeta. rewrite (dims_pos v Hl).
    eapply reads_eq; [|apply app_nil_l].
    eapply reads_bind with (a := shell vt span d v) (vf1 := false).
    { unfold layout_of. cbn [fst snd]. rewrite valid_dims_pad by auto.
      pose proof (r_new_shell E span vt d v false Hd) as Hn.
      destruct (vt_kind vt); auto. now rewrite pad8_firstn by auto. }
    rewrite Hl.
    eapply reads_bind; [apply (u_bool E Cany N.le _ f U); auto|].
    eapply reads_bind; [apply (u_bool E Cany N.le _ f U); auto|].
    rewrite raw_mirror_raw. cbn [bind]. rewrite Nat2N.id.
    assert (Hb : (contiguous span (vt_kind vt) v ||
                  Nat.leb 1 (length (v_ext v)) && Nat.leb (length (v_ext v)) 7)%bool = true).
    { destruct (contiguous span (vt_kind vt) v) eqn:Hc; [reflexivity|].
      eapply traverse_range; eauto. }
    rewrite Hb. replace (dyn_size v) with (prod (v_ext v)) by (unfold dyn_size; now rewrite Hl).
    assert (Hrr : raw (shell vt span d v) = raw v).
    { unfold raw. now rewrite shell_shell. }
    rewrite Hrr. exact Hr.
Qed.

Lemma device_dyn_round : forall v, dyn_ok E span vt f v ->
  exists b, (stream_device_dyn_view E span junk f vt v = Ok (b, v) /\
     (len b < two64 -> serialize_device_dyn_view E span junk f vt v = Ok (b, v))) /\
    forall w, exists x, (v_live v = true -> view_copy (vt_kind vt) v x) /\ (v = no_view -> x = no_view) /\
      forall before after,
      deserialize_device_dyn_view E span junk f vt (before ++ b ++ after) (length before) w = Ok (x, len b).
Proof.
  intros v Hok.
  destruct (e_device_dyn MPacking (or_introl eq_refl) v Hok) as (h & H1 & H2 & H3).
  destruct (e_device_dyn MSizing (or_intror eq_refl) v Hok) as (h' & H1' & _ & H3').
  exists (wroot E (vt_name vt) (wdevice_dyn v h)). split.
  - unfold stream_device_dyn_view, serialize_device_dyn_view, root_device_dyn_view.
    refine (both_ways _ _ _ _ _ _ _ _
      (e_root E MSizing (or_intror eq_refl) _ _ _ _ _ H3')
      (e_root E MPacking (or_introl eq_refl) _ _ _ _ _ H3) _).
    apply len_wroot. unfold wdevice_dyn. rewrite !len_app. do 4 f_equal.
    destruct (v_live v) eqn:Hlv; [|reflexivity]. rewrite !len_app. do 2 f_equal.
    destruct Hok as [->|(_ & Hok & H7 & Hnd)]; [discriminate|].
    assert (Hw : len (wdevice E span (vtr v) v h') = len (wdevice E span (vtr v) v h)).
    { apply len_device with (f := f) (d := d); auto. now apply bytes_fixed. }
    unfold wdevice in Hw. rewrite Hlv in Hw. rewrite !len_app in Hw.
    change (wmirror E span (vtr v) v h) with (wmirror E span vt v h) in Hw.
    change (wmirror E span (vtr v) v h') with (wmirror E span vt v h') in Hw. lia.
  - intros w. destruct (r_device_dyn v h Hok H1 (H2 eq_refl) w) as (x & X1 & X2 & Hr).
    exists x. split; auto. split; auto. intros before after. apply deserialize_reads.
    unfold root_device_dyn_view. now apply r_root.
Qed.
End DeviceRank.
