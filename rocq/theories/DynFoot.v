(** Footprints of views of dynamic rank and of dynamic size. *)
From Coq Require Import List NArith Arith Bool Lia.
From Coq.Strings Require Import Byte.
From Verif Require Import Base Syntax Prog Serializers Traverse Spec ProgFacts EnvFacts ValFacts
  Fails RegistryFacts Pack ApiFacts Foot Views ViewSpec ViewFacts ViewRound DynViews Crs CrsSpec CrsFoot.
Import ListNotations.
Local Open Scope N_scope.

(** Label, rank, layout, number of elements; two flags unless it was never allocated. *)
Definition dyn_header (E : env) (vt : vty) (v : view) : N :=
  szof E TString + len (v_label v) + 4 + match vt_kind vt with LStride => 128 | _ => 64 end + 8 +
  (if v_live v then 2 else 0).

(** Label and three sizes. *)
Definition dynamic_header (E : env) (v : dview) : N := szof E TString + len (d_label v) + 24.

Section Foot.
Variable E : env.
Hypothesis wf : wf_env any E.
Variable span : list N -> list N -> N.
Hypothesis Hspan0 : span [] [] = 1.
Variable f : nat.
Hypothesis Hf : (2 < f)%nat.
Notation m := MFootprinting.
Notation rec := (with_ E m f).
Let R := proj1 (foot_all any E wf f).

Lemma f_dyn_view : forall vt v l ns, dyn_ok E span vt f v ->
  is_virtual E (vt_elem vt) = false -> stored span vt v l -> Forall2 (takes E (vt_elem vt)) l ns ->
  tallies (ser_dyn_view E span m rec vt v) false v false (dyn_header E vt v + total ns).
Proof.
  intros vt v l ns Hok Hv Hst Hns. unfold ser_dyn_view, dyn_header. cbn [is_unpacking].
  assert (Hlay : layout64 (vt_kind vt) (layout_of v)).
  { destruct Hok as [->|(_ & Hok & _)]; [apply layout_no_view|].
    exact (layout_of_64 _ _ _ _ _ Hok). }
  assert (Hrk : N.of_nat (length (v_ext v)) < 256 ^ N.of_nat 4).
  { destruct Hok as [->|(_ & _ & H7 & _)]; [reflexivity|].
    apply N.le_lt_trans with 7; [lia|reflexivity]. }
  assert (Hsz : dyn_size v < two64).
  { destruct Hok as [->|(Hl & Hok & _)]; [reflexivity|]. unfold dyn_size. rewrite Hl.
    exact (vo_size _ _ _ _ _ Hok). }
  eapply tallies_eq.
  - eapply tallies_bind; [apply (f_label E wf f Hf)|].
    eapply tallies_bind; [apply (f_word E wf f Hf 2 4); exact Hrk|].
    eapply tallies_bind; [now apply (f_layout E wf f Hf)|].
    eapply tallies_bind; [apply (f_word E wf f Hf 0 8); exact Hsz|].
    eapply tallies_bind; [apply tallies_ret|].
    instantiate (1 := (if v_live v then 2 else 0) + total ns).
    destruct Hok as [->|(Hl & Hok & H7 & _)].
    + unfold stored in Hst. cbn [v_live no_view] in Hst. subst l. inversion Hns; subst. apply tallies_ret.
    + rewrite (dims_pos v Hl), Hl. destruct Hok.
      eapply tallies_eq.
      * eapply tallies_bind; [apply (f_bool E wf f Hf)|]. eapply tallies_bind; [apply (f_bool E wf f Hf)|].
        instantiate (1 := total ns). cbn match.
        unfold stored in Hst. rewrite Hl in Hst.
        destruct (vo_live Hl) as (Hmem & Hcon & Hel).
        destruct (contiguous span (vt_kind vt) v) eqn:Hc.
        -- subst l. unfold ser_data, dyn_size. rewrite Hl.
           destruct (N.ltb_spec (len (v_data v)) (prod (v_ext v))); [specialize (Hcon Hc); lia|].
           eapply tallies_eq; [eapply tallies_bind; [apply (f_array E rec f R)|]|].
           ++ unfold visited. rewrite Hv. exact Hns.
           ++ apply Forall_firstn'. eapply Forall_impl; [|exact Hel]. intros x (_ & Hx). exact Hx.
           ++ cbn beta. rewrite firstn_skipn. destruct v. apply tallies_ret.
           ++ f_equal. lia.
        -- rewrite Nnat.Nat2N.id. cbn zeta. rewrite (traverse_range span Hspan0 f Hf vt) by auto.
           destruct Hst as (L & HL & HF). rewrite (row_major_unique _ _ HL) in HF.
           assert (l = elements v) as ->.
           { pose proof (elements_at v Hmem) as Hat. revert HF Hat. generalize (indices (v_ext v)) (elements v).
             clear. intros L. revert l. induction L; intros l l' H1 H2; inversion H1; inversion H2; subst; f_equal; [congruence|eauto]. }
           apply (f_traverse E wf f); auto; try lia.
           rewrite Forall_forall in *. intros x Hx. apply (Hel x). now apply elements_in.
      * f_equal. lia.
  - f_equal. change (N.of_nat 4) with 4. change (N.of_nat 8) with 8. lia.
Qed.

Lemma f_dynamic_view : forall t v ns, dview_ok E t f v -> Forall2 (takes E t) (d_elems v) ns ->
  tallies (ser_dynamic_view E m rec t v) false v false (dynamic_header E v + total ns).
Proof.
  clear Hspan0 span.
  intros t v ns Hok Hns. pose proof (size64 E f Hf t v Hok) as H64. destruct Hok.
  unfold ser_dynamic_view, dynamic_header. cbn [is_unpacking].
  eapply tallies_eq.
  - eapply tallies_bind; [apply (f_label E wf f Hf)|].
    eapply tallies_bind; [apply (f_word E wf f Hf 0 8); exact do_chunk64|].
    eapply tallies_bind; [apply (f_word E wf f Hf 0 8); exact do_alloc64|].
    eapply tallies_bind; [apply (f_word E wf f Hf 0 8); exact H64|].
    eapply tallies_bind; [apply tallies_ret|].
    eapply tallies_bind with (a := as_view v) (vf1 := false) (n := total ns).
    + change (tallies (traverse_manual E m rec (length (v_ext (as_view v))) t (as_view v)) false
        (as_view v) false (total ns)).
      apply (f_traverse E wf f Hf).
      * cbn. lia.
      * apply as_view_memory.
      * rewrite as_view_elements. eapply Forall_impl; [|exact do_elems]. intros x (_ & Hx). exact Hx.
      * now rewrite as_view_elements.
    + cbn [as_view v_data]. rewrite dview_eta. apply tallies_ret.
  - f_equal. change (N.of_nat 8) with 8. lia.
Qed.
End Foot.
