(** Footprints of Kokkos views. *)
From Coq Require Import List NArith Arith Bool Lia.
From Coq.Strings Require Import Byte.
From Verif Require Import Base Syntax Prog Serializers Traverse Spec ProgFacts EnvFacts ValFacts
  Fails RegistryFacts Pack ApiFacts Foot Views ViewSpec ViewFacts ViewRound Crs CrsSpec.
Import ListNotations.
Local Open Scope N_scope.

Lemma tallies_foldP_fix : forall A B (f : B -> A -> prog B) b l ns,
  Forall2 (fun a n => tallies (f b a) false b false n) l ns ->
  tallies (foldP f l b) false b false (total ns).
Proof.
  intros A B f b l ns H. induction H; cbn [foldP total fold_right]; [apply tallies_ret|].
  eapply tallies_bind; eauto.
Qed.

Lemma tallies_peq : forall A (p q : prog A) vf a vf' n, peq p q ->
  tallies q vf a vf' n -> tallies p vf a vf' n.
Proof. intros A p q vf a vf' n Hp Hq s Hs. rewrite (Hp footprinter). now apply Hq. Qed.

Section Foot.
Variable E : env.
Hypothesis wf : wf_env any E.
Variable span : list N -> list N -> N.
Variable f : nat.
Hypothesis Hf : (2 < f)%nat.
Notation m := MFootprinting.
Notation rec := (with_ E m f).
Let R := proj1 (foot_all any E wf f).

Lemma f_word : forall id sz x, x < 256 ^ N.of_nat sz ->
  tallies (ser_word rec id sz x) false x false (N.of_nat sz).
Proof.
  intros id sz x Hx. unfold ser_word. eapply tallies_eq.
  - eapply tallies_bind; [apply (f_prim E rec f R); [apply le_length|lia]|].
    cbn beta iota. rewrite unle_le by auto. apply tallies_ret.
  - f_equal. lia.
Qed.
Lemma f_bool : forall b, tallies (ser_bool rec b) false b false 1.
Proof.
  intros b. unfold ser_bool. eapply tallies_eq.
  - eapply tallies_bind; [apply f_word; destruct b; reflexivity|].
    destruct b; apply tallies_ret.
  - reflexivity.
Qed.
Lemma f_sizes : forall l, Forall (fun x => x < two64) l ->
  tallies (mapP (ser_size rec) l) false l false (8 * len l).
Proof.
  intros l H. eapply tallies_eq; [apply tallies_mapP with (ns := repeat 8 (length l))|].
  - induction H; cbn [length repeat]; constructor; auto. now apply (f_word 0 8).
  - f_equal. unfold len. induction (length l); auto. cbn [repeat total fold_right].
    unfold total in IHn. rewrite IHn. lia.
Qed.

Lemma f_object : forall A t (p : prog A) a n, tallies p false a false n ->
  tallies (as_object E m t p) false a false n.
Proof. intros. unfold as_object. now apply tallies_framed. Qed.
Lemma f_root : forall A t (p : prog A) a n, tallies p false a false n ->
  tallies (root_object E m t p) false a false n.
Proof.
  intros A t p a n H. unfold root_object. destruct (chk E); [now apply f_object|].
  cbn [with_type_idx with_mem_used bind].
  eapply tallies_eq; [eapply tallies_bind; [exact H|apply tallies_ret]|]. now rewrite N.add_0_r.
Qed.

Lemma f_label : forall b, tallies (ser_label rec b) false b false (szof E TString + len b).
Proof.
  intros b. unfold ser_label. eapply tallies_eq.
  - eapply tallies_bind; [apply (f_ser E rec f R)|].
    + constructor. apply N.le_refl.
    + cbn; lia.
    + cbn beta iota. apply tallies_ret.
  - f_equal. lia.
Qed.

Lemma f_layout : forall vt l, layout64 (vt_kind vt) l ->
  tallies (as_object E m (vt_layout_name vt) (ser_layout rec (vt_kind vt) l)) false l false
    match vt_kind vt with LStride => 128 | _ => 64 end.
Proof.
  intros vt [ds ss] (H1 & H2 & H3 & H4). cbn [fst snd] in *. apply f_object. unfold ser_layout. cbn [fst snd].
  assert (HLR : tallies (bind (mapP (ser_size rec) ds) (fun ds => Ret (ds, ss))) false (ds, ss) false 64).
  { eapply tallies_eq; [eapply tallies_bind; [now apply f_sizes|apply tallies_ret]|].
    unfold len. rewrite H1. reflexivity. }
  destruct (vt_kind vt); auto. specialize (H4 eq_refl). rewrite Forall_forall in H3, H4.
  eapply tallies_eq.
  - eapply tallies_bind with (a := combine ds ss); [apply tallies_mapP with (ns := repeat 16 8)|].
    + assert (K : forall l n, length l = n -> (forall p, In p l -> fst p < two64 /\ snd p < two64) ->
        Forall2 (fun p n => tallies (bind (ser_size rec (fst p)) (fun d =>
                                     bind (ser_size rec (snd p)) (fun s => Ret (d, s)))) false p false n)
          l (repeat 16 n)).
      { induction l as [|[d s] l IH]; intros n <- Hb; cbn [length repeat]; constructor.
        - destruct (Hb (d, s) (or_introl eq_refl)) as (Hd & Hs). cbn [fst snd] in *.
          eapply tallies_eq; [eapply tallies_bind; [apply (f_word 0 8); exact Hd|]; cbn beta;
            eapply tallies_bind; [apply (f_word 0 8); exact Hs|apply tallies_ret]|]. reflexivity.
        - apply IH; auto. intros p Hp. apply Hb. now right. }
      apply (K (combine ds ss) 8%nat).
      * rewrite combine_length, H1, H2. reflexivity.
      * intros [d s] Hp. split; [apply H3; eapply in_combine_l; eauto|apply H4; eapply in_combine_r; eauto].
    + rewrite combine_split by congruence. apply tallies_ret.
  - reflexivity.
Qed.

Lemma f_traverse : forall t v ns, (length (v_ext v) <= 8)%nat -> has_memory v ->
  Forall (fun x => (depth x < f)%nat) (elements v) -> Forall2 (takes E t) (elements v) ns ->
  tallies (traverse_manual E m rec (length (v_ext v)) t v) false v false (total ns).
Proof.
  intros t v ns Hr Hmem Hd Ht. pose proof (elements_at v Hmem) as Hat.
  assert (Hvis : forall idx x n, at_ v idx = Some x -> (depth x < f)%nat -> takes E t x n ->
            tallies (visit E m rec t idx v) false v false n).
  { intros idx x n Hx Hdx Htx. unfold visit. cbn [is_unpacking]. rewrite Hx. cbn [valid bind].
    eapply tallies_eq; [eapply tallies_bind; [apply (f_ser E rec f R); eauto|apply tallies_ret]|].
    f_equal. lia. }
  destruct (length (v_ext v)) as [|k] eqn:Hk.
  - destruct (v_ext v) eqn:He; [|discriminate]. cbn [indices] in Hat.
    inversion Hat as [|? x ? l Hx Hl E1 E2]; subst. inversion Hl; subst.
    rewrite <- E2 in Ht, Hd. inversion Ht as [|? n ? ns' Htx Hn]; subst. inversion Hn; subst.
    inversion Hd; subst. cbn [traverse_manual trav0]. unfold trav0, visit0. rewrite Hx. cbn [valid bind is_unpacking].
    cbn [total fold_right]. eapply tallies_bind; [apply (f_ser E rec f R); eauto|]. apply tallies_ret.
  - rewrite <- Hk, traverse_nest by lia.
    eapply tallies_peq; [apply nest_foldP|]. apply tallies_foldP_fix.
    assert (K : forall l xs, Forall2 (fun idx x => at_ v idx = Some x) l xs -> forall ns,
              Forall (fun x => (depth x < f)%nat) xs -> Forall2 (takes E t) xs ns ->
              Forall2 (fun idx n => tallies (visit E m rec t idx v) false v false n) l ns).
    { induction 1; intros ns' Hd' Ht'; inversion Ht'; subst; constructor; inversion Hd'; subst; eauto. }
    eapply K; eauto.
Qed.

Lemma f_view : forall vt v l ns, view_ok E span vt f v -> vt_managed vt = true \/ asserts E = false ->
  is_virtual E (vt_elem vt) = false -> stored span vt v l -> Forall2 (takes E (vt_elem vt)) l ns ->
  tallies (ser_view E span m rec vt v) false v false (header E vt v + total ns).
Proof.
  intros vt v l ns Hok Hman Hv Hst Hns. pose proof (layout_of_64 _ _ _ _ _ Hok) as Hlay. destruct Hok.
  unfold ser_view, header. cbn [is_unpacking].
  eapply tallies_eq.
  - eapply tallies_bind with (a := tt) (vf1 := false) (n := 0).
    { destruct (asserts E), (vt_managed vt), Hman; try discriminate; apply tallies_ret. }
    eapply tallies_bind; [apply f_label|].
    eapply tallies_bind; [apply (f_word 3 4); rewrite vo_rank; apply N.le_lt_trans with 8; [lia|reflexivity]|].
    eapply tallies_bind; [now apply f_layout|].
    eapply tallies_bind; [apply tallies_ret|].
    eapply tallies_bind; [apply (f_word 0 8); exact vo_size|].
    eapply tallies_bind; [apply f_bool|]. eapply tallies_bind; [apply f_bool|].
    instantiate (1 := total ns).
    unfold stored in Hst. destruct (v_live v) eqn:Hl; [|subst l; inversion Hns; apply tallies_ret].
    destruct (vo_live eq_refl) as (Hmem & Hcon & Hel).
    destruct (contiguous span (vt_kind vt) v) eqn:Hc.
    + subst l. unfold ser_data. destruct (N.ltb_spec (len (v_data v)) (prod (v_ext v))); [specialize (Hcon eq_refl); lia|].
      eapply tallies_eq; [eapply tallies_bind; [apply (f_array E rec f R)|]|].
      * unfold visited. rewrite Hv. exact Hns.
      * apply Forall_firstn'. eapply Forall_impl; [|exact Hel]. intros x (_ & Hx). exact Hx.
      * cbn beta. rewrite firstn_skipn. destruct v. apply tallies_ret.
      * f_equal. lia.
    + destruct Hst as (L & HL & HF). rewrite (row_major_unique _ _ HL) in HF.
      assert (l = elements v) as ->.
      { pose proof (elements_at v Hmem) as Hat. revert HF Hat. generalize (indices (v_ext v)) (elements v).
        clear. intros L. revert l. induction L; intros l l' H1 H2; inversion H1; inversion H2; subst; f_equal; [congruence|eauto]. }
      rewrite <- vo_rank. apply f_traverse; auto; [lia|].
      rewrite Forall_forall in *. intros x Hx. apply (Hel x). now apply elements_in.
  - f_equal. change (N.of_nat 4) with 4. change (N.of_nat 8) with 8. destruct (vt_kind vt); lia.
Qed.
End Foot.
