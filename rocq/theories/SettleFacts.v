(** Capacities take a fixed number of bytes: growing them does not change the
    size of the serialized form.  Used for property C35. *)
From Coq Require Import List NArith Arith Bool Lia.
From Coq.Strings Require Import Byte.
From Verif Require Import Base Syntax Prog Serializers Traverse Spec ProgFacts EnvFacts
  ValFacts Pack Stable.
Import ListNotations.
Local Open Scope N_scope.

Section Len.
Variable E : env.
Variable R : N -> N -> Prop.

Lemma framed_length : forall t n b b', length b = length b' ->
  length (framed E t n b) = length (framed E t n b').
Proof. intros t n b b' H. unfold framed. destruct (chk E); auto. rewrite !app_length. lia. Qed.

Lemma concat_length : forall (l l' : list bytes), map (@length byte) l = map (@length byte) l' ->
  length (concat l) = length (concat l').
Proof.
  induction l; intros [|b l'] H; cbn in H; try discriminate; auto.
  inversion H. cbn. rewrite !app_length. f_equal; auto.
Qed.

Lemma map_len_sim : forall (G : val -> bytes) l l',
  Forall (fun x => forall y, sim R x y -> no_bags x -> length (G x) = length (G y)) l ->
  Forall2 (sim R) l l' -> Forall no_bags l ->
  map (@length byte) (map G l) = map (@length byte) (map G l').
Proof.
  intros G l l' H HF. induction HF; intros Hn; auto. inversion H; subst. inversion Hn; subst.
  cbn [map]. f_equal; auto.
Qed.

Lemma zipenc_len_sim : forall l l',
  Forall (fun x => forall y, sim R x y -> no_bags x ->
            forall t, length (encb E t x) = length (encb E t y)) l ->
  Forall2 (sim R) l l' -> Forall no_bags l ->
  forall ts, map (@length byte) (zipenc E ts l) = map (@length byte) (zipenc E ts l').
Proof.
  intros l l' H HF. induction HF; intros Hn ts; auto. inversion H; subst. inversion Hn; subst.
  destruct ts; cbn [zipenc map]; auto. unfold enc. f_equal; auto. apply framed_length. auto.
Qed.

Lemma warray_length : forall t l l', map (@length byte) l = map (@length byte) l' ->
  length (warray E t l) = length (warray E t l').
Proof.
  intros t l l' H. unfold warray.
  assert (Hl : length l = length l') by (rewrite <- (map_length (@length byte) l), H, map_length; auto).
  pose proof (concat_length _ _ H) as Hc.
  destruct l, l'; try discriminate; auto. unfold bytes in *. rewrite <- Hl. now apply framed_length.
Qed.

Lemma wmembers_length : forall c l l', map (@length byte) l = map (@length byte) l' ->
  length (wmembers E (c, l)) = length (wmembers E (c, l')).
Proof.
  intros c l l' H. unfold wmembers. cbn [fst snd]. destruct (cls E c) as [k|]; auto.
  apply concat_length. rewrite !map_map. apply map_ext. intros i.
  change (length (nth i l []) = length (nth i l' [])).
  pose proof (map_nth (@length byte) l [] i) as H1. pose proof (map_nth (@length byte) l' [] i) as H2.
  rewrite H in H1. congruence.
Qed.

Lemma wsize_length : forall a b, length (wsize E a) = length (wsize E b).
Proof. intros. apply framed_length. now rewrite !le_length. Qed.

Lemma encb_len_sim : forall v w, sim R v w -> no_bags v ->
  forall t, length (encb E t v) = length (encb E t w).
Proof.
  intros v. induction v using val_ind'; intros w Hw Hn t; inversion Hw; subst; auto.
  - (* vector *)
    cbn [no_bags] in Hn. apply all_no_bags_forall in Hn.
    match goal with X : Forall2 _ _ _ |- _ => rename X into HF end.
    assert (HM : forall t', map (@length byte) (map (encb E t') l)
                            = map (@length byte) (map (encb E t') l')).
    { intros. eapply map_len_sim; eauto. eapply Forall_impl; [|exact H]. auto. }
    assert (HM2 : map (@length byte) (map (fun x => framed E BOOL 1 (encb E BOOL x)) l)
                  = map (@length byte) (map (fun x => framed E BOOL 1 (encb E BOOL x)) l')).
    { eapply map_len_sim; eauto. eapply Forall_impl; [|exact H]. cbn beta. intros a Ha y Hy Hb.
      apply framed_length. auto. }
    pose proof (Forall2_len _ _ _ _ _ HF) as HL. cbn [encb].
    assert (HA : forall (A B A' B' D D' : bytes), length A = length A' -> length B = length B' ->
      length D = length D' -> length (A ++ B ++ D) = length (A' ++ B' ++ D'))
      by (intros; rewrite !app_length; lia).
    destruct t; apply HA; try apply wsize_length; try (apply warray_length; apply HM);
      apply concat_length, HM2.
  - (* sequence *)
    cbn [no_bags] in Hn. apply all_no_bags_forall in Hn.
    match goal with X : Forall2 _ _ _ |- _ => rename X into HF end.
    assert (HM : forall t', map (@length byte) (map (encb E t') l)
                            = map (@length byte) (map (encb E t') l')).
    { intros. eapply map_len_sim; eauto. eapply Forall_impl; [|exact H]. auto. }
    assert (HM2 : forall t', map (@length byte) (map (fun x => framed E t' 1 (encb E t' x)) l)
                  = map (@length byte) (map (fun x => framed E t' 1 (encb E t' x)) l')).
    { intros. eapply map_len_sim; eauto. eapply Forall_impl; [|exact H]. cbn beta.
      intros a Ha y Hy Hb. apply framed_length. auto. }
    assert (HA : forall (A A' D D' : bytes), length A = length A' ->
      length D = length D' -> length (A ++ D) = length (A' ++ D'))
      by (intros; rewrite !app_length; lia).
    destruct t; try reflexivity;
      try (cbn [encb]; apply HA; [apply wsize_length|apply concat_length, HM2]).
    + cbn [encb]. apply warray_length, HM.
    + (* pair *)
      cbn [encb]. inversion HF as [|x y l1 l1' Hxy HF1]; subst; auto.
      inversion HF1 as [|x2 y2 l2 l2' Hxy2 HF2]; subst; auto.
      inversion HF2; subst; auto.
      inversion H as [|? ? Hx H2]; subst. inversion H2; subst. inversion Hn as [|? ? Hbx Hn2]; subst.
      inversion Hn2; subst. apply HA; apply framed_length; auto.
    + (* tuple *)
      rewrite !encb_tuple. apply concat_length. eapply zipenc_len_sim; eauto.
  - exact (False_ind _ Hn).
  - (* optional, pointer *)
    match goal with X : sim R v ?w0 |- _ => rename X into HS; rename w0 into y end.
    cbn [no_bags] in Hn.
    pose proof (IHv y HS Hn) as HE. destruct t; cbn [encb]; auto.
    + rewrite !app_length. f_equal. apply framed_length; auto.
    + rewrite !app_length. f_equal. f_equal; [|apply framed_length; auto].
      destruct (is_virtual E t); auto. inversion HS; subst; auto.
  - cbn [no_bags] in Hn. cbn [encb]. destruct t; auto. rewrite !app_length. f_equal.
    destruct (nth_error ts i); auto. apply framed_length. auto.
  - (* object *)
    apply obj_no_bags_forall in Hn. rewrite !encb_obj.
    assert (HL : forall (G : nat * list bytes -> bytes),
      (forall c a b, map (@length byte) a = map (@length byte) b ->
         length (G (c, a)) = length (G (c, b))) ->
      forall cs, map (@length byte) (map G (levelenc E cs ls))
                 = map (@length byte) (map G (levelenc E cs ls'))).
    { intros G HG.
      match goal with HF : Forall2 _ ls ?l |- _ => clear - H HF Hn HG; revert H Hn; induction HF end;
        intros Hall Hn cs; auto. inversion Hall; subst. inversion Hn; subst.
      destruct cs; auto. cbn [levelenc map]. f_equal; auto. apply HG. eapply zipenc_len_sim; eauto. }
    destruct (is_virtual E t); apply concat_length, HL.
    + intros. cbn [fst]. apply framed_length. now apply wmembers_length.
    + intros. now apply wmembers_length.
Qed.

Lemma enc_root_len_sim : forall v w t, sim R v w -> no_bags v ->
  len (enc_root E t v) = len (enc_root E t w).
Proof.
  intros v w t Hs Hn. unfold enc_root, enc, len. f_equal.
  pose proof (encb_len_sim v w Hs Hn t) as H.
  destruct (chk E); [now apply framed_length|]. rewrite !app_length, H. reflexivity.
Qed.
End Len.
