(** Copies with identical vector capacities and without unordered containers are
    serialized alike.  Used for property C35. *)
From Coq Require Import List NArith Arith Bool Lia Permutation.
From Coq.Strings Require Import Byte.
From Verif Require Import Base Syntax Prog Serializers Traverse Spec ProgFacts EnvFacts ValFacts Pack.
Import ListNotations.
Local Open Scope N_scope.

(** No unordered container occurs in the value: the iteration order of those is
    not determined by their contents. *)
Fixpoint no_bags (v : val) : Prop :=
  match v with
  | VB _ | VStr _ _ | VVarNone | VOpt None => True
  | VVec _ l | VSeq l => fold_right (fun x P => no_bags x /\ P) True l
  | VBag _ => False
  | VOpt (Some x) | VVar _ x => no_bags x
  | VObj _ ls =>
    fold_right (fun fs P => fold_right (fun x P => no_bags x /\ P) True fs /\ P) True ls
  end.

Definition all_no_bags (l : list val) : Prop := fold_right (fun x P => no_bags x /\ P) True l.

Lemma all_no_bags_forall : forall l, all_no_bags l <-> Forall no_bags l.
Proof.
  induction l; cbn; split; intros H; auto.
  - destruct H. constructor; auto. now apply IHl.
  - inversion H; subst. split; auto. now apply IHl.
Qed.

Lemma obj_no_bags_forall : forall c ls, no_bags (VObj c ls) <-> Forall (Forall no_bags) ls.
Proof.
  intros c ls. cbn [no_bags]. induction ls; cbn [fold_right]; split; intros H; auto.
  - destruct H. constructor; [now apply all_no_bags_forall|]. now apply IHls.
  - inversion H; subst. split; [now apply all_no_bags_forall|]. now apply IHls.
Qed.

Lemma no_bags_sim : forall R v w, sim R v w -> no_bags v -> no_bags w.
Proof.
  intros R v. assert (G : forall l l', Forall (fun x => forall y, sim R x y -> no_bags x -> no_bags y) l ->
     Forall2 (sim R) l l' -> Forall no_bags l -> Forall no_bags l').
  { intros l l' H HF. induction HF; intros Hn; constructor; inversion H; subst; inversion Hn; subst; auto. }
  induction v using val_ind'; intros w Hw Hn; inversion Hw; subst; auto.
  - cbn [no_bags] in *. apply all_no_bags_forall. apply all_no_bags_forall in Hn. eauto.
  - cbn [no_bags] in *. apply all_no_bags_forall. apply all_no_bags_forall in Hn. eauto.
  - cbn [no_bags] in *. eauto.
  - cbn [no_bags] in *. eauto.
  - apply obj_no_bags_forall. apply obj_no_bags_forall in Hn.
    match goal with HF : Forall2 _ ls ?l |- _ => clear - H HF Hn G; revert H Hn; induction HF end;
      intros Hall Hn; constructor; inversion Hall; subst; inversion Hn; subst; eauto.
Qed.

Lemma Forall2_impl : forall A B (P Q : A -> B -> Prop) l l',
  (forall a b, P a b -> Q a b) -> Forall2 P l l' -> Forall2 Q l l'.
Proof. intros A B P Q l l' H HF. induction HF; constructor; auto. Qed.

Lemma Forall2_len : forall A B (P : A -> B -> Prop) l l', Forall2 P l l' -> len l = len l'.
Proof. intros. unfold len. f_equal. eapply Forall2_length; eauto. Qed.

Lemma depth_fold : forall R l l', Forall (fun x => forall y, sim R x y -> no_bags x -> depth x = depth y) l ->
  Forall2 (sim R) l l' -> Forall no_bags l ->
  fold_right (fun x n => Nat.max (depth x) n) 1%nat l = fold_right (fun x n => Nat.max (depth x) n) 1%nat l'.
Proof.
  intros R l l' H HF. induction HF; intros Hn; auto. inversion H; subst. inversion Hn; subst.
  cbn [fold_right]. rewrite IHHF by auto. f_equal. auto.
Qed.

Lemma depth_sim : forall R v w, sim R v w -> no_bags v -> depth v = depth w.
Proof.
  intros R v. induction v using val_ind'; intros w Hw Hn; inversion Hw; subst; auto.
  - cbn [depth]. f_equal. eapply depth_fold; eauto. now apply all_no_bags_forall.
  - cbn [depth]. f_equal. eapply depth_fold; eauto. now apply all_no_bags_forall.
  - exact (False_ind _ Hn).
  - cbn [depth]. do 2 f_equal. auto.
  - cbn [depth]. do 2 f_equal. auto.
  - apply obj_no_bags_forall in Hn. cbn [depth]. do 2 f_equal.
    match goal with HF : Forall2 _ ls ?l |- _ => clear - H HF Hn; revert H Hn; induction HF end;
      intros Hall Hn; auto. inversion Hall; subst. inversion Hn; subst. cbn [fold_right].
    rewrite IHForall2 by auto. f_equal. eapply depth_fold; eauto.
Qed.

Section Enc.
Variable E : env.

Lemma map_sim : forall (G : val -> bytes) l l',
  Forall (fun x => forall y, sim eq x y -> no_bags x -> G x = G y) l ->
  Forall2 (sim eq) l l' -> Forall no_bags l -> map G l = map G l'.
Proof.
  intros G l l' H HF. induction HF; intros Hn; auto. inversion H; subst. inversion Hn; subst.
  cbn [map]. f_equal; auto.
Qed.

Lemma zipenc_sim : forall l l',
  Forall (fun x => forall y, sim eq x y -> no_bags x -> forall t, encb E t x = encb E t y) l ->
  Forall2 (sim eq) l l' -> Forall no_bags l -> forall ts, zipenc E ts l = zipenc E ts l'.
Proof.
  intros l l' H HF. induction HF; intros Hn ts; auto. inversion H; subst. inversion Hn; subst.
  destruct ts; cbn [zipenc]; auto. unfold enc. f_equal; auto. f_equal. auto.
Qed.

Lemma encb_sim : forall v w, sim eq v w -> no_bags v -> forall t, encb E t v = encb E t w.
Proof.
  intros v. induction v using val_ind'; intros w Hw Hn t; inversion Hw; subst; auto.
  - (* vector *)
    cbn [no_bags] in Hn. apply all_no_bags_forall in Hn.
    match goal with X : Forall2 _ _ _ |- _ => rename X into HF end.
    assert (HM : forall t', map (encb E t') l = map (encb E t') l').
    { intros. eapply map_sim; eauto. eapply Forall_impl; [|exact H]. auto. }
    assert (HM2 : map (fun x => framed E BOOL 1 (encb E BOOL x)) l
                  = map (fun x => framed E BOOL 1 (encb E BOOL x)) l').
    { eapply map_sim; eauto. eapply Forall_impl; [|exact H]. cbn beta. intros a Ha y Hy Hb.
      f_equal. auto. }
    pose proof (Forall2_len _ _ _ _ _ HF) as HL. cbn [encb]. rewrite <- HL.
    destruct t; rewrite ?HM, ?HM2; auto.
  - (* sequence *)
    cbn [no_bags] in Hn. apply all_no_bags_forall in Hn.
    match goal with X : Forall2 _ _ _ |- _ => rename X into HF end.
    assert (HM : forall t', map (encb E t') l = map (encb E t') l').
    { intros. eapply map_sim; eauto. eapply Forall_impl; [|exact H]. auto. }
    assert (HM2 : forall t', map (fun x => framed E t' 1 (encb E t' x)) l
                  = map (fun x => framed E t' 1 (encb E t' x)) l').
    { intros. eapply map_sim; eauto. eapply Forall_impl; [|exact H]. cbn beta. intros a Ha y Hy Hb.
      f_equal. auto. }
    pose proof (Forall2_len _ _ _ _ _ HF) as HL.
    destruct t; try reflexivity; try (cbn [encb]; rewrite <- ?HL, ?HM, ?HM2; reflexivity).
    + (* pair *)
      cbn [encb]. inversion HF as [|x y l1 l1' Hxy HF1]; subst; auto.
      inversion HF1 as [|x2 y2 l2 l2' Hxy2 HF2]; subst; auto.
      inversion HF2; subst; auto.
      inversion H as [|? ? Hx H2]; subst. inversion H2; subst. inversion Hn as [|? ? Hbx Hn2]; subst.
      inversion Hn2; subst. f_equal; f_equal; auto.
    + (* tuple *)
      rewrite !encb_tuple. f_equal. eapply zipenc_sim; eauto.
  - exact (False_ind _ Hn).
  - (* optional, pointer *)
    match goal with X : sim eq v ?w0 |- _ => rename X into HS; rename w0 into y end.
    cbn [no_bags] in Hn.
    pose proof (IHv y HS Hn) as HE. destruct t; cbn [encb]; auto.
    + now rewrite HE.
    + rewrite HE. f_equal. f_equal. destruct (is_virtual E t); auto.
      inversion HS; subst; auto.
  - cbn [no_bags] in Hn. cbn [encb]. destruct t; auto. f_equal.
    destruct (nth_error ts i); auto. f_equal. auto.
  - (* object *)
    apply obj_no_bags_forall in Hn. rewrite !encb_obj.
    match goal with HF : Forall2 _ ls ?l |- _ =>
      assert (HL : forall cs, levelenc E cs ls = levelenc E cs l) end.
    { match goal with HF : Forall2 _ ls ?l |- _ => clear - H HF Hn; revert H Hn; induction HF end;
      intros Hall Hn cs; auto. inversion Hall; subst. inversion Hn; subst.
      destruct cs; auto. cbn [levelenc]. f_equal; auto. f_equal. eapply zipenc_sim; eauto. }
    now rewrite HL.
Qed.

Lemma enc_root_sim : forall v w t, sim eq v w -> no_bags v -> enc_root E t v = enc_root E t w.
Proof. intros. unfold enc_root, enc. now rewrite (encb_sim v w). Qed.
End Enc.

Lemma sorted_by_sim : forall multi lt l l',
  (forall v v' w w', same v v' -> same w w' -> lt v w = lt v' w') ->
  Forall2 same l l' -> sorted_by multi lt l -> sorted_by multi lt l'.
Proof.
  intros multi lt l l' Hlt HF. induction HF; intros Hs; auto. destruct Hs as (Ha & Hs).
  cbn [sorted_by]. split; auto. clear - Hlt H HF Ha.
  induction HF; constructor; inversion Ha; subst; auto.
  destruct H3 as (H3 & H5). split.
  - rewrite <- (Hlt x0 y0 x y); auto.
  - intros Hm. rewrite <- (Hlt x y x0 y0); auto.
Qed.

(** Being a well-formed value is preserved, also if capacities grow. *)
Lemma has_ty_grown : forall F E (R : N -> N -> Prop), wf_env F E ->
  (forall a b, R a b -> a <= b /\ (a < two64 -> b < two64)) ->
  forall v w, sim R v w -> no_bags v -> forall t, has_ty E t v -> has_ty E t w.
Proof.
  intros F E R wf HR v.
  assert (G : forall l l', Forall (fun x => forall y, sim R x y -> no_bags x -> forall t, has_ty E t x -> has_ty E t y) l ->
     Forall2 (sim R) l l' -> Forall no_bags l -> forall t, Forall (has_ty E t) l -> Forall (has_ty E t) l').
  { intros l l' H HF. induction HF; intros Hn t Ht; constructor; inversion H; subst; inversion Hn; subst;
      inversion Ht; subst; auto. }
  assert (G2 : forall l l', Forall (fun x => forall y, sim R x y -> no_bags x -> forall t, has_ty E t x -> has_ty E t y) l ->
     Forall2 (sim R) l l' -> Forall no_bags l -> forall ts, Forall2 (has_ty E) ts l -> Forall2 (has_ty E) ts l').
  { intros l l' H HF. induction HF; intros Hn ts Ht; inversion Ht; subst; constructor; inversion H; subst;
      inversion Hn; subst; auto. }
  induction v using val_ind'; intros w Hw Hn t Ht; inversion Hw; subst; auto.
  - inversion Ht; subst. constructor; tauto.
  - (* vector *)
    cbn [no_bags] in Hn. apply all_no_bags_forall in Hn.
    match goal with X : Forall2 _ _ _ |- _ => rename X into HF end.
    pose proof (Forall2_len _ _ _ _ _ HF) as HL. pose proof (Forall2_length _ _ _ _ _ HF) as HL'.
    inversion Ht; subst.
    + match goal with X : R _ _ |- _ => destruct (HR _ _ X) end.
      constructor; auto; [lia|rewrite <- HL'; auto|eauto].
    + match goal with X : R _ _ |- _ => destruct (HR _ _ X) end.
      constructor; auto; [lia|].
      match goal with X : Forall (fun v => v = _ \/ _) l |- _ => rename X into HA end.
      clear - HF HA. induction HF as [|x y l l' Hx HF IH]; constructor; inversion HA as [|? ? Hb HA']; subst; auto.
      destruct Hb; subst; inversion Hx; subst; auto.
  - (* sequence *)
    cbn [no_bags] in Hn. apply all_no_bags_forall in Hn.
    match goal with X : Forall2 _ _ _ |- _ => rename X into HF end.
    pose proof (Forall2_len _ _ _ _ _ HF) as HL. pose proof (Forall2_length _ _ _ _ _ HF) as HL'.
    inversion Ht; subst.
    + constructor; auto; [rewrite <- HL'; auto|eauto].
    + constructor; auto; [congruence|eauto].
    + constructor; auto; [congruence|eauto].
    + constructor; auto; [congruence|eauto|]. eapply sorted_by_sim; [| |eassumption].
      * intros. eapply (wf_less F E wf); eauto.
      * eapply Forall2_impl; [|exact HF]. intros. eapply sim_same; eauto.
    + inversion HF as [|x0 y0 l1 l1' Hxy HF1]; subst. inversion HF1 as [|x2 y2 l2 l2' Hxy2 HF2]; subst.
      inversion HF2; subst. inversion H as [|? ? Hx H2]; subst. inversion H2; subst.
      inversion Hn as [|? ? Hbx Hn2]; subst. inversion Hn2; subst. constructor; auto.
    + constructor. eauto.
  - exact (False_ind _ Hn).
  - (* optional, pointer *)
    match goal with X : sim R v ?w0 |- _ => rename X into HS; rename w0 into y end.
    cbn [no_bags] in Hn. inversion Ht; subst.
    + constructor; auto.
    + constructor; auto.
    + pose proof (IHv y HS Hn (TClass d) ltac:(assumption)) as HV.
      inversion HS; subst. eapply HtUniqueV; eauto.
  - cbn [no_bags] in Hn. inversion Ht; subst. econstructor; eauto.
  - (* object *)
    apply obj_no_bags_forall in Hn. inversion Ht; subst. constructor; auto.
    match goal with HF : Forall2 (Forall2 (sim R)) ls ?l, HC : Forall2 _ (chain E c) ls |- _ =>
      clear - H HF Hn HC G2; revert H Hn; generalize dependent (chain E c); induction HF end;
      intros cs HC H0' Hn; inversion HC; subst; constructor; inversion H0'; subst; inversion Hn; subst.
    + match goal with X : exists _, _ |- _ => destruct X as (k & Hk & Hb & Hw & Hf) end. exists k. repeat (split; auto). eapply G2; eauto.
    + apply IHForall2; auto.
Qed.

Lemma has_ty_sim : forall F E, wf_env F E -> forall v w, sim eq v w -> no_bags v ->
  forall t, has_ty E t v -> has_ty E t w.
Proof. intros F E wf. apply (has_ty_grown F E eq wf). intros a b ->. split; auto. lia. Qed.

(** Weaker assumptions on the capacities that constructors leave. *)
Lemma fresh_mono : forall (F F' : N -> Prop) E, (forall c, F c -> F' c) ->
  forall v t, fresh F E t v -> fresh F' E t v.
Proof.
  intros F F' E HF v.
  assert (G : forall l, Forall (fun x => forall t, fresh F E t x -> fresh F' E t x) l ->
     forall t, Forall (fresh F E t) l -> Forall (fresh F' E t) l).
  { intros l H. induction H; intros t Ht; constructor; inversion Ht; subst; auto. }
  assert (G2 : forall l, Forall (fun x => forall t, fresh F E t x -> fresh F' E t x) l ->
     forall ts, Forall2 (fresh F E) ts l -> Forall2 (fresh F' E) ts l).
  { intros l H. induction H; intros ts Ht; inversion Ht; subst; constructor; auto. }
  induction v using val_ind'; intros t Ht; inversion Ht; subst; try (econstructor; eauto; fail).
  - inversion H as [|? ? Hx H2]; subst. inversion H2; subst. constructor; auto.
  - econstructor; eauto.
    match goal with HC : Forall2 _ (chain E c) ls |- _ =>
      clear - H HC G2; revert H; induction HC end; intros Hall; constructor; inversion Hall; subst; auto.
    destruct H as (k & Hk & Hf). exists k. split; auto.
Qed.

Lemma wf_env_mono : forall (F F' : N -> Prop) E, (forall c, F c -> F' c) -> wf_env F E -> wf_env F' E.
Proof.
  intros F F' E HF wf. destruct wf. split; auto.
  intros c k ls Hk Hl. specialize (wf_ctor c k ls Hk Hl).
  eapply Forall2_impl; [|exact wf_ctor]. intros c' fs (k' & Hk' & Hf). exists k'. split; auto.
  eapply Forall2_impl; [|exact Hf]. intros. eapply fresh_mono; eauto.
Qed.
