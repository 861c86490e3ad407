(** Induction over values, and facts about observable copies. *)
From Coq Require Import List NArith Arith Bool Lia Permutation.
From Verif Require Import Base Syntax Spec EnvFacts.
Import ListNotations.

Section ValInd.
Variable P : val -> Prop.
Hypothesis HB : forall b, P (VB b).
Hypothesis HStr : forall c b, P (VStr c b).
Hypothesis HVec : forall c l, Forall P l -> P (VVec c l).
Hypothesis HSeq : forall l, Forall P l -> P (VSeq l).
Hypothesis HBag : forall l, Forall P l -> P (VBag l).
Hypothesis HNone : P (VOpt None).
Hypothesis HSome : forall v, P v -> P (VOpt (Some v)).
Hypothesis HVar : forall i v, P v -> P (VVar i v).
Hypothesis HVarNone : P VVarNone.
Hypothesis HObj : forall c ls, Forall (Forall P) ls -> P (VObj c ls).

Fixpoint val_ind' (v : val) : P v :=
  let all := fix all (l : list val) : Forall P l :=
    match l with
    | [] => Forall_nil P
    | x :: r => Forall_cons x (val_ind' x) (all r)
    end in
  match v with
  | VB b => HB b
  | VStr c b => HStr c b
  | VVec c l => HVec c l (all l)
  | VSeq l => HSeq l (all l)
  | VBag l => HBag l (all l)
  | VOpt None => HNone
  | VOpt (Some x) => HSome x (val_ind' x)
  | VVar i x => HVar i x (val_ind' x)
  | VVarNone => HVarNone
  | VObj c ls =>
    HObj c ls ((fix lall (l : list (list val)) : Forall (Forall P) l :=
                  match l with
                  | [] => Forall_nil (Forall P)
                  | x :: r => Forall_cons x (all x) (lall r)
                  end) ls)
  end.
End ValInd.

Lemma Forall2_impl_in : forall A B (P Q : A -> B -> Prop) l l',
  Forall (fun x => forall y, P x y -> Q x y) l -> Forall2 P l l' -> Forall2 Q l l'.
Proof.
  intros A B P Q l l' H H2. induction H2; constructor; inversion H; subst; auto.
Qed.

Lemma sim_mono : forall (R R' : N -> N -> Prop), (forall a b, R a b -> R' a b) ->
  forall v w, sim R v w -> sim R' v w.
Proof.
  intros R R' HR v. induction v using val_ind'; intros w Hw; inversion Hw; subst;
    try (constructor; auto; fail).
  - constructor; auto. eapply Forall2_impl_in; eauto.
  - constructor. eapply Forall2_impl_in; eauto.
  - econstructor; eauto. eapply Forall2_impl_in; eauto.
  - constructor. eapply Forall2_impl_in; [|eauto].
    eapply Forall_impl; [|exact H]. intros fs Hfs fs' Hf. eapply Forall2_impl_in; eauto.
Qed.

Lemma Forall2_refl_in : forall A (P : A -> A -> Prop) l, Forall (fun x => P x x) l -> Forall2 P l l.
Proof. induction l; intros H; constructor; inversion H; subst; auto. Qed.

Lemma sim_refl : forall (R : N -> N -> Prop), (forall a, R a a) -> forall v, sim R v v.
Proof.
  intros R HR v. induction v using val_ind'; try (constructor; auto; try reflexivity; fail).
  - constructor; auto. now apply Forall2_refl_in.
  - constructor. now apply Forall2_refl_in.
  - econstructor; [now apply Forall2_refl_in|]. apply Permutation_refl.
  - constructor. apply Forall2_refl_in. eapply Forall_impl; [|exact H].
    intros. now apply Forall2_refl_in.
Qed.

Lemma sim_same : forall R v w, sim R v w -> same v w.
Proof. intros R v w. apply sim_mono. auto. Qed.

(** Permutations can be carried along a pointwise relation. *)
Lemma Forall2_permutation : forall A B (P : A -> B -> Prop) l1 l2 r1,
  Permutation l1 l2 -> Forall2 P l1 r1 ->
  exists r2, Permutation r1 r2 /\ Forall2 P l2 r2.
Proof.
  intros A B P l1 l2 r1 Hp. revert r1.
  induction Hp; intros r1 HF.
  - inversion HF; subst. exists []. auto.
  - inversion HF; subst. destruct (IHHp _ H3) as (r2 & ? & ?).
    exists (y :: r2). auto.
  - inversion HF; subst. inversion H3; subst.
    exists (y1 :: y0 :: l'0). split; [constructor|]. auto.
  - destruct (IHHp1 _ HF) as (r2 & ? & HF2). destruct (IHHp2 _ HF2) as (r3 & ? & ?).
    exists r3. split; auto. eapply perm_trans; eauto.
Qed.

Lemma Forall2_comp : forall A B C (P : A -> B -> Prop) (Q : B -> C -> Prop) l1 l2 l3,
  Forall2 P l1 l2 -> Forall2 Q l2 l3 -> Forall2 (fun a c => exists b, P a b /\ Q b c) l1 l3.
Proof.
  intros A B C P Q l1 l2 l3 H. revert l3.
  induction H; intros l3 H3; inversion H3; subst; constructor; eauto.
Qed.

Lemma sim_trans : forall (R : N -> N -> Prop), (forall a b c, R a b -> R b c -> R a c) ->
  forall u v w, sim R u v -> sim R v w -> sim R u w.
Proof.
  intros R HR u.
  assert (G : forall l l1 l2, Forall (fun x => forall y z, sim R x y -> sim R y z -> sim R x z) l ->
             Forall2 (sim R) l l1 -> Forall2 (sim R) l1 l2 -> Forall2 (sim R) l l2).
  { induction l; intros l1 l2 H H1 H2; inversion H1; subst; inversion H2; subst;
      inversion H; subst; constructor; eauto. }
  induction u using val_ind'; intros v w H1 H2; inversion H1; subst; inversion H2; subst;
    try (constructor; eauto; try (etransitivity; eauto); fail).
  - (* bag *)
    match goal with
    | Hp1 : Permutation ?a ?b, Hf2 : Forall2 (sim R) ?b ?c |- _ =>
      destruct (Forall2_permutation _ _ (sim R) b a c (Permutation_sym Hp1) Hf2) as (r & Hr & Hs)
    end.
    econstructor; [eapply G; eauto|]. eapply perm_trans; [apply Permutation_sym; eauto|]. auto.
  - (* object *)
    constructor.
    match goal with
    | Ha : Forall2 (Forall2 (sim R)) ls ?a, Hb : Forall2 (Forall2 (sim R)) ?a ?b |- _ =>
      clear - Ha Hb H G; revert a b Ha Hb
    end.
    induction H; intros a b Ha Hb; inversion Ha; subst; inversion Hb; subst; constructor; eauto.
Qed.

Lemma Forall2_flip : forall A B (P : A -> B -> Prop) l l',
  Forall2 P l l' -> Forall2 (fun b a => P a b) l' l.
Proof. intros A B P l l' H. induction H; constructor; auto. Qed.

Lemma sim_sym : forall (R : N -> N -> Prop), (forall a b, R a b -> R b a) ->
  forall v w, sim R v w -> sim R w v.
Proof.
  intros R HR v.
  assert (G : forall l l', Forall (fun x => forall y, sim R x y -> sim R y x) l ->
             Forall2 (sim R) l l' -> Forall2 (sim R) l' l).
  { intros l l' H HF. induction HF; constructor; inversion H; subst; auto. }
  induction v using val_ind'; intros w Hw; inversion Hw; subst;
    try (constructor; auto; try (symmetry; assumption); fail).
  - (* bag *)
    match goal with
    | Hf : Forall2 _ l ?l1, Hp : Permutation ?l1 ?l' |- _ =>
      pose proof (G _ _ H Hf) as Hf';
      destruct (Forall2_permutation _ _ (sim R) l1 l' l Hp Hf') as (r & Hr & Hs)
    end.
    econstructor; [exact Hs|]. now apply Permutation_sym.
  - constructor. match goal with Hf : Forall2 _ ls ?a |- _ => revert a Hf Hw end.
    induction H; intros a Hf Hw; inversion Hf; subst; constructor; auto.
    match goal with Hf2 : Forall2 _ l ?a2 |- _ => apply (IHForall a2 Hf2) end.
    constructor; auto.
Qed.

Lemma same_sym : forall v w, same v w -> same w v.
Proof. apply sim_sym. auto. Qed.
Lemma same_trans : forall u v w, same u v -> same v w -> same u w.
Proof. apply sim_trans. auto. Qed.
Lemma same_refl : forall v, same v v.
Proof. apply sim_refl. auto. Qed.
