(** Facts about class tables and inheritance chains. *)
From Coq Require Import List NArith Arith Bool Lia.
From Verif Require Import Base Syntax Traverse Spec.
Import ListNotations.

Section Chains.
Variable F : N -> Prop.
Variable E : env.
Hypothesis wf : wf_env F E.

Lemma chain_n_enough : forall n c, (c < n)%nat -> chain_n n E c = chain E c.
Proof.
  assert (G : forall n m c, (c < n)%nat -> (c < m)%nat -> chain_n n E c = chain_n m E c).
  { induction n; intros m c Hn Hm; [lia|].
    destruct m; [lia|]. cbn [chain_n].
    destruct (cls E c) as [k|] eqn:Ec; auto.
    destruct (cparent k) as [p|] eqn:Ep; auto.
    destruct (wf_parent _ _ wf _ _ _ Ec Ep) as (Hlt & _).
    f_equal. apply IHn; lia. }
  intros. unfold chain. apply G; lia.
Qed.

Lemma chain_eq : forall c,
  chain E c = match cls E c with
              | None => []
              | Some k => match cparent k with
                          | None => [c]
                          | Some p => chain E p ++ [c]
                          end
              end.
Proof.
  intros c. unfold chain at 1. cbn [chain_n].
  destruct (cls E c) as [k|] eqn:Ec; auto.
  destruct (cparent k) as [p|] eqn:Ep; auto.
  destruct (wf_parent _ _ wf _ _ _ Ec Ep) as (Hlt & _).
  rewrite chain_n_enough by lia. reflexivity.
Qed.

Lemma chain_in_inv : forall d c, In c (chain E d) ->
  (c = d /\ exists k, cls E d = Some k) \/
  exists k p, cls E d = Some k /\ cparent k = Some p /\ (p < d)%nat /\ In c (chain E p).
Proof.
  intros d c H. rewrite chain_eq in H.
  destruct (cls E d) as [k|] eqn:Ek; [|destruct H].
  destruct (cparent k) as [p|] eqn:Ep.
  - destruct (wf_parent _ _ wf _ _ _ Ek Ep) as (Hlt & _).
    apply in_app_or in H. destruct H as [H|[<-|[]]]; eauto 10.
  - destruct H as [<-|[]]. eauto.
Qed.

Lemma chain_in_cls : forall d c, In c (chain E d) -> exists k, cls E c = Some k.
Proof.
  induction d as [d IH] using lt_wf_ind. intros c H.
  apply chain_in_inv in H. destruct H as [(-> & H)|(k & p & _ & _ & Hlt & H)]; eauto.
Qed.

Lemma chain_le : forall d c, In c (chain E d) -> (c <= d)%nat.
Proof.
  induction d as [d IH] using lt_wf_ind. intros c H.
  apply chain_in_inv in H. destruct H as [(-> & H)|(k & p & _ & _ & Hlt & H)]; auto.
  apply IH in H; auto. lia.
Qed.

Lemma chain_self : forall c, chain E c <> [] -> In c (chain E c).
Proof.
  intros c. rewrite chain_eq. destruct (cls E c) as [k|]; [|congruence].
  destruct (cparent k); intros _.
  - apply in_or_app. right. now left.
  - now left.
Qed.

Lemma chain_nonempty : forall c k, cls E c = Some k -> chain E c <> [].
Proof.
  intros c k Hc. rewrite chain_eq, Hc. destruct (cparent k); [|congruence].
  intros H. symmetry in H. now apply app_cons_not_nil in H.
Qed.

Lemma chain_last : forall c, chain E c <> [] -> exists l, chain E c = l ++ [c].
Proof.
  intros c. rewrite chain_eq. destruct (cls E c) as [k|]; [|congruence].
  destruct (cparent k); intros _; [eauto | now exists []].
Qed.

Lemma chain_prefix : forall d c, In c (chain E d) ->
  exists rest, chain E d = chain E c ++ rest.
Proof.
  induction d as [d IH] using lt_wf_ind. intros c H.
  apply chain_in_inv in H. destruct H as [(-> & H)|(k & p & Hk & Hp & Hlt & H)].
  - exists []. now rewrite app_nil_r.
  - destruct (IH _ Hlt _ H) as (r & Hr). exists (r ++ [d]).
    rewrite (chain_eq d), Hk, Hp, Hr. now rewrite app_assoc.
Qed.

Lemma nodup_snoc : forall A (x : A) l, NoDup l -> ~ In x l -> NoDup (l ++ [x]).
Proof.
  induction l; intros Hn Hi; cbn.
  - constructor; [intros [] | constructor].
  - inversion Hn; subst. constructor.
    + intros Hin. apply in_app_or in Hin. destruct Hin as [Hin|[->|[]]]; auto.
      apply Hi. now left.
    + apply IHl; auto. intros Hin. apply Hi. now right.
Qed.

Lemma chain_nodup : forall d, NoDup (chain E d).
Proof.
  induction d as [d IH] using lt_wf_ind. rewrite chain_eq.
  destruct (cls E d) as [k|] eqn:Ek; [|constructor].
  destruct (cparent k) as [p|] eqn:Ep.
  - destruct (wf_parent _ _ wf _ _ _ Ek Ep) as (Hlt & _).
    apply nodup_snoc; auto. intros Hin. apply chain_le in Hin. lia.
  - constructor; [intros [] | constructor].
Qed.

(** The members of class [c] sit at position [level E c] of every object whose
    class derives from [c]. *)
Lemma chain_level : forall d c, In c (chain E d) ->
  nth_error (chain E d) (level E c) = Some c.
Proof.
  intros d c Hin. destruct (chain_prefix _ _ Hin) as (rest & ->).
  destruct (chain_last c) as (l & Hl).
  { destruct (chain_in_cls _ _ Hin) as (k & Hk). eapply chain_nonempty; eauto. }
  unfold level. rewrite Hl. rewrite app_length. cbn [length].
  replace (pred (length l + 1)) with (length l) by lia.
  rewrite <- app_assoc. rewrite nth_error_app2 by lia. rewrite Nat.sub_diag. reflexivity.
Qed.

Lemma level_lt : forall d c, In c (chain E d) -> (level E c < length (chain E d))%nat.
Proof.
  intros. apply nth_error_Some. rewrite chain_level; auto. discriminate.
Qed.

Lemma chain_nth_level : forall d i c, nth_error (chain E d) i = Some c -> level E c = i.
Proof.
  intros d i c H.
  assert (Hin : In c (chain E d)) by (eapply nth_error_In; eauto).
  pose proof (chain_level _ _ Hin) as H2.
  eapply (proj1 (NoDup_nth_error (chain E d))).
  - apply chain_nodup.
  - now apply level_lt.
  - congruence.
Qed.

(** All classes of a chain are polymorphic, or the chain is a single class. *)
Lemma chain_virtual : forall d c, In c (chain E d) ->
  is_virtual E (TClass c) = is_virtual E (TClass d).
Proof.
  induction d as [d IH] using lt_wf_ind. intros c H.
  apply chain_in_inv in H. destruct H as [(-> & H)|(k & p & Hk & Hp & Hlt & H)]; auto.
  destruct (wf_parent _ _ wf _ _ _ Hk Hp) as (_ & Hv & kp & Hkp & Hvp).
  rewrite (IH _ Hlt _ H). unfold is_virtual. rewrite Hk, Hkp. congruence.
Qed.

Lemma chain_static : forall c k, cls E c = Some k -> cvirt k = false -> chain E c = [c].
Proof.
  intros c k Hk Hv. rewrite chain_eq, Hk.
  destruct (cparent k) as [p|] eqn:Ep; auto.
  destruct (wf_parent _ _ wf _ _ _ Hk Ep) as (_ & Hv' & _). congruence.
Qed.

Lemma root_in_chain : forall d c, In c (chain E d) -> root E c = root E d.
Proof.
  intros d c Hin. unfold root. destruct (chain_prefix _ _ Hin) as (rest & ->).
  destruct (chain E c) eqn:Ec; cbn; auto.
  exfalso. destruct (chain_in_cls _ _ Hin) as (k & Hk).
  eapply chain_nonempty; eauto.
Qed.
End Chains.

(* ------------------------------------------------------------------ *)
(** Lists *)

Lemma upd_same : forall A (l : list A) i x, nth_error l i = Some x -> upd l i x = l.
Proof.
  induction l; intros [|i] x H; cbn in *; try discriminate.
  - now inversion H.
  - f_equal. auto.
Qed.

Lemma upd_length : forall A (l : list A) i x, length (upd l i x) = length l.
Proof. induction l; intros [|i] x; cbn; auto. Qed.

Lemma nth_error_upd_eq : forall A (l : list A) i x,
  (i < length l)%nat -> nth_error (upd l i x) i = Some x.
Proof. induction l; intros [|i] x H; cbn in *; auto; try lia. apply IHl; lia. Qed.

Lemma nth_error_upd_neq : forall A (l : list A) i j x,
  i <> j -> nth_error (upd l i x) j = nth_error l j.
Proof. induction l; intros [|i] [|j] x H; cbn in *; auto; try lia; try congruence. Qed.

Lemma resize_id : forall A (l : list A) d, resize (length l) d l = l.
Proof.
  intros. unfold resize. rewrite firstn_all, Nat.sub_diag. cbn. apply app_nil_r.
Qed.

Lemma resize_length : forall A n (l : list A) d, length (resize n d l) = n.
Proof.
  intros. unfold resize. rewrite app_length, firstn_length, repeat_length. lia.
Qed.

Lemma Forall2_length : forall A B (P : A -> B -> Prop) l l',
  Forall2 P l l' -> length l = length l'.
Proof. intros A B P l l' H. induction H; cbn; auto. Qed.

Lemma Forall2_nth : forall A B (P : A -> B -> Prop) l l' i x y,
  Forall2 P l l' -> nth_error l i = Some x -> nth_error l' i = Some y -> P x y.
Proof.
  intros A B P l l' i x y H. revert i.
  induction H; intros [|i] Hx Hy; cbn in *; try discriminate; eauto.
  inversion Hx; inversion Hy; subst; auto.
Qed.

Lemma Forall2_of_nth : forall A B (P : A -> B -> Prop) l l',
  length l = length l' ->
  (forall i x y, nth_error l i = Some x -> nth_error l' i = Some y -> P x y) ->
  Forall2 P l l'.
Proof.
  induction l; intros [|y l'] Hl H; cbn in *; try discriminate; constructor.
  - apply (H O); reflexivity.
  - apply IHl; [lia|]. intros i u v Hu Hv. apply (H (S i)); auto.
Qed.
