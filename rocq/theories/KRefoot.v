(** Releasing the unused capacity of strings in objects that contain Kokkos views. *)
From Coq Require Import List NArith Arith Bool Lia.
From Coq.Strings Require Import Byte.
From Verif Require Import Base Syntax Prog Serializers Traverse Spec ValFacts ApiFacts Stable Foot FootCopy
  Views ViewSpec ViewFacts ViewRound DynViews KMap Members MembersSpec MembersFacts Crs CrsSpec DynFoot
  MembersFoot ViewFoot KStable.
Import ListNotations.
Local Open Scope N_scope.

Lemma map_same : forall A (g : A -> A) l, (forall x, g x = x) -> map g l = l.
Proof. intros A g l H. induction l; cbn [map]; congruence. Qed.
Lemma plain_id : forall v, plain_by (fun x => x) v = v.
Proof.
  fix IH 1. intros [x|x|x|x|l|c l|o]; cbn [plain_by]; auto.
  - destruct x. unfold elems_by, with_data. cbn. now rewrite map_same.
  - destruct x. cbn. now rewrite map_same.
  - f_equal. induction l as [|a l IHl]; cbn [map]; auto. now rewrite IH, IHl.
  - f_equal. induction l as [|a l IHl]; cbn [map]; auto. now rewrite IH, IHl.
  - destruct o as [y|]; cbn [option_map]; auto. now rewrite IH.
Qed.

Lemma sim_shrunk : forall v, sim eq v (shrunk v).
Proof.
  induction v using val_ind'; cbn [shrunk]; try (constructor; auto; fail).
  - constructor. split; lia.
  - constructor; auto. now apply Forall2_map_id.
  - constructor. now apply Forall2_map_id.
  - apply SimBag with (map shrunk l); [now apply Forall2_map_id|reflexivity].
  - constructor. apply Forall2_map_id. eapply Forall_impl; [|exact H]. intros fs Hfs. now apply Forall2_map_id.
Qed.

Section Held.
Variable E : env.
Hypothesis wf : wf_env any E.
Variable span : list N -> list N -> N.
Variable K : kokkos_map.
Variable f : nat.

Lemma held_value : forall t x, has_ty E t x /\ (depth x < f)%nat -> no_bags x ->
  has_ty E t (shrunk x) /\ (depth (shrunk x) < f)%nat.
Proof.
  intros t x (Ht & Hd) Hb. split; [|now rewrite depth_shrunk].
  eapply has_ty_sim; [exact wf|apply sim_shrunk|exact Hb|exact Ht].
Qed.
Lemma held_values : forall t l, Forall (fun x => has_ty E t x /\ (depth x < f)%nat) l -> Forall no_bags l ->
  Forall (fun x => has_ty E t x /\ (depth x < f)%nat) (map shrunk l).
Proof.
  intros t l H. induction H; intros Hb; inversion Hb; subst; cbn [map]; constructor; auto. now apply held_value.
Qed.
Lemma view_shrunk : forall vt v, view_ok E span vt f v -> (v_live v = true -> Forall no_bags (v_data v)) ->
  view_ok E span vt f (elems_by shrunk v).
Proof.
  intros vt v [] Hb. constructor; auto. cbn [elems_by with_data v_live v_ext v_str v_data]. intros Hl.
  destruct (vo_live Hl) as (H1 & H2 & H3).
  assert (Hlen : len (map shrunk (v_data v)) = len (v_data v)) by (unfold len; now rewrite map_length).
  rewrite Hlen. split; auto. split; auto. apply held_values; auto.
Qed.

Lemma held_shrunk : forall k v, kheld E span K f k v -> orderly k v -> kheld E span K f k (plain_by shrunk v).
Proof.
  induction k as [t|vt|vt|n t|n kt vt|n ms IH|n k IH|n k IH|n k IH] using kty_rec';
    intros [v|v|v|mp|vs|cap l|o] Hh Ho; try contradiction; cbn [plain_by].
  - now apply held_value.
  - now apply view_shrunk.
  - destruct Hh as [->|(Hl & Hok & H7 & Hd)]; [now left|]. right. split; [exact Hl|].
    split; [|split; [exact H7|exact Hd]]. exact (view_shrunk (at_rank vt (length (v_ext v))) v Hok Ho).
  - destruct Hh as (Hh & H1 & H2). cbn [kheld orderly] in *. destruct Hh.
    assert (Hlen : len (map shrunk (d_elems v)) = len (d_elems v)) by (unfold len; now rewrite map_length).
    match goal with |- dview_ok _ _ _ ?b /\ _ =>
      assert (Hal : allocation_extent b = allocation_extent v)
        by (unfold allocation_extent; cbn [d_chunk d_elems]; now rewrite Hlen) end.
    split; [|split; auto; now rewrite Hal]. constructor; auto.
    + now rewrite Hal.
    + cbn [d_elems d_chunk d_chunks]. now rewrite Hlen.
    + now apply held_values.
  - cbn [kheld orderly] in *. revert vs Hh Ho.
    induction IH as [|k ms Hk _ IHl]; intros [|v vs] Hh Ho; try contradiction; auto.
    destruct Hh as (H1 & H2), Ho as (O1 & O2). cbn [map].
    split; [exact (Hk v H1 O1)|exact (IHl vs H2 O2)].
  - cbn [kheld orderly] in *. destruct Hh as (Hl & H1 & H2).
    assert (Hlen : len (map (plain_by shrunk) l) = len l) by (unfold len; now rewrite map_length).
    rewrite Hlen. split; auto. clear H1 Hlen. induction Hl; cbn [map]; constructor; inversion Ho; subst; auto.
  - destruct o; cbn [option_map kheld orderly] in *; auto.
  - destruct o; cbn [option_map kheld orderly] in *; auto.
Qed.

Lemma takes_shrunk_list : forall t l ns, Forall2 (takes E t) l ns ->
  exists ns', Forall2 (takes E t) (map shrunk l) ns' /\ total ns' <= total ns.
Proof.
  intros t l ns H. induction H as [|x n l ns Hx _ (ns' & H1 & H2)]; [exists []; split; [constructor|reflexivity]|].
  destruct (takes_shrunk E t x n Hx) as (n' & Hn & Hle).
  exists (n' :: ns'). split; [now constructor|]. unfold total in *. cbn [fold_right]. lia.
Qed.

(** Releasing capacity makes no object larger. *)
Lemma ktakes_shrunk : forall k v n, ktakes E span k v n ->
  exists n', ktakes E span k (plain_by shrunk v) n' /\ n' <= n.
Proof.
  induction k as [t|vt|vt|n t|n kt vt|n ms IH|n k IH|n k IH|n k IH] using kty_rec'; intros v q Hq.
  - inversion Hq; subst. destruct (takes_shrunk E t v0 q) as (n' & H1 & H2); auto.
    exists n'. split; auto. now constructor.
  - inversion Hq as [|? ? l ns K1 K2 K3 K4 K5| | | | | | | | | ]; subst.
    destruct (takes_shrunk_list _ _ _ K5) as (ns' & H1 & H2).
    exists (header E vt v0 + total ns'). split; [|lia].
    change (header E vt v0) with (header E vt (elems_by shrunk v0)).
    apply KtView with (l := map shrunk l); auto. apply stored_by. eauto.
  - inversion Hq as [| |? ? l ns K1 K2 K3| | | | | | | | ]; subst.
    destruct (takes_shrunk_list _ _ _ K3) as (ns' & H1 & H2).
    exists (dyn_header E vt v0 + total ns'). split; [|lia].
    change (dyn_header E vt v0) with (dyn_header E vt (elems_by shrunk v0)).
    apply KtRank with (l := map shrunk l); auto. apply stored_by. eauto.
  - inversion Hq as [| | |? ? v0 ns K1| | | | | | | ]; subst.
    destruct (takes_shrunk_list _ _ _ K1) as (ns' & H1 & H2).
    exists (dynamic_header E v0 + total ns'). split; [|lia].
    cbn [plain_by]. match goal with |- ktakes _ _ _ (ODynamic ?b) _ =>
      change (dynamic_header E v0) with (dynamic_header E b) end. now constructor.
  - inversion Hq; subst. eexists. split; [exact Hq|reflexivity].
  - inversion Hq as [| | | | |? ? vs ns K1 K2| | | | | ]; subst. cbn [plain_by].
    assert (G : exists ns', length ms = length (map (plain_by shrunk) vs) /\
      Forall2 (fun p n => ktakes E span (fst p) (snd p) n) (combine ms (map (plain_by shrunk) vs)) ns' /\
      total ns' <= total ns).
    { clear Hq. revert vs ns K1 K2. induction IH as [|k ms Hk _ IHl]; intros [|v vs] ns K1 K2; try discriminate.
      - exists []. inversion K2; subst. split; auto. split; [constructor|reflexivity].
      - cbn [combine] in K2. inversion K2 as [|? a ? r N1 N2]; subst. cbn [fst snd] in N1.
        destruct (Hk v a N1) as (a' & A1 & A2). destruct (IHl vs r) as (r' & R1 & R2 & R3); auto.
        exists (a' :: r'). cbn [map length combine]. split; [now f_equal|]. split; [now constructor|].
        unfold total in *. cbn [fold_right]. lia. }
    destruct G as (ns' & G1 & G2 & G3). exists (total ns'). split; auto. now constructor.
  - inversion Hq as [| | | | | |? ? cap l ns Q1 Q2| | | | ]; subst. cbn [plain_by].
    assert (G : exists ns', Forall2 (ktakes E span k) (map (plain_by shrunk) l) ns' /\ total ns' <= total ns).
    { clear - IH Q2. induction Q2 as [|x a l r Hx _ (r' & R1 & R2)]; [exists []; split; [constructor|reflexivity]|].
      destruct (IH x a Hx) as (a' & A1 & A2). exists (a' :: r'). split; [now constructor|].
      unfold total in *. cbn [fold_right]. lia. }
    destruct G as (ns' & G1 & G2). eexists. split; [now constructor; [|exact G1]|].
    assert (Hlen : len (map (plain_by shrunk) l) = len l) by (unfold len; now rewrite map_length).
    rewrite Hlen. lia.
  - inversion Hq; subst; cbn [plain_by option_map]; eexists; (split; [constructor|reflexivity]).
  - inversion Hq; subst; cbn [plain_by option_map].
    + eexists. split; [constructor|reflexivity].
    + match goal with H : ktakes _ _ k _ _ |- _ => destruct (IH _ _ H) as (n' & H1 & H2) end.
      eexists. split; [constructor; exact H1|]. lia.
Qed.
End Held.
