(** What a view takes that was read from the data of another one. *)
From Coq Require Import List NArith Arith Bool Lia Permutation.
From Verif Require Import Base Syntax Prog Serializers Traverse Spec ProgFacts ValFacts Foot FootCopy
  Views ViewSpec ViewFacts ViewRound DynViews Crs CrsSpec.
Import ListNotations.
Local Open Scope N_scope.

Lemma takes_read : forall E t a b n, no_strings a -> sim eq a b -> takes E t a n -> takes E t b n.
Proof.
  intros E t a b n Hs Hc Ht. rewrite <- (shrunk_none a Hs) in Ht.
  destruct (takes_copy eq E t a b n (or_introl eq_refl) Hc Ht) as (n' & Hn & <-).
  now rewrite (shrunk_none b) in Hn by (eapply no_strings_sim; eauto).
Qed.
(** [g a] takes [n] bytes, and what was read from the data of [a] too; [ok]: for which [a]. *)
Definition carries (E : env) (g : val -> val) (ok : val -> Prop) : Prop :=
  forall t a b n, ok a -> sim eq a b -> takes E t (g a) n -> takes E t (g b) n.
Lemma carries_id : forall E, carries E (fun x => x) no_strings.
Proof. intros E t a b n. apply takes_read. Qed.
Lemma carries_shrunk : forall E, carries E shrunk (fun _ => True).
Proof.
  intros E t a b n _ Hc Ht. destruct (takes_copy eq E t a b n (or_introl eq_refl) Hc Ht) as (n' & Hn & <-). exact Hn.
Qed.

Lemma takes_read_list : forall E g ok t l l', carries E g ok -> Forall2 (sim eq) l l' -> Forall ok l ->
  forall ns, Forall2 (takes E t) (map g l) ns -> Forall2 (takes E t) (map g l') ns.
Proof.
  intros E g ok t l l' Hg H. induction H; intros Hs ns Hn; cbn [map] in *; inversion Hn; subst; constructor;
    inversion Hs; subst; auto.
  eapply Hg; eauto.
Qed.

(** A view with other elements. *)
Definition elems_by (g : val -> val) (v : view) : view := with_data v (map g (v_data v)).
Lemma at_by : forall g v idx, at_ (elems_by g v) idx = option_map g (at_ v idx).
Proof. intros g v idx. unfold at_, elems_by. cbn [with_data v_str v_data]. apply nth_error_map. Qed.
Lemma contiguous_by : forall span k g v, contiguous span k (elems_by g v) = contiguous span k v.
Proof. reflexivity. Qed.
Lemma at_list_by : forall g v L l, Forall2 (fun idx x => at_ (elems_by g v) idx = Some x) L l <->
  exists l0, Forall2 (fun idx x => at_ v idx = Some x) L l0 /\ l = map g l0.
Proof.
  intros g v L. induction L as [|i L IH]; intros l; split.
  - intros H. inversion H; subst. exists []. split; auto.
  - intros (l0 & H & ->). inversion H; subst. constructor.
  - intros H. inversion H as [|? y ? l' H1 H2]; subst. rewrite at_by in H1.
    destruct (at_ v i) as [x|] eqn:Hx; [|discriminate]. injection H1 as <-.
    apply IH in H2. destruct H2 as (l0 & H2 & ->). exists (x :: l0). split; auto.
  - intros (l0 & H & ->). inversion H as [|? x ? l' H1 H2]; subst. cbn [map]. constructor.
    + rewrite at_by, H1. reflexivity.
    + apply IH. eauto.
Qed.
Lemma stored_by : forall span vt g v l, stored span vt (elems_by g v) l <->
  exists l0, stored span vt v l0 /\ l = map g l0.
Proof.
  intros span vt g v l. unfold stored. rewrite contiguous_by. cbn [elems_by with_data v_live v_ext v_data].
  destruct (v_live v).
  - destruct (contiguous span (vt_kind vt) v).
    + rewrite firstn_map. split; [intros ->; eauto|]. intros (l0 & -> & ->). reflexivity.
    + split.
      * intros (L & HL & H). apply at_list_by in H. destruct H as (l0 & H & ->). eauto.
      * intros (l0 & (L & HL & H) & ->). exists L. split; auto. apply at_list_by. eauto.
  - split; [intros ->; exists []; auto|]. intros (l0 & -> & ->). reflexivity.
Qed.

(** The memory of a view with the strides that Kokkos chooses holds its elements, each once. *)
Lemma dense : forall k x L l, (k = LLeft \/ k = LRight) -> v_str x = natural k (v_ext x) ->
  len (v_data x) = prod (v_ext x) -> row_major (v_ext x) L ->
  Forall2 (fun idx y => at_ x idx = Some y) L l -> Permutation l (v_data x).
Proof.
  intros k x L l Hk Hs Hlen (Hnd & Hin & _) Hat.
  set (off := fun idx => N.to_nat (offset (v_str x) idx)).
  assert (HL : length L = length (v_data x)).
  { assert (HP : Permutation L (indices (v_ext x))).
    { apply NoDup_Permutation; auto using indices_nodup. intros i. rewrite Hin. symmetry. apply in_indices. }
    apply Permutation_length in HP. pose proof (indices_length (v_ext x)) as Hi. unfold len in *. lia. }
  assert (HP : Permutation (map off L) (seq 0 (length (v_data x)))).
  { apply NoDup_Permutation_bis.
    - assert (G : forall L', incl L' L -> NoDup L' -> NoDup (map off L')); [|apply G; auto; apply incl_refl].
      induction L' as [|i L' IH]; intros Hi Hn; constructor; inversion Hn as [|? ? Hi' Hn']; subst.
      + intros Hj. apply in_map_iff in Hj. destruct Hj as (j & Hj & Hj'). apply Hi'.
        assert (He : i = j); [|congruence].
        apply (natural_inj k (v_ext x)).
        * apply Hin, Hi. now left.
        * apply Hin, Hi. now right.
        * rewrite <- Hs. unfold off in Hj. lia.
      + apply IH; auto. intros j Hj. apply Hi. now right.
    - rewrite map_length, seq_length. lia.
    - intros n Hn. apply in_map_iff in Hn. destruct Hn as (i & <- & Hi). apply in_seq.
      apply Hin in Hi. pose proof (natural_bound k _ _ Hi) as Hb. rewrite <- Hs in Hb. unfold off, len in *. lia. }
  destruct (v_data x) as [|d r] eqn:Hd.
  - destruct L; [|discriminate]. inversion Hat; subst. constructor.
  - assert (Hl : l = map (fun i => nth i (d :: r) d) (map off L)).
    { clear - Hat Hd. induction Hat as [|i y L l Hy Hat IH]; auto. cbn [map]. f_equal; auto.
      unfold at_ in Hy. rewrite Hd in Hy. symmetry. now apply nth_error_nth. }
    assert (Hr : d :: r = map (fun i => nth i (d :: r) d) (seq 0 (length (d :: r)))).
    { clear. generalize (d :: r). intros l. generalize d. clear.
      induction l as [|a l IH]; intros d; auto. cbn [length seq map nth]. f_equal.
      rewrite <- seq_shift, map_map. apply IH. }
    rewrite Hl. eapply Permutation_trans; [apply Permutation_map; exact HP|]. rewrite <- Hr. apply Permutation_refl.
Qed.

(** [x] was read from the data of the allocated view [v]. *)
Lemma stored_read : forall E g ok span vt d v x l ns, carries E g ok -> length (v_str v) = length (v_ext v) ->
  (forall idx, in_bounds idx (v_ext v) -> offset (v_str v) idx < len (v_data v)) ->
  v_live v = true -> Forall ok (v_data v) ->
  read_by eq span vt v (shell vt span d v) x ->
  stored span vt (elems_by g v) l -> Forall2 (takes E (vt_elem vt)) l ns ->
  exists l' ns', stored span vt (elems_by g x) l' /\ Forall2 (takes E (vt_elem vt)) l' ns' /\ total ns' = total ns.
Proof.
  intros E g ok span vt d v x l0 ns Hg Hsl Hmem Hl Hns [Hc (S1 & S2 & S3 & S4 & S5) Hp _] Hst0 Htk.
  apply stored_by in Hst0. destruct Hst0 as (l & Hst & ->).
  enough (G : exists l' ns', stored span vt x l' /\ Forall2 (takes E (vt_elem vt)) (map g l') ns' /\ total ns' = total ns).
  { destruct G as (l' & ns' & G1 & G2 & G3). exists (map g l'), ns'. split; [apply stored_by; eauto|auto]. }
  cbn [shell v_label v_ext v_str v_live v_data] in S1, S2, S3, S4, S5. rewrite repeat_length in S5.
  unfold stored in *. rewrite Hl in Hst. rewrite S4.
  destruct (contiguous span (vt_kind vt) v) eqn:Hcv.
  - assert (Hcx : contiguous span (vt_kind vt) x = true).
    { rewrite <- Hcv. unfold contiguous in *. rewrite S2, S3. destruct (vt_kind vt); auto;
        rewrite (eqb_list_eq _ _ Hcv); auto. }
    rewrite Hcx, S2. exists (firstn (N.to_nat (prod (v_ext v))) (v_data x)), ns. split; auto. split; auto.
    subst l. eapply takes_read_list; [exact Hg|exact (Hp eq_refl)|now apply Forall_firstn'|exact Htk].
  - destruct Hst as (L & HL & Hat).
    assert (G : exists l', Forall2 (fun idx y => at_ x idx = Some y) L l' /\ Forall2 (takes E (vt_elem vt)) (map g l') ns).
    { assert (Hin : forall i, In i L -> in_bounds i (v_ext v)) by (intros i; apply HL).
      clear HL. revert ns Htk. induction Hat as [|i y L l Hy Hat IH]; intros ns Htk; cbn [map] in Htk; inversion Htk; subst.
      - exists []. split; constructor.
      - destruct (IH ltac:(intros; apply Hin; now right) l') as (r & R1 & R2); auto.
        destruct (vc_elems _ _ _ Hc Hl i) as (a & b & Ha & Hb & Hab); [apply Hin; now left|].
        rewrite Hy in Ha. injection Ha as <-. exists (b :: r). split; constructor; auto.
        eapply Hg; eauto. rewrite Forall_forall in Hns. apply Hns. eapply at_in; eauto. }
    destruct G as (l' & Hat' & Htk').
    destruct (contiguous span (vt_kind vt) x) eqn:Hcx.
    + destruct (vt_kind vt) eqn:Hk.
      1, 2: exists (firstn (N.to_nat (prod (v_ext x))) (v_data x));
        assert (HP : Permutation l' (v_data x));
        [eapply dense; [|rewrite S2; exact S3|rewrite S2; unfold len; lia|rewrite S2; exact HL|exact Hat']; auto|];
        destruct (Forall2_perm_l _ _ _ _ _ (Permutation_map g HP) _ Htk') as (ns' & Hn' & HPn);
        exists ns'; split; auto; rewrite firstn_all2 by (rewrite S2; lia); split; auto;
        symmetry; now apply total_perm.
      unfold contiguous in *. rewrite S2, S3 in Hcx. congruence.
    + exists l', ns. split; auto. exists L. rewrite S2. auto.
Qed.

(** [v] has no elements, and the new view neither. *)
Lemma stored_none : forall span vt d v, length (v_ext v) = length (v_str v) -> prod (v_ext v) = 0 ->
  stored span vt (shell vt span d v) [].
Proof.
  intros span vt d v Hl Hz. unfold stored. cbn [shell v_live v_ext]. rewrite Hz.
  match goal with |- if ?c then _ else _ => destruct c end; auto.
  exists []. split; [|constructor]. split; [constructor|]. split; [|constructor].
  intros idx. split; [contradiction|]. intros Hi. apply in_indices in Hi.
  pose proof (indices_length (v_ext v)) as Hn. rewrite Hz in Hn. unfold len in Hn.
  destruct (indices (v_ext v)); [contradiction|discriminate].
Qed.
