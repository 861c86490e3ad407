(** Facts about views: index enumeration, strides, and what the traversals emit
    and read. *)
From Coq Require Import List NArith Arith Bool Lia Sorted.
From Verif Require Import Base Syntax Prog Serializers Traverse Spec ProgFacts EnvFacts ValFacts
  Fails RegistryFacts Pack Unpack ApiFacts Views ViewSpec.
Import ListNotations.
Local Open Scope N_scope.

(** ** Programs with the same behaviour *)
Lemma emits_peq : forall A (p q : prog A) vf a vf' out, peq p q ->
  emits q vf a vf' out -> emits p vf a vf' out.
Proof. intros * Hp H s. rewrite Hp. apply H. Qed.
Lemma reads_peq : forall A (p q : prog A) vf i a vf', peq p q ->
  reads q vf i a vf' -> reads p vf i a vf'.
Proof. intros * Hp H e r. rewrite Hp. apply H. Qed.

Lemma foldP_app_peq : forall A B (f : B -> A -> prog B) l1 l2 b,
  peq (foldP f (l1 ++ l2) b) (bind (foldP f l1 b) (fun b' => foldP f l2 b')).
Proof.
  induction l1; intros l2 b; cbn [app foldP]; [apply peq_refl|].
  eapply peq_trans; [|intros H vf st; symmetry; apply peq_assoc].
  apply peq_bind; [apply peq_refl|]. intros x. apply IHl1.
Qed.

Lemma foldP_ext : forall A B (f g : B -> A -> prog B) l b,
  (forall b a, peq (f b a) (g b a)) -> peq (foldP f l b) (foldP g l b).
Proof.
  induction l; intros b H; cbn [foldP]; [apply peq_refl|].
  apply peq_bind; auto.
Qed.

Lemma foldP_map : forall A B C (f : B -> C -> prog B) (h : A -> C) l b,
  peq (foldP f (map h l) b) (foldP (fun b a => f b (h a)) l b).
Proof.
  induction l; intros b; cbn [map foldP]; [apply peq_refl|].
  apply peq_bind; [apply peq_refl|]. intros x. apply IHl.
Qed.

(** ** Enumerating index tuples *)
Fixpoint nest {S} (ext : list N) (k : list N -> S -> prog S) (s : S) : prog S :=
  match ext with
  | [] => k [] s
  | e :: r => for_ e (fun i => nest r (fun idx => k (i :: idx))) s
  end.

Lemma nest_foldP : forall S ext (k : list N -> S -> prog S) s,
  peq (nest ext k s) (foldP (fun s idx => k idx s) (indices ext) s).
Proof.
  intros S ext. induction ext as [|e r IH]; intros k s; cbn [nest indices].
  - cbn [foldP]. intros H vf st. symmetry. apply peq_ret_r.
  - unfold for_. revert s. induction (seq 0 (N.to_nat e)) as [|i l IHl]; intros s; cbn [foldP flat_map].
    + apply peq_refl.
    + eapply peq_trans; [|intros H vf st; symmetry; apply foldP_app_peq].
      apply peq_bind; [|intros a; apply IHl].
      eapply peq_trans; [apply IH|]. intros H vf st. symmetry. apply foldP_map.
Qed.

Lemma in_seqN : forall e i, In i (seq 0 (N.to_nat e)) <-> N.of_nat i < e.
Proof. intros. rewrite in_seq. lia. Qed.

Lemma in_indices : forall ext idx, In idx (indices ext) <-> in_bounds idx ext.
Proof.
  unfold in_bounds. induction ext as [|e r IH]; intros idx; cbn [indices].
  - split.
    + intros [<-|[]]. constructor.
    + intros H. inversion H. now left.
  - rewrite in_flat_map. split.
    + intros (i & Hi & Hm). apply in_map_iff in Hm. destruct Hm as (x & <- & Hx).
      constructor; [now apply in_seqN|now apply IH].
    + intros H. inversion H as [|i ? a ? Hi Ha]; subst. exists (N.to_nat i). split.
      * apply in_seqN. now rewrite N2Nat.id.
      * rewrite N2Nat.id. apply in_map. now apply IH.
Qed.

Lemma sorted_app : forall A (R : A -> A -> Prop) l1 l2, StronglySorted R l1 -> StronglySorted R l2 ->
  (forall a b, In a l1 -> In b l2 -> R a b) -> StronglySorted R (l1 ++ l2).
Proof.
  intros A R l1 l2 H1 H2 H. induction H1 as [|x l Hl IH Hx]; cbn [app]; auto.
  constructor.
  - apply IH. intros; apply H; [now right|auto].
  - apply Forall_app. split; auto. apply Forall_forall. intros b Hb. apply H; [now left|auto].
Qed.

Lemma indices_sorted : forall ext, StronglySorted lex (indices ext).
Proof.
  induction ext as [|e r IH]; cbn [indices].
  - repeat constructor.
  - assert (Hm : forall i, StronglySorted lex (map (cons (N.of_nat i)) (indices r))).
    { intros i. clear -IH. induction IH as [|x l Hl IHl Hx]; cbn [map]; constructor; auto.
      apply Forall_map. eapply Forall_impl; [|exact Hx]. intros a Ha. now constructor. }
    assert (G : forall n a, StronglySorted lex
               (flat_map (fun i => map (cons (N.of_nat i)) (indices r)) (seq a n))).
    { induction n; intros a; cbn [seq flat_map]; [constructor|].
      apply sorted_app; auto. intros x y Hx Hy.
      apply in_map_iff in Hx. destruct Hx as (x' & <- & _).
      apply in_flat_map in Hy. destruct Hy as (j & Hj & Hy). apply in_seq in Hj.
      apply in_map_iff in Hy. destruct Hy as (y' & <- & _). constructor. lia. }
    apply G.
Qed.

Lemma lex_irrefl : forall a, ~ lex a a.
Proof.
  induction a as [|i a IH]; intros H; inversion H; subst; [lia|auto].
Qed.

Lemma indices_nodup : forall ext, NoDup (indices ext).
Proof.
  intros ext. pose proof (indices_sorted ext) as H. induction H as [|x l Hl IH Hx]; constructor; auto.
  intros Hin. rewrite Forall_forall in Hx. exact (lex_irrefl _ (Hx _ Hin)).
Qed.

Lemma indices_row_major : forall ext, row_major ext (indices ext).
Proof.
  intros ext. split; [apply indices_nodup|]. split; [apply in_indices|apply indices_sorted].
Qed.

(** There is only one row-major enumeration. *)
Lemma lex_trans : forall a b c, lex a b -> lex b c -> lex a c.
Proof.
  intros a b c H. revert c. induction H; intros c Hc; inversion Hc; subst.
  - constructor. lia.
  - now constructor.
  - now constructor.
  - apply LexThere. auto.
Qed.

Lemma sorted_unique : forall A (R : A -> A -> Prop), (forall a, ~ R a a) ->
  (forall a b c, R a b -> R b c -> R a c) ->
  forall l l', StronglySorted R l -> StronglySorted R l' -> (forall x, In x l <-> In x l') -> l = l'.
Proof.
  intros A R Hirr Htr l l' H. revert l'.
  induction H as [|x l Hl IH Hx]; intros l' H' Hin.
  - destruct l' as [|y l']; auto. exfalso. apply (Hin y). now left.
  - destruct H' as [|y l' Hl' Hy].
    { exfalso. apply (Hin x). now left. }
    rewrite Forall_forall in Hx, Hy.
    assert (x = y).
    { destruct (proj1 (Hin x) (or_introl eq_refl)) as [->|H1]; auto.
      destruct (proj2 (Hin y) (or_introl eq_refl)) as [->|H2]; auto.
      exfalso. apply (Hirr x). eauto. }
    subst y. f_equal. apply IH; auto. intros z. split; intros Hz.
    + destruct (proj1 (Hin z) (or_intror Hz)) as [->|Hz']; auto.
      exfalso. eapply Hirr, Hx, Hz.
    + destruct (proj2 (Hin z) (or_intror Hz)) as [->|Hz']; auto.
      exfalso. eapply Hirr, Hy, Hz.
Qed.

Lemma row_major_unique : forall ext l, row_major ext l -> l = indices ext.
Proof.
  intros ext l (_ & Hin & Hs). apply (sorted_unique _ lex); auto using lex_irrefl, indices_sorted.
  - apply lex_trans.
  - intros x. now rewrite Hin, in_indices.
Qed.

Lemma indices_length : forall ext, len (indices ext) = prod ext.
Proof.
  unfold len. induction ext as [|e r IH]; cbn [indices prod fold_right]; auto.
  assert (G : forall n a, N.of_nat (length (flat_map (fun i => map (cons (N.of_nat i)) (indices r)) (seq a n)))
                          = N.of_nat n * prod r).
  { induction n; intros a; cbn [seq flat_map]; [reflexivity|].
    rewrite app_length, map_length, Nat2N.inj_add, IHn, IH. unfold prod. lia. }
  rewrite G. unfold prod. lia.
Qed.

(** ** Strides *)
Lemma right_strides_length : forall ext, length (right_strides ext) = length ext.
Proof. induction ext; cbn; auto. Qed.
Lemma left_strides_length : forall ext a, length (left_strides a ext) = length ext.
Proof. induction ext; intros; cbn; auto. Qed.
Lemma natural_length : forall k ext, length (natural k ext) = length ext.
Proof. intros [] ext; cbn; auto using right_strides_length, left_strides_length. Qed.

Lemma right_bound : forall ext idx, in_bounds idx ext -> offset (right_strides ext) idx < prod ext.
Proof.
  unfold in_bounds. intros ext idx H. induction H as [|i e idx ext Hi H IH];
    cbn [right_strides offset prod fold_right]; [lia|].
  fold (prod ext). nia.
Qed.

Lemma right_inj : forall ext idx idx', in_bounds idx ext -> in_bounds idx' ext ->
  offset (right_strides ext) idx = offset (right_strides ext) idx' -> idx = idx'.
Proof.
  unfold in_bounds. intros ext idx idx' H. revert idx'.
  induction H as [|i e idx ext Hi H IH]; intros idx' H' Heq; inversion H' as [|j ? idx2 ? Hj H2]; subst; auto.
  cbn [right_strides offset] in Heq.
  pose proof (right_bound _ _ H) as B1. pose proof (right_bound _ _ H2) as B2.
  assert (i = j /\ offset (right_strides ext) idx = offset (right_strides ext) idx2) as (-> & He).
  { generalize dependent (offset (right_strides ext) idx).
    generalize dependent (offset (right_strides ext) idx2). generalize (prod ext). clear.
    intros p a Ha b Hb Heq Hc.
    assert (i = j) by nia. subst. split; auto. lia. }
  f_equal. auto.
Qed.

Lemma left_scale : forall ext a idx,
  offset (left_strides a ext) idx = a * offset (left_strides 1 ext) idx.
Proof.
  induction ext as [|e r IH]; intros a idx; cbn [left_strides offset]; [destruct idx; lia|].
  destruct idx as [|i idx]; [lia|]. rewrite (IH (a * e)), (IH (1 * e)).
  generalize (offset (left_strides 1 r) idx). intros. lia.
Qed.

Lemma left_bound : forall ext idx, in_bounds idx ext -> offset (left_strides 1 ext) idx < prod ext.
Proof.
  unfold in_bounds. intros ext idx H. induction H as [|i e idx ext Hi H IH];
    cbn [left_strides offset prod fold_right]; [lia|].
  fold (prod ext). rewrite left_scale. nia.
Qed.

Lemma left_inj : forall ext idx idx', in_bounds idx ext -> in_bounds idx' ext ->
  offset (left_strides 1 ext) idx = offset (left_strides 1 ext) idx' -> idx = idx'.
Proof.
  unfold in_bounds. intros ext idx idx' H. revert idx'.
  induction H as [|i e idx ext Hi H IH]; intros idx' H' Heq; inversion H' as [|j ? idx2 ? Hj H2]; subst; auto.
  cbn [left_strides offset] in Heq. rewrite !(left_scale ext (1 * e)) in Heq.
  assert (i = j /\ offset (left_strides 1 ext) idx = offset (left_strides 1 ext) idx2) as (-> & He).
  { revert Heq. generalize (offset (left_strides 1 ext) idx), (offset (left_strides 1 ext) idx2).
    intros b a Heq.
    assert (b = a).
    { destruct (N.lt_trichotomy b a) as [Hl|[->|Hl]]; auto; exfalso.
      - assert (e * (b + 1) <= e * a) by (apply N.mul_le_mono_l; lia). lia.
      - assert (e * (a + 1) <= e * b) by (apply N.mul_le_mono_l; lia). lia. }
    subst. split; auto. lia. }
  f_equal. auto.
Qed.

Lemma natural_bound : forall k ext idx, in_bounds idx ext -> offset (natural k ext) idx < prod ext.
Proof. intros [] ext idx H; cbn [natural]; auto using right_bound, left_bound. Qed.
Lemma natural_inj : forall k ext idx idx', in_bounds idx ext -> in_bounds idx' ext ->
  offset (natural k ext) idx = offset (natural k ext) idx' -> idx = idx'.
Proof. intros [] ext idx idx' H; cbn [natural]; eauto using right_inj, left_inj. Qed.

Lemma eqb_list_eq : forall a b, eqb_list a b = true -> a = b.
Proof.
  induction a; intros [|y b] H; cbn [eqb_list] in H; try discriminate; auto.
  apply andb_prop in H. destruct H as (H1 & H2). apply N.eqb_eq in H1. subst. f_equal. auto.
Qed.

(** ** Access *)
Lemma at_some : forall v idx, offset (v_str v) idx < len (v_data v) -> exists x, at_ v idx = Some x.
Proof.
  intros v idx H. unfold at_. destruct (nth_error (v_data v) (N.to_nat (offset (v_str v) idx))) eqn:E; eauto.
  exfalso. apply nth_error_None in E. unfold len in H. lia.
Qed.

Lemma set_at_some : forall v idx x, offset (v_str v) idx < len (v_data v) ->
  set_at v idx x = Some (with_data v (upd (v_data v) (N.to_nat (offset (v_str v) idx)) x)).
Proof.
  intros v idx x H. unfold set_at. unfold len in H.
  destruct (Nat.ltb_spec (N.to_nat (offset (v_str v) idx)) (length (v_data v))); auto. lia.
Qed.

Lemma at_in : forall v idx x, at_ v idx = Some x -> In x (v_data v).
Proof. intros v idx x H. eapply nth_error_In, H. Qed.

(** ** What the traversals write *)
Section Emit.
Variable F : N -> Prop.
Variable E : env.
Hypothesis wf : wf_env F E.
Variable m : mode.
Hypothesis Hm : m = MPacking \/ m = MSizing.
Variable f : nat.
Variable t : ty.

Notation rec := (with_ E m f).
Notation ok := (fun x => has_ty E t x /\ (depth x < f)%nat).

Lemma e_visit : forall v idx x, at_ v idx = Some x -> ok x ->
  emits (visit E m rec t idx v) false v false (enc E t x).
Proof.
  intros v idx x Hx (Ht & Hd). unfold visit. rewrite (m_unp m Hm), Hx. cbn [valid bind].
  eapply emits_eq; [|apply app_nil_r]. eapply emits_bind; [|apply emits_ret].
  apply (p_ser E rec f (proj1 (pack_all F E wf m Hm f))); auto. now constructor.
Qed.

Lemma e_visit0 : forall v x, at_ v [] = Some x -> ok x ->
  emits (visit0 m rec t v) false v false (enc E t x).
Proof.
  intros v x Hx (Ht & Hd). unfold visit0. rewrite (m_unp m Hm), Hx. cbn [valid bind].
  eapply emits_eq; [|apply app_nil_r]. eapply emits_bind; [|apply emits_ret].
  apply (p_ser E rec f (proj1 (pack_all F E wf m Hm f))); auto. now constructor.
Qed.

Lemma e_fold : forall v l xs, Forall2 (fun idx x => at_ v idx = Some x) l xs -> Forall ok xs ->
  emits (foldP (fun s idx => visit E m rec t idx s) l v) false v false (concat (map (enc E t) xs)).
Proof.
  intros v l xs H. induction H; intros Hok; cbn [foldP map concat].
  - apply emits_ret.
  - inversion Hok; subst. eapply emits_bind; [apply e_visit; eauto|auto].
Qed.
End Emit.

Lemma traverse_nest : forall E m rec t v, (1 <= length (v_ext v) <= 8)%nat ->
  traverse_manual E m rec (length (v_ext v)) t v = nest (v_ext v) (visit E m rec t) v.
Proof.
  intros E m rec t [lab ext str data live]. cbn [v_ext]. intros H.
  destruct ext as [|e0 ext]; [cbn in H; lia|].
  do 8 (destruct ext as [|? ext]; [reflexivity|]). cbn in H. lia.
Qed.

Lemma e_traverse : forall F E, wf_env F E -> forall m, m = MPacking \/ m = MSizing ->
  forall f t v xs, (length (v_ext v) <= 8)%nat ->
  Forall2 (fun idx x => at_ v idx = Some x) (indices (v_ext v)) xs ->
  Forall (fun x => has_ty E t x /\ (depth x < f)%nat) xs ->
  emits (traverse_manual E m (with_ E m f) (length (v_ext v)) t v) false v false
    (concat (map (enc E t) xs)).
Proof.
  intros F E wf m Hm f t v xs Hr Hx Hok.
  destruct (Nat.eq_dec (length (v_ext v)) 0) as [H0|H0].
  - rewrite H0. destruct (v_ext v); [|discriminate]. cbn [indices] in Hx.
    inversion Hx as [|? x ? ? Hx1 Hx2]; subst. inversion Hx2; subst. inversion Hok; subst.
    cbn [traverse_manual map concat]. rewrite app_nil_r. eapply e_visit0; eauto.
  - rewrite traverse_nest by lia. eapply emits_peq; [apply nest_foldP|]. eapply e_fold; eauto.
Qed.

(** ** What the traversals read *)
Definition same_shape (v w : view) : Prop :=
  v_label w = v_label v /\ v_ext w = v_ext v /\ v_str w = v_str v /\ v_live w = v_live v /\
  length (v_data w) = length (v_data v).

Lemma at_upd_same : forall v idx x, offset (v_str v) idx < len (v_data v) ->
  at_ (with_data v (upd (v_data v) (N.to_nat (offset (v_str v) idx)) x)) idx = Some x.
Proof.
  intros v idx x H. unfold at_. cbn [v_str v_data with_data].
  apply nth_error_upd_eq. unfold len in H. lia.
Qed.

Lemma at_upd_other : forall v idx idx' x, offset (v_str v) idx <> offset (v_str v) idx' ->
  at_ (with_data v (upd (v_data v) (N.to_nat (offset (v_str v) idx)) x)) idx' = at_ v idx'.
Proof.
  intros v idx idx' x H. unfold at_. cbn [v_str v_data with_data].
  apply nth_error_upd_neq. lia.
Qed.

Lemma in_upd : forall A (l : list A) i x y, In y (upd l i x) -> y = x \/ In y l.
Proof.
  intros A l. induction l as [|a l IH]; intros [|i] x y H; cbn in *; auto.
  - destruct H; auto.
  - destruct H as [H|H]; auto. apply IH in H. tauto.
Qed.

Definition Cany (c w : N) : Prop := True.
Lemma Cany_any : forall c w : N, any w -> Cany c w.
Proof. intros; exact I. Qed.
Lemma Cany_max : forall c w : N, Cany c w -> c <= N.max w c.
Proof. intros; lia. Qed.

Section Read.
Variable E : env.
Variable F : N -> Prop.
Hypothesis wf : wf_env F E.
Variable C : N -> N -> Prop.
Variable R : N -> N -> Prop.
Hypothesis HFC : forall c w, F w -> C c w.
Hypothesis HCR : forall c w, C c w -> R c (N.max w c).
Variable f : nat.
Variable t : ty.

Notation m := MUnpacking.
Notation rec := (with_ E m f).
Notation ok := (fun x => has_ty E t x /\ (depth x < f)%nat).

Lemma g_ser : forall x w, ok x -> target C E t x w ->
  exists y, sim R x y /\ reads (ser rec t w) false (enc E t x) y false.
Proof.
  intros x w (Ht & Hd) Hw.
  apply (u_ser E C R rec f (proj1 (unpack_all F E wf C R HFC HCR f)) t x w); auto.
  - now constructor.
  - now apply TgtTy.
Qed.

Lemma g_visit : forall d x w idx, dflt E t = Some d -> ok x ->
  offset (v_str w) idx < len (v_data w) ->
  exists y, sim R x y /\
    reads (visit E m rec t idx w) false (enc E t x)
      (with_data w (upd (v_data w) (N.to_nat (offset (v_str w) idx)) y)) false.
Proof.
  intros d x w idx Hd Hx Ho.
  destruct (g_ser x d Hx) as (y & Hy & Hr).
  { eapply (dflt_tgt F E wf C HFC); eauto. apply Hx. }
  exists y. split; auto. unfold visit. cbn [is_unpacking]. rewrite Hd. cbn [of_opt bind].
  eapply reads_eq; [|apply app_nil_r]. eapply reads_bind; [exact Hr|].
  rewrite set_at_some by auto. cbn [valid]. apply reads_ret.
Qed.

Lemma g_fold : forall d, dflt E t = Some d ->
  forall ps ds w,
  Forall (fun p => ok (snd p) /\ offset (v_str w) (fst p) < len (v_data w)) ps ->
  (forall p q, In p (ds ++ ps) -> In q (ds ++ ps) ->
     offset (v_str w) (fst p) = offset (v_str w) (fst q) -> snd p = snd q) ->
  Forall (fun p => exists y, at_ w (fst p) = Some y /\ sim R (snd p) y) ds ->
  exists w', same_shape w w' /\
    Forall (fun p => exists y, at_ w' (fst p) = Some y /\ sim R (snd p) y) (ds ++ ps) /\
    Forall (fun y => In y (v_data w) \/ exists p, In p ps /\ sim R (snd p) y) (v_data w') /\
    reads (foldP (fun s idx => visit E m rec t idx s) (map fst ps) w) false
      (concat (map (fun p => enc E t (snd p)) ps)) w' false.
Proof.
  intros d Hd. induction ps as [|[idx x] ps IH]; intros ds w Hok Hcoh Hds.
  - exists w. split; [repeat split; auto|split; [now rewrite app_nil_r|split; [|apply reads_ret]]].
    apply Forall_forall. auto.
  - inversion Hok as [|? ? (Hx & Ho) Hps]; subst. cbn [fst snd] in *.
    destruct (g_visit d x w idx Hd Hx Ho) as (y & Hy & Hr).
    set (w1 := with_data w (upd (v_data w) (N.to_nat (offset (v_str w) idx)) y)) in *.
    assert (Hlen : len (v_data w1) = len (v_data w)).
    { unfold w1, len. cbn [v_data with_data]. now rewrite upd_length. }
    destruct (IH (ds ++ [(idx, x)]) w1) as (w' & Hsh & Hall & Hcells & Hrd).
    + cbn [v_str with_data] in *. eapply Forall_impl; [|exact Hps].
      intros p (H1 & H2). split; auto. now rewrite Hlen.
    + intros p q Hp Hq. rewrite <- app_assoc in Hp, Hq. exact (Hcoh p q Hp Hq).
    + apply Forall_app. split.
      * apply Forall_forall. intros p Hp. rewrite Forall_forall in Hds.
        destruct (Hds p Hp) as (z & Hz & Hc).
        destruct (N.eq_dec (offset (v_str w) idx) (offset (v_str w) (fst p))) as [He|He].
        -- exists y. unfold w1. unfold at_ at 1. cbn [v_str v_data with_data]. rewrite <- He.
           split; [apply (at_upd_same w idx y Ho)|].
           replace (snd p) with x; auto. symmetry.
           apply (Hcoh p (idx, x)); auto; apply in_or_app; [now left|right; now left].
        -- exists z. split; auto. unfold w1. now rewrite at_upd_other.
      * constructor; [|constructor]. exists y. split; auto. now apply at_upd_same.
    + exists w'. split; [|split; [|split]].
      * destruct Hsh as (H1 & H2 & H3 & H4 & H5). unfold w1 in *.
        cbn [v_label v_ext v_str v_live v_data with_data] in *. rewrite upd_length in H5.
        repeat split; auto.
      * rewrite <- app_assoc in Hall. exact Hall.
      * eapply Forall_impl; [|exact Hcells]. cbn beta. intros z [Hz|(p & Hp & Hc)].
        -- unfold w1 in Hz. cbn [v_data with_data] in Hz. apply in_upd in Hz. destruct Hz as [->|Hz]; auto.
           right. exists (idx, x). split; [now left|exact Hy].
        -- right. exists p. split; [now right|exact Hc].
      * cbn [map foldP concat fst snd]. eapply reads_bind; [exact Hr|exact Hrd].
Qed.

(** [w] receives the elements [xs], in row-major order; every place holds what it did or a copy of
    one of these. *)
Lemma g_traverse_cells : forall d w xs, dflt E t = Some d -> (length (v_ext w) <= 8)%nat ->
  (length (v_ext w) = 0%nat -> forall x y, In x xs -> at_ w [] = Some y -> target C E t x y) ->
  length xs = length (indices (v_ext w)) ->
  Forall ok xs ->
  (forall idx, in_bounds idx (v_ext w) -> offset (v_str w) idx < len (v_data w)) ->
  (forall p q, In p (combine (indices (v_ext w)) xs) -> In q (combine (indices (v_ext w)) xs) ->
     offset (v_str w) (fst p) = offset (v_str w) (fst q) -> snd p = snd q) ->
  exists w', same_shape w w' /\
    Forall2 (fun idx x => exists y, at_ w' idx = Some y /\ sim R x y) (indices (v_ext w)) xs /\
    Forall (fun y => In y (v_data w) \/ exists x, In x xs /\ sim R x y) (v_data w') /\
    reads (traverse_manual E m rec (length (v_ext w)) t w) false (concat (map (enc E t) xs)) w' false.
Proof.
  intros d w xs Hd Hr H0 Hl Hok Hmem Hcoh.
  assert (Hb : forall idx, In idx (indices (v_ext w)) -> offset (v_str w) idx < len (v_data w)).
  { intros idx Hi. apply Hmem. now apply in_indices. }
  destruct (Nat.eq_dec (length (v_ext w)) 0) as [Hz|Hz].
  - specialize (H0 Hz). rewrite Hz. destruct (v_ext w) eqn:Ew; [|discriminate]. cbn [indices] in *.
    destruct xs as [|x [|? ?]]; try discriminate.
    destruct (at_some w []) as (y0 & Hy0); [apply Hb; now left|].
    inversion Hok as [|? ? Hx _]; subst.
    destruct (g_ser x y0 Hx) as (y & Hy & Hrd); [apply H0; auto; now left|].
    assert (Ho : offset (v_str w) [] < len (v_data w)) by (apply Hb; now left).
    exists (with_data w (upd (v_data w) (N.to_nat (offset (v_str w) [])) y)). split; [|split; [|split]].
    + repeat split; auto. cbn [v_data with_data]. now rewrite upd_length.
    + constructor; [|constructor]. exists y. split; auto. now apply at_upd_same.
    + apply Forall_forall. cbn [v_data with_data]. intros z Hz0. apply in_upd in Hz0. destruct Hz0 as [->|Hz0]; auto.
      right. exists x. split; [now left|exact Hy].
    + cbn [traverse_manual]. unfold trav0, visit0. rewrite Hy0. cbn [valid bind is_unpacking map concat].
      eapply reads_bind; [exact Hrd|]. rewrite set_at_some by auto. cbn [valid]. apply reads_ret.
  - destruct (g_fold d Hd (combine (indices (v_ext w)) xs) [] w) as (w' & Hsh & Hall & Hcells & Hrd).
    + apply Forall_forall. intros [idx x] Hin. split.
      * apply in_combine_r in Hin. rewrite Forall_forall in Hok. now apply Hok.
      * apply Hb. now apply in_combine_l in Hin.
    + exact Hcoh.
    + constructor.
    + exists w'. split; auto. cbn [app] in Hall.
      assert (Hfst : map fst (combine (indices (v_ext w)) xs) = indices (v_ext w)).
      { clear -Hl. revert xs Hl. induction (indices (v_ext w)); intros [|? ?] Hl; try discriminate; cbn; auto.
        f_equal. apply IHl. now inversion Hl. }
      assert (Hsnd : map snd (combine (indices (v_ext w)) xs) = xs).
      { clear -Hl. revert xs Hl. induction (indices (v_ext w)); intros [|? ?] Hl; try discriminate; cbn; auto.
        f_equal. apply IHl. now inversion Hl. }
      split; [|split].
      * clear -Hl Hall. revert xs Hl Hall.
        induction (indices (v_ext w)); intros [|x xs] Hl Hall; try discriminate; constructor.
        -- inversion Hall; subst. auto.
        -- inversion Hall; subst. apply IHl; auto.
      * eapply Forall_impl; [|exact Hcells]. cbn beta. intros z [Hz0|([i x] & Hp & Hc)]; auto.
        right. exists x. split; [now apply in_combine_r in Hp|exact Hc].
      * rewrite traverse_nest by lia. eapply reads_peq; [apply nest_foldP|].
        rewrite Hfst in Hrd. rewrite <- Hsnd at 1. rewrite map_map. exact Hrd.
Qed.

Lemma g_traverse : forall d w xs, dflt E t = Some d -> (length (v_ext w) <= 8)%nat ->
  (length (v_ext w) = 0%nat -> forall x y, In x xs -> at_ w [] = Some y -> target C E t x y) ->
  length xs = length (indices (v_ext w)) ->
  Forall ok xs ->
  (forall idx, in_bounds idx (v_ext w) -> offset (v_str w) idx < len (v_data w)) ->
  (forall p q, In p (combine (indices (v_ext w)) xs) -> In q (combine (indices (v_ext w)) xs) ->
     offset (v_str w) (fst p) = offset (v_str w) (fst q) -> snd p = snd q) ->
  exists w', same_shape w w' /\
    Forall2 (fun idx x => exists y, at_ w' idx = Some y /\ sim R x y) (indices (v_ext w)) xs /\
    reads (traverse_manual E m rec (length (v_ext w)) t w) false (concat (map (enc E t) xs)) w' false.
Proof.
  intros d w xs Hd Hr H0 Hl Hok Hmem Hcoh.
  destruct (g_traverse_cells d w xs Hd Hr H0 Hl Hok Hmem Hcoh) as (w' & H1 & H2 & _ & H3). eauto.
Qed.
End Read.

(** With no condition on the capacities of default-constructed objects. *)
Definition r_ser E (wf : wf_env any E) := g_ser E any wf Cany N.le Cany_any Cany_max.
Definition r_traverse_cells E (wf : wf_env any E) := g_traverse_cells E any wf Cany N.le Cany_any Cany_max.
Definition r_traverse E (wf : wf_env any E) := g_traverse E any wf Cany N.le Cany_any Cany_max.
