(** What serializing a view writes, and what reading it back gives. *)
From Coq Require Import List NArith Arith Bool Lia Sorted.
From Coq.Strings Require Import Byte.
From Verif Require Import Base Syntax Prog Serializers Traverse Spec ProgFacts EnvFacts ValFacts
  Fails RegistryFacts Pack Unpack ApiFacts Views ViewSpec ViewFacts.
From Verif Require Stable.
Import ListNotations.
Local Open Scope N_scope.

(** The elements of a view in row-major order. *)
Definition elements (v : view) : list val :=
  flat_map (fun idx => match at_ v idx with Some x => [x] | None => [] end) (indices (v_ext v)).

Lemma elements_at : forall v, has_memory v ->
  Forall2 (fun idx x => at_ v idx = Some x) (indices (v_ext v)) (elements v).
Proof.
  intros v H. unfold elements.
  assert (Hb : forall idx, In idx (indices (v_ext v)) -> exists x, at_ v idx = Some x).
  { intros idx Hi. apply at_some, H. now apply in_indices. }
  induction (indices (v_ext v)) as [|i l IH]; cbn [flat_map]; [constructor|].
  destruct (Hb i (or_introl eq_refl)) as (x & Hx). rewrite Hx. cbn [app].
  constructor; auto. apply IH. intros idx Hi. apply Hb. now right.
Qed.

Lemma elements_in : forall v x, In x (elements v) -> In x (v_data v).
Proof.
  intros v x H. unfold elements in H. apply in_flat_map in H. destruct H as (idx & _ & H).
  destruct (at_ v idx) eqn:Ha; [|contradiction]. destruct H as [<-|[]]. eapply at_in; eauto.
Qed.

(** ** The wire format of a view *)
Definition wlayout (E : env) (vt : vty) (l : list N * list N) : bytes :=
  framed E (vt_layout_name vt) 1
    match vt_kind vt with
    | LStride => concat (map (fun p => wsize E (fst p) ++ wsize E (snd p)) (combine (fst l) (snd l)))
    | _ => concat (map (wsize E) (fst l))
    end.
Definition wlabel (E : env) (b : bytes) : bytes := enc E TString (VStr (len b) b).
Definition wbody (E : env) (span : list N -> list N -> N) (vt : vty) (v : view) : bytes :=
  if v_live v then
    if contiguous span (vt_kind vt) v
    then warray E (vt_elem vt) (map (encb E (vt_elem vt)) (firstn (N.to_nat (prod (v_ext v))) (v_data v)))
    else concat (map (enc E (vt_elem vt)) (elements v))
  else [].
Definition wview (E : env) (span : list N -> list N -> N) (vt : vty) (v : view) : bytes :=
  wlabel E (v_label v) ++ wint E (N.of_nat (length (v_ext v))) ++ wlayout E vt (layout_of v) ++
  wsize E (prod (v_ext v)) ++ wbool E (contiguous span (vt_kind vt) v) ++ wbool E (v_live v) ++
  wbody E span vt v.

Lemma Forall_firstn' : forall A (P : A -> Prop) n l, Forall P l -> Forall P (firstn n l).
Proof. induction n; intros [|x l] H; cbn; auto. inversion H; subst. constructor; auto. Qed.

(** A new view with the shape of [v]. *)
Definition shell (vt : vty) (span : list N -> list N -> N) (d : val) (v : view) : view :=
  {| v_label := v_label v; v_ext := v_ext v;
     v_str := match vt_kind vt with LStride => v_str v | k => natural k (v_ext v) end;
     v_data := repeat d (N.to_nat match vt_kind vt with
                                  | LStride => span (v_ext v) (v_str v)
                                  | _ => prod (v_ext v) end);
     v_live := true |}.

Lemma pad8_64 : forall d l, d < two64 -> Forall (fun e => e < two64) l ->
  Forall (fun e => e < two64) (pad8 d l).
Proof.
  intros d l Hd Hl. unfold pad8. apply Forall_app. split; auto.
  apply Forall_forall. intros x Hx. apply repeat_spec in Hx. now subst.
Qed.
Lemma pad8_length : forall d l, (length l <= 8)%nat -> length (pad8 d l) = 8%nat.
Proof. intros. unfold pad8. rewrite app_length, repeat_length. lia. Qed.
Lemma pad8_firstn : forall d l n, length l = n -> firstn n (pad8 d l) = l.
Proof. intros d l n <-. unfold pad8. rewrite firstn_app, Nat.sub_diag, firstn_all. apply app_nil_r. Qed.

Definition layout64 (k : lkind) (l : list N * list N) : Prop :=
  length (fst l) = 8%nat /\ length (snd l) = 8%nat /\
  Forall (fun e => e < two64) (fst l) /\ (k = LStride -> Forall (fun e => e < two64) (snd l)).

Lemma layout_of_64 : forall E span vt f v, view_ok E span vt f v -> layout64 (vt_kind vt) (layout_of v).
Proof.
  intros E span vt f v H. destruct H. unfold layout_of, layout64. cbn [fst snd].
  repeat split; try (apply pad8_length; lia).
  - apply pad8_64; auto; reflexivity.
  - intros Hk. apply pad8_64; auto; reflexivity.
Qed.

Section Emit.
Variable F : N -> Prop.
Variable E : env.
Hypothesis wf : wf_env F E.
Variable span : list N -> list N -> N.
Variable m : mode.
Hypothesis Hm : m = MPacking \/ m = MSizing.
Variable f : nat.
Hypothesis Hf : (2 < f)%nat.
Notation rec := (with_ E m f).
Let P := proj1 (pack_all F E wf m Hm f).
Let Hf1 : (1 < f)%nat. Proof. lia. Qed.

Lemma e_object : forall A t (p : prog A) a body, emits p false a false body ->
  emits (as_object E m t p) false a false (framed E t 1 body).
Proof. intros. unfold as_object. now apply emits_framed. Qed.

Lemma e_label : forall b, len b < two64 -> emits (ser_label rec b) false b false (wlabel E b).
Proof.
  intros b Hb. unfold ser_label. eapply emits_eq; [|apply app_nil_r]. eapply emits_bind.
  - apply (p_ser E rec f P); [|cbn; lia]. constructor. now constructor.
  - apply emits_ret.
Qed.

Lemma e_layout : forall vt l, layout64 (vt_kind vt) l ->
  emits (as_object E m (vt_layout_name vt) (ser_layout rec (vt_kind vt) l)) false l false
    (wlayout E vt l).
Proof.
  intros vt [ds ss] (H1 & H2 & H3 & H4). cbn [fst snd] in *. unfold wlayout. apply e_object.
  rewrite Forall_forall in H3. unfold ser_layout. cbn [fst snd].
  assert (HLR : emits (bind (mapP (ser_size rec) ds) (fun ds => Ret (ds, ss))) false (ds, ss) false
    (concat (map (wsize E) ds))).
  { eapply emits_eq; [|apply app_nil_r]. eapply emits_bind; [|apply emits_ret].
    apply emits_mapP_id. intros x Hx. apply (p_ser_size E rec f P); auto. }
  destruct (vt_kind vt); auto. specialize (H4 eq_refl). rewrite Forall_forall in H4.
  eapply emits_eq; [|apply app_nil_r]. eapply emits_bind with (a := combine ds ss).
  - apply emits_mapP_id. intros [d s] Hx. cbn [fst snd].
    eapply emits_bind; [apply (p_ser_size E rec f P); auto; apply H3; eapply in_combine_l; eauto|].
    eapply emits_eq; [|apply app_nil_r].
    eapply emits_bind; [apply (p_ser_size E rec f P); auto; apply H4; eapply in_combine_r; eauto|].
    apply emits_ret.
  - rewrite combine_split by congruence. apply emits_ret.
Qed.

Lemma e_data : forall t n v,
  is_virtual E t = false -> n <= len (v_data v) ->
  Forall (fun x => has_ty E t x /\ (depth x < f)%nat) (v_data v) ->
  emits (ser_data rec t n v) false v false
    (warray E t (map (encb E t) (firstn (N.to_nat n) (v_data v)))).
Proof.
  intros t n v Hv Hn Hok. unfold ser_data.
  destruct (N.ltb_spec (len (v_data v)) n); [lia|].
  eapply emits_eq; [|apply app_nil_r]. eapply emits_bind.
  - apply (p_ser_array E rec f P).
    + apply Forall_firstn'. eapply Forall_impl; [|exact Hok]. intros x (Hx & _). exact Hx.
    + congruence.
    + apply Forall_firstn'. eapply Forall_impl; [|exact Hok]. intros x (_ & Hx). exact Hx.
  - cbn [bind]. rewrite firstn_skipn. destruct v; apply emits_ret.
Qed.

Lemma e_view : forall vt v, view_ok E span vt f v -> vt_managed vt = true \/ asserts E = false ->
  is_virtual E (vt_elem vt) = false ->
  emits (ser_view E span m rec vt v) false v false (wview E span vt v).
Proof.
  intros vt v Hok Hman Hv. pose proof (layout_of_64 _ _ _ _ _ Hok) as Hlay. destruct Hok.
  unfold ser_view, wview. rewrite (m_unp m Hm).
  eapply emits_eq; [|apply app_nil_l].
  eapply emits_bind with (a := tt) (vf1 := false).
  { destruct (asserts E), (vt_managed vt), Hman; try discriminate; apply emits_ret. }
  eapply emits_bind; [now apply e_label|].
  eapply emits_bind; [apply (p_ser_int E rec f P); auto; rewrite vo_rank; lia|].
  eapply emits_bind; [now apply e_layout|].
  eapply emits_eq; [|apply app_nil_l]. eapply emits_bind; [apply emits_ret|].
  eapply emits_bind; [apply (p_ser_size E rec f P); auto|].
  eapply emits_bind; [apply (p_ser_bool E rec f P); auto|].
  eapply emits_bind; [apply (p_ser_bool E rec f P); auto|].
  unfold wbody. destruct (v_live v) eqn:Hl; [|apply emits_ret].
  destruct (vo_live eq_refl) as (Hmem & Hcon & Hel).
  destruct (contiguous span (vt_kind vt) v) eqn:Hc.
  - apply e_data; auto.
  - rewrite <- vo_rank. eapply e_traverse; eauto; [lia|now apply elements_at|].
    rewrite Forall_forall in *. intros x Hx. apply Hel. now apply elements_in.
Qed.
End Emit.

Section Read.
Variable E : env.
Hypothesis wf : wf_env any E.
Variable span : list N -> list N -> N.
Variable f : nat.
Hypothesis Hf : (2 < f)%nat.
Notation m := MUnpacking.
Notation rec := (with_ E m f).
Let U := proj1 (unpack_all any E wf Cany N.le Cany_any Cany_max f).
Let Hf1 : (1 <= f)%nat. Proof. lia. Qed.

Lemma r_object : forall A t (p : prog A) a body, reads p false body a false ->
  reads (as_object E m t p) false (framed E t 1 body) a false.
Proof. intros. unfold as_object. now apply (reads_framed any E wf). Qed.

Lemma r_label : forall b b0, len b < two64 -> reads (ser_label rec b0) false (wlabel E b) b false.
Proof.
  intros b b0 Hb. unfold ser_label.
  destruct (r_ser E wf f TString (VStr (len b) b) (VStr (len b0) b0)) as (y & Hy & Hr).
  - split; [now constructor|]. cbn; lia.
  - constructor.
  - eapply reads_eq; [|apply app_nil_r]. eapply reads_bind; [exact Hr|].
    inversion Hy; subst. apply reads_ret.
Qed.

Lemma Forall2_eq : forall A (l l' : list A), Forall2 eq l l' -> l' = l.
Proof. induction 1; congruence. Qed.

Lemma reads_mapP_eq : forall A V (g : A -> prog V) (h : V -> bytes) vs ws,
  length vs = length ws ->
  (forall v w, In v vs -> reads (g w) false (h v) v false) ->
  reads (mapP g ws) false (concat (map h vs)) vs false.
Proof.
  intros A V g h vs ws Hl Hr.
  destruct (reads_mapP A V V g h eq false vs ws) as (xs & Hq & Hrd).
  - clear -Hl Hr. revert ws Hl. induction vs; intros [|w ws] Hl; try discriminate; constructor.
    + exists a. split; auto. apply Hr. now left.
    + apply IHvs; auto. intros. apply Hr. now right.
  - now rewrite (Forall2_eq _ _ _ Hq) in Hrd.
Qed.

Lemma r_layout : forall vt l, layout64 (vt_kind vt) l ->
  reads (as_object E m (vt_layout_name vt) (ser_layout rec (vt_kind vt) new_layout)) false
    (wlayout E vt l) (fst l, match vt_kind vt with LStride => snd l | _ => repeat 0 8 end) false.
Proof.
  intros vt [ds ss] (H1 & H2 & H3 & H4). cbn [fst snd] in *. unfold wlayout. apply r_object.
  rewrite Forall_forall in H3. unfold ser_layout, new_layout. cbn [fst snd].
  assert (HLR : reads (bind (mapP (ser_size rec) (repeat no_dim 8)) (fun ds => Ret (ds, repeat 0 8))) false
    (concat (map (wsize E) ds)) (ds, repeat 0 8) false).
  { eapply reads_eq; [|apply app_nil_r]. eapply reads_bind; [|apply reads_ret].
    apply reads_mapP_eq; [exact H1|]. intros x w Hx. apply (u_size E Cany N.le rec f U); auto. }
  destruct (vt_kind vt); auto. specialize (H4 eq_refl). rewrite Forall_forall in H4.
  eapply reads_eq; [|apply app_nil_r]. eapply reads_bind with (a := combine ds ss).
  - apply reads_mapP_eq with (h := fun p => wsize E (fst p) ++ wsize E (snd p)).
    + rewrite combine_length, H1, H2. reflexivity.
    + intros [d s] w Hx. cbn [fst snd].
      eapply reads_bind; [apply (u_size E Cany N.le rec f U); auto; apply H3; eapply in_combine_l; eauto|].
      eapply reads_eq; [|apply app_nil_r].
      eapply reads_bind; [apply (u_size E Cany N.le rec f U); auto; apply H4; eapply in_combine_r; eauto|].
      apply reads_ret.
  - rewrite combine_split by congruence. apply reads_ret.
Qed.

Lemma nth_Forall2 : forall A B (R : A -> B -> Prop) l l' i x, Forall2 R l l' ->
  nth_error l i = Some x -> exists y, nth_error l' i = Some y /\ R x y.
Proof.
  intros A B R l l' i x H. revert i. induction H; intros [|i] Hx; cbn in *; try discriminate; eauto.
  inversion Hx; subst. eauto.
Qed.

End Read.

Section ReadCells.
Variable E : env.
Variable F : N -> Prop.
Hypothesis wf : wf_env F E.
Variable C : N -> N -> Prop.
Variable R : N -> N -> Prop.
Hypothesis HFC : forall c w, F w -> C c w.
Hypothesis HCR : forall c w, C c w -> R c (N.max w c).
Variable span : list N -> list N -> N.
Variable f : nat.
Hypothesis Hf : (2 < f)%nat.
Notation m := MUnpacking.
Notation rec := (with_ E m f).
Let wfa : wf_env any E := Stable.wf_env_mono _ _ E (fun _ _ => I) wf.
Let U := proj1 (unpack_all F E wf C R HFC HCR f).
Let Hf1 : (1 <= f)%nat. Proof. lia. Qed.

Lemma g_data_cells : forall t n v w, is_virtual E t = false ->
  n <= len (v_data v) -> n <= len (v_data w) ->
  Forall (fun y => forall x, has_ty E t x -> target C E t x y) (v_data w) ->
  Forall (fun x => has_ty E t x /\ (depth x < f)%nat) (v_data v) ->
  exists l, length l = length (v_data w) /\ reads (ser_data rec t n w) false
      (warray E t (map (encb E t) (firstn (N.to_nat n) (v_data v)))) (with_data w l) false /\
    (forall i x, i < n -> nth_error (v_data v) (N.to_nat i) = Some x ->
      exists y, nth_error l (N.to_nat i) = Some y /\ sim R x y) /\
    Forall2 (sim R) (firstn (N.to_nat n) (v_data v)) (firstn (N.to_nat n) l) /\
    Forall (fun y => In y (v_data w) \/ exists z, In z (v_data v) /\ sim R z y) l.
Proof.
  intros t n v w Hv Hn Hw Hdw Hok. unfold ser_data.
  destruct (N.ltb_spec (len (v_data w)) n); [lia|].
  assert (Hf1' : Forall (fun x => has_ty E t x /\ (depth x < f)%nat) (firstn (N.to_nat n) (v_data v)))
    by now apply Forall_firstn'.
  assert (Hf2' : Forall (fun y => forall x, has_ty E t x -> target C E t x y) (firstn (N.to_nat n) (v_data w)))
    by now apply Forall_firstn'.
  destruct (u_array E C R rec f U t (firstn (N.to_nat n) (v_data v))
    (firstn (N.to_nat n) (v_data w))) as (vs' & Hs & Hr).
  - eapply Forall_impl; [|exact Hf1']. intros x (Hx & _). exact Hx.
  - congruence.
  - eapply Forall_impl; [|exact Hf1']. intros x (_ & Hx). exact Hx.
  - assert (Hl : length (firstn (N.to_nat n) (v_data v)) = length (firstn (N.to_nat n) (v_data w))).
    { rewrite !firstn_length. unfold len in *. lia. }
    revert Hl Hf1' Hf2'. clear.
    generalize (firstn (N.to_nat n) (v_data v)), (firstn (N.to_nat n) (v_data w)).
    induction l; intros [|y l'] Hl H1 H2; try discriminate; constructor.
    + inversion H1; inversion H2; subst. match goal with H : forall x, _ -> target _ _ _ x _ |- _ => apply H end. tauto.
    + inversion H1; inversion H2; subst. apply IHl; auto.
  - exists (vs' ++ skipn (N.to_nat n) (v_data w)). split; [|split; [|split; [|split]]].
    + rewrite app_length, <- (Forall2_length _ _ _ _ _ Hs).
      rewrite <- (firstn_skipn (N.to_nat n) (v_data w)) at 2. rewrite app_length.
      rewrite !firstn_length. unfold len in *. lia.
    + eapply reads_eq; [|apply app_nil_r]. eapply reads_bind; [exact Hr|]. apply reads_ret.
    + intros i x Hi Hx.
      assert (Hx' : nth_error (firstn (N.to_nat n) (v_data v)) (N.to_nat i) = Some x).
      { rewrite <- (firstn_skipn (N.to_nat n) (v_data v)) in Hx.
        rewrite nth_error_app1 in Hx; auto. rewrite firstn_length. unfold len in *. lia. }
      destruct (nth_Forall2 _ _ _ _ _ _ _ Hs Hx') as (y & Hy & Hc).
      exists y. split; auto. rewrite nth_error_app1; auto.
      apply nth_error_Some. congruence.
    + pose proof (Forall2_length _ _ _ _ _ Hs) as Hls. rewrite firstn_length in Hls. unfold len in Hn.
      rewrite firstn_app, (firstn_all2 vs') by lia.
      replace (N.to_nat n - length vs')%nat with 0%nat by lia. rewrite firstn_O, app_nil_r. exact Hs.
    + apply Forall_app. split.
      * clear - Hs. rewrite <- (firstn_skipn (N.to_nat n) (v_data v)).
        revert Hs. generalize (firstn (N.to_nat n) (v_data v)), (skipn (N.to_nat n) (v_data v)). intros l r Hs.
        apply Forall_forall. intros y Hy. right.
        assert (Hz : exists z, In z l /\ sim R z y).
        { induction Hs; [contradiction|]. destruct Hy as [<-|Hy]; [eexists; split; [now left|auto]|].
          destruct (IHHs Hy) as (z & Hz & Hc). exists z. split; [now right|auto]. }
        destruct Hz as (z & Hz & Hc). exists z. split; [apply in_or_app; now left|exact Hc].
      * apply Forall_forall. intros y Hy. left. rewrite <- (firstn_skipn (N.to_nat n) (v_data w)).
        apply in_or_app. now right.
Qed.

Lemma combine_at : forall v p, has_memory v -> In p (combine (indices (v_ext v)) (elements v)) ->
  at_ v (fst p) = Some (snd p).
Proof.
  intros v [i x] Hm Hin. pose proof (elements_at v Hm) as H. cbn [fst snd].
  revert Hin. induction H; cbn [combine]; intros Hin; [contradiction|].
  destruct Hin as [He|Hin]; auto. now inversion He; subst.
Qed.

(** What is known of the view [x] that was read into [nv] from the data of [v]. *)
Record read_by (vt : vty) (v nv x : view) : Prop := {
  rf_copy : view_sim R (vt_kind vt) v x;
  rf_shape : same_shape nv x;
  rf_packed : contiguous span (vt_kind vt) v = true ->
    Forall2 (sim R) (firstn (N.to_nat (prod (v_ext v))) (v_data v)) (firstn (N.to_nat (prod (v_ext v))) (v_data x));
  rf_cells : Forall (fun y => In y (v_data nv) \/ exists z, In z (v_data v) /\ sim R z y) (v_data x)
}.

(** The elements are read into any view with the shape of the new one. *)
Lemma g_body_cells : forall vt d v nv, wf_span span -> view_ok E span vt f v ->
  is_virtual E (vt_elem vt) = false -> same_shape (shell vt span d v) nv ->
  Forall (fun y => forall x, has_ty E (vt_elem vt) x -> target C E (vt_elem vt) x y) (v_data nv) ->
  v_live v = true -> dflt E (vt_elem vt) = Some d ->
  exists x, read_by vt v nv x /\
    reads (if contiguous span (vt_kind vt) v
           then ser_data rec (vt_elem vt) (prod (v_ext v)) nv
           else traverse_manual E m rec (vt_rank vt) (vt_elem vt) nv) false (wbody E span vt v) x false.
Proof.
  intros vt d v nv Hsp Hok Hv (N1 & N2 & N3 & N4 & N5) Hdn Hl Hd. destruct Hok.
  set (str' := match vt_kind vt with LStride => v_str v | k => natural k (v_ext v) end) in *.
  set (n := match vt_kind vt with LStride => span (v_ext v) (v_str v) | _ => prod (v_ext v) end).
  cbn [v_label v_ext v_str v_live shell] in N1, N2, N3, N4. change (v_str nv = str') in N3.
  assert (Hlen : len (v_data nv) = n).
  { unfold len. rewrite N5. unfold shell. cbn [v_data]. rewrite repeat_length. unfold n. lia. }
  assert (Hmn : has_memory nv).
  { intros idx Hi. rewrite Hlen. rewrite N2 in Hi. rewrite N3. unfold n, str'.
    destruct (vt_kind vt); try apply natural_bound; auto. apply Hsp; auto. congruence. }
  unfold wbody. rewrite Hl.
  destruct (vo_live Hl) as (Hmem & Hcon & Hel).
  destruct (contiguous span (vt_kind vt) v) eqn:Hc.
  - assert (Hst : str' = v_str v).
    { unfold str'. unfold contiguous in Hc. destruct (vt_kind vt); auto; symmetry; now apply eqb_list_eq. }
    assert (Hn : n = prod (v_ext v)).
    { unfold n. unfold contiguous in Hc. destruct (vt_kind vt); auto. now apply N.eqb_eq. }
    destruct (g_data_cells (vt_elem vt) (prod (v_ext v)) v nv) as (l & Hll & Hr & Hcp & Hpk & Hce); auto.
    { rewrite Hlen, Hn. apply N.le_refl. }
    exists (with_data nv l). split; [|exact Hr].
    constructor; [|repeat split; auto|intros _; exact Hpk|exact Hce].
    constructor; auto.
    + intros _. cbn [with_data v_str]. congruence.
    + intros _ idx Hi.
      destruct (at_some v idx (Hmem idx Hi)) as (x & Hx).
      destruct (Hcp (offset (v_str v) idx) x) as (y & Hy & Hxy); auto.
      { rewrite <- Hn, <- Hlen. rewrite <- Hst, <- N3. apply Hmn. now rewrite N2. }
      exists x, y. repeat split; auto. unfold at_. cbn [v_str v_data with_data]. now rewrite N3, Hst.
  - destruct (g_traverse_cells E F wf C R HFC HCR f (vt_elem vt) d nv (elements v)) as (x & Hsh & Hel' & Hce & Hr); auto.
    + rewrite N2. lia.
    + intros Hz x y Hx Hy. rewrite Forall_forall in Hel, Hdn.
      apply Hdn; [eapply at_in; eauto|]. apply Hel, elements_in; auto.
    + rewrite N2. symmetry. exact (Forall2_length _ _ _ _ _ (elements_at v Hmem)).
    + rewrite Forall_forall in *. intros x Hx. apply Hel, elements_in; auto.
    + intros p q Hp Hq Ho. rewrite N2 in Hp, Hq. rewrite N3 in Ho.
      pose proof (combine_at v p Hmem Hp) as Hap. pose proof (combine_at v q Hmem Hq) as Haq.
      unfold str' in Ho. destruct p as [i a], q as [j b]. cbn [fst snd] in *.
      assert (Hij : vt_kind vt <> LStride -> i = j).
      { intros Hk. apply in_combine_l in Hp. apply in_combine_l in Hq.
        apply (natural_inj (vt_kind vt) (v_ext v)).
        - now apply in_indices.
        - now apply in_indices.
        - destruct (vt_kind vt); auto. congruence. }
      destruct (vt_kind vt).
      * rewrite Hij in Hap by discriminate. congruence.
      * rewrite Hij in Hap by discriminate. congruence.
      * unfold at_ in Hap, Haq. rewrite Ho in Hap. congruence.
    + pose proof Hsh as Hsh'. destruct Hsh' as (S1 & S2 & S3 & S4 & S5).
      assert (Hvc : view_sim R (vt_kind vt) v x).
      { constructor; try congruence.
        - intros Hk. rewrite S3, N3. unfold str'. now rewrite Hk.
        - intros _ idx Hi. apply in_indices in Hi.
          pose proof (elements_at v Hmem) as Hat. rewrite N2 in Hel'.
          revert Hat Hel'. generalize (elements v). induction (indices (v_ext v)); [contradiction|].
          intros xs H1 H2. inversion H1 as [|? y0 ? l0 Hy0 Hl0]; subst.
          inversion H2 as [|? ? ? ? (z & Hz & Hc') Hl1]; subst.
          destruct Hi as [<-|Hi]; [|eapply IHl; eauto]. eauto. }
      exists x. split; [|now rewrite N2, vo_rank in Hr]. constructor; auto; [intros Hct; congruence|].
      eapply Forall_impl; [|exact Hce]. cbn beta. intros y [Hy|(z & Hz & Hc')]; auto.
      right. exists z. split; auto. now apply elements_in.
Qed.

Lemma g_body_on : forall vt d v nv, wf_span span -> view_ok E span vt f v ->
  is_virtual E (vt_elem vt) = false -> same_shape (shell vt span d v) nv ->
  Forall (fun y => forall x, has_ty E (vt_elem vt) x -> target C E (vt_elem vt) x y) (v_data nv) ->
  v_live v = true -> dflt E (vt_elem vt) = Some d ->
  exists x, view_sim R (vt_kind vt) v x /\ same_shape nv x /\
    reads (if contiguous span (vt_kind vt) v
           then ser_data rec (vt_elem vt) (prod (v_ext v)) nv
           else traverse_manual E m rec (vt_rank vt) (vt_elem vt) nv) false (wbody E span vt v) x false.
Proof.
  intros vt d v nv Hsp Hok Hv Hs Hdn Hl Hd.
  destruct (g_body_cells vt d v nv Hsp Hok Hv Hs Hdn Hl Hd) as (x & [Hx Hn _ _] & Hr). eauto.
Qed.

Lemma g_body_full : forall vt d v, wf_span span -> view_ok E span vt f v ->
  is_virtual E (vt_elem vt) = false -> dflt E (vt_elem vt) = Some d ->
  exists x, (v_live v = true -> read_by vt v (shell vt span d v) x) /\ (v_live v = false -> x = shell vt span d v) /\
    reads (if v_live v
           then if contiguous span (vt_kind vt) v
                then ser_data rec (vt_elem vt) (prod (v_ext v)) (shell vt span d v)
                else traverse_manual E m rec (vt_rank vt) (vt_elem vt) (shell vt span d v)
           else Ret (shell vt span d v)) false (wbody E span vt v) x false.
Proof.
  intros vt d v Hsp Hok Hv Hd. destruct (v_live v) eqn:Hl.
  - destruct (g_body_cells vt d v (shell vt span d v)) as (x & Hx & Hr); auto.
    + repeat split; auto.
    + apply Forall_forall. intros y Hy x Hx. apply repeat_spec in Hy. subst y.
      eapply (dflt_tgt F E wf C HFC); eauto.
    + exists x. split; auto. split; [discriminate|exact Hr].
  - exists (shell vt span d v). split; [discriminate|]. split; auto.
    unfold wbody. rewrite Hl. apply reads_ret.
Qed.

Lemma g_body : forall vt d v, wf_span span -> view_ok E span vt f v ->
  is_virtual E (vt_elem vt) = false -> dflt E (vt_elem vt) = Some d ->
  exists x, view_sim R (vt_kind vt) v x /\
    reads (if v_live v
           then if contiguous span (vt_kind vt) v
                then ser_data rec (vt_elem vt) (prod (v_ext v)) (shell vt span d v)
                else traverse_manual E m rec (vt_rank vt) (vt_elem vt) (shell vt span d v)
           else Ret (shell vt span d v)) false (wbody E span vt v) x false.
Proof.
  intros vt d v Hsp Hok Hv Hd. destruct (g_body_full vt d v Hsp Hok Hv Hd) as (x & H1 & H2 & Hr).
  exists x. split; [|exact Hr]. destruct (v_live v) eqn:Hl; [now apply H1|]. rewrite (H2 eq_refl).
  constructor; auto; [|congruence]. intros Hk. cbn [v_str shell]. now rewrite Hk.
Qed.

Lemma r_new_shell : forall vt d v vf, dflt E (vt_elem vt) = Some d ->
  reads (new_view E span vt (v_label v) (v_ext v)
           match vt_kind vt with LStride => v_str v | _ => firstn (length (v_ext v)) (repeat 0 8) end)
    vf [] (shell vt span d v) vf.
Proof.
  intros vt d v vf Hd. unfold new_view. rewrite Hd. cbn [of_opt bind]. unfold shell.
  destruct (vt_kind vt); apply reads_ret.
Qed.

Lemma g_view_full : forall vt d v w, wf_span span -> view_ok E span vt f v ->
  vt_managed vt = true \/ asserts E = false ->
  is_virtual E (vt_elem vt) = false -> dflt E (vt_elem vt) = Some d ->
  exists x, (v_live v = true -> read_by vt v (shell vt span d v) x) /\ (v_live v = false -> x = shell vt span d v) /\
    reads (ser_view E span m rec vt w) false (wview E span vt v) x false.
Proof.
  intros vt d v w Hsp Hok Hman Hv Hd. destruct (g_body_full vt d v Hsp Hok Hv Hd) as (x & Hx & Hx' & Hr).
  exists x. split; auto. split; auto. pose proof (layout_of_64 _ _ _ _ _ Hok) as Hlay. destruct Hok.
  unfold ser_view, wview. cbn [is_unpacking].
  eapply reads_eq; [|apply app_nil_l].
  eapply reads_bind with (a := tt) (vf1 := false).
  { destruct (asserts E), (vt_managed vt), Hman; try discriminate; apply reads_ret. }
  eapply reads_bind; [now apply (r_label E wfa f Hf)|].
  eapply reads_bind; [apply (u_int E C R rec f U); auto; rewrite vo_rank; lia|].
  eapply reads_bind; [now apply (r_layout E wfa f Hf)|].
  eapply reads_eq; [|apply app_nil_l].
  eapply reads_bind with (a := shell vt span d v) (vf1 := false).
  { unfold layout_of. cbn [fst snd]. rewrite pad8_firstn by auto.
    pose proof (r_new_shell vt d v false Hd) as Hn. rewrite vo_rank in Hn.
    destruct (vt_kind vt); auto. now rewrite pad8_firstn by auto. }
  eapply reads_bind; [apply (u_size E C R rec f U); auto|].
  eapply reads_bind; [apply (u_bool E C R rec f U); auto|].
  eapply reads_bind; [apply (u_bool E C R rec f U); auto|].
  exact Hr.
Qed.

Lemma g_view : forall vt d v w, wf_span span -> view_ok E span vt f v ->
  vt_managed vt = true \/ asserts E = false ->
  is_virtual E (vt_elem vt) = false -> dflt E (vt_elem vt) = Some d ->
  exists x, view_sim R (vt_kind vt) v x /\
    reads (ser_view E span m rec vt w) false (wview E span vt v) x false.
Proof.
  intros vt d v w Hsp Hok Hman Hv Hd. destruct (g_view_full vt d v w Hsp Hok Hman Hv Hd) as (x & H1 & H2 & Hr).
  exists x. split; [|exact Hr]. destruct (v_live v) eqn:Hl; [now apply H1|]. rewrite (H2 eq_refl).
  constructor; auto; [|congruence]. intros Hk. cbn [v_str shell]. now rewrite Hk.
Qed.
End ReadCells.

Notation read_from := (read_by N.le).
Arguments rf_copy {R}.
Arguments rf_shape {R}.
Arguments rf_packed {R}.
Arguments rf_cells {R}.
Definition r_data_cells E (wf : wf_env any E) := g_data_cells E any wf Cany N.le Cany_any Cany_max.
Definition r_body_cells E (wf : wf_env any E) := g_body_cells E any wf Cany N.le Cany_any Cany_max.
Definition r_body_on E (wf : wf_env any E) := g_body_on E any wf Cany N.le Cany_any Cany_max.
Definition r_body_full E (wf : wf_env any E) := g_body_full E any wf Cany N.le Cany_any Cany_max.
Definition r_body E (wf : wf_env any E) := g_body E any wf Cany N.le Cany_any Cany_max.
Definition r_view_full E (wf : wf_env any E) := g_view_full E any wf Cany N.le Cany_any Cany_max.
Definition r_view E (wf : wf_env any E) := g_view E any wf Cany N.le Cany_any Cany_max.

(** ** Root objects *)
Definition wroot (E : env) (t : ty) (body : bytes) : bytes :=
  if chk E then framed E t 1 body
  else le 4 (tix E t) ++ body ++ le 8 (wrap64 (sizeof E t)).

Lemma e_root : forall E m, m = MPacking \/ m = MSizing -> forall A t (p : prog A) a body,
  emits p false a false body -> emits (root_object E m t p) false a false (wroot E t body).
Proof.
  intros E m Hm A t p a body Hp. unfold root_object, wroot. destruct (chk E) eqn:Ec.
  - now apply e_object.
  - eapply emits_eq.
    + eapply emits_bind.
      { unfold with_type_idx. destruct Hm as [-> | ->]; (apply emits_contig; apply emits_ret). }
      eapply emits_bind; [exact Hp|].
      eapply emits_bind with (a := tt) (vf1 := false); [|apply emits_ret].
      unfold with_mem_used. destruct Hm as [-> | ->]; (apply emits_contig; apply emits_ret).
    + rewrite !app_nil_r, N.mul_1_r. reflexivity.
Qed.

Lemma r_root : forall E, wf_env any E -> forall A t (p : prog A) a body,
  reads p false body a false -> reads (root_object E MUnpacking t p) false (wroot E t body) a false.
Proof.
  intros E wf A t p a body Hp. unfold root_object, wroot. destruct (chk E) eqn:Ec.
  - now apply r_object.
  - destruct (tix_ok any E wf t) as (Hu & Hval).
    eapply reads_bind with (vf1 := false).
    { unfold with_type_idx. eapply reads_eq; [|apply app_nil_r].
      apply reads_contig; [now rewrite !le_length|].
      cbn zeta. rewrite Hu, Hval, N.eqb_refl. apply reads_ret. }
    eapply reads_bind; [exact Hp|].
    eapply reads_eq; [|apply app_nil_r]. eapply reads_bind with (vf1 := false) (a := tt).
    + unfold with_mem_used. eapply reads_eq; [|apply app_nil_r].
      apply reads_contig; [now rewrite !le_length|]. rewrite N.mul_1_r.
      rewrite unle_le by apply wrap64_lt. rewrite N.eqb_refl. apply reads_ret.
    + apply reads_ret.
Qed.

Lemma serialize_emits : forall A i (ps pp : prog A) a a' out,
  emits ps false a' false out -> emits pp false a false out -> len out < two64 ->
  serialize_object i ps pp = Ok (out, a).
Proof.
  intros A i ps pp a a' out Hs Hp Hl. unfold serialize_object.
  pose proof (emits_sizer _ _ _ _ _ _ Hs 0) as H. change (wrap64 0) with 0 in H. rewrite H.
  rewrite N.add_0_l. unfold wrap64. rewrite N.mod_small by auto.
  pose proof (emits_packer _ _ _ _ _ _ Hp [] (repeat x00 (N.to_nat (len out))) [] 0 0) as H1.
  change (wrap64 0) with 0 in H1. cbn [app length] in H1. rewrite !app_nil_r in H1.
  rewrite H1; auto; [|rewrite repeat_length; apply len_nat].
  cbn [p_used p_buf]. rewrite N.add_0_l. unfold wrap64. rewrite N.mod_small by auto.
  now rewrite N.eqb_refl.
Qed.

Lemma serialize_emits_sizes : forall A i (ps pp : prog A) a a' out out',
  emits ps false a' false out' -> emits pp false a false out -> len out' = len out ->
  len out < two64 -> serialize_object i ps pp = Ok (out, a).
Proof.
  intros A i ps pp a a' out out' Hs Hp Ho Hl. unfold serialize_object.
  pose proof (emits_sizer _ _ _ _ _ _ Hs 0) as H. change (wrap64 0) with 0 in H. rewrite H.
  rewrite N.add_0_l, Ho. unfold wrap64. rewrite N.mod_small by auto.
  pose proof (emits_packer _ _ _ _ _ _ Hp [] (repeat x00 (N.to_nat (len out))) [] 0 0) as H1.
  change (wrap64 0) with 0 in H1. cbn [app length] in H1. rewrite !app_nil_r in H1.
  rewrite H1; auto; [|rewrite repeat_length; apply len_nat].
  cbn [p_used p_buf]. rewrite N.add_0_l. unfold wrap64. rewrite N.mod_small by auto.
  now rewrite N.eqb_refl.
Qed.

Lemma stream_emits : forall A (ps pp : prog A) a a' out out',
  emits ps false a' false out' -> emits pp false a false out -> stream_object ps pp = Ok (out, a).
Proof.
  intros A ps pp a a' out out' Hs Hp. unfold stream_object, object_to_stream.
  pose proof (emits_sizer _ _ _ _ _ _ Hs 0) as H. change (wrap64 0) with 0 in H. rewrite H.
  pose proof (emits_stream _ _ _ _ _ _ Hp [] 0) as H1. change (wrap64 0) with 0 in H1. now rewrite H1.
Qed.

(** To a stream and to memory. *)
Lemma both_ways : forall A i (ps pp : prog A) a a' out out',
  emits ps false a' false out' -> emits pp false a false out -> len out' = len out ->
  stream_object ps pp = Ok (out, a) /\ (len out < two64 -> serialize_object i ps pp = Ok (out, a)).
Proof.
  intros A i ps pp a a' out out' Hs Hp Hl. split; [eapply stream_emits; eauto|].
  intros. eapply serialize_emits_sizes; eauto.
Qed.

Lemma deserialize_reads : forall A (pu : prog A) a inp, reads pu false inp a false ->
  forall before after,
  deserialize_object pu (before ++ inp ++ after) (length before) = Ok (a, len inp).
Proof.
  intros A pu a inp Hr before after. unfold deserialize_object.
  pose proof (reads_unpacker _ _ _ _ _ _ Hr before after 0) as H.
  change (wrap64 0) with 0 in H. rewrite H. cbn [u_cur].
  do 2 f_equal. unfold len. f_equal. lia.
Qed.

(** ** Round trip of a view *)
Lemma view_round_trip : forall E span vt f d v, wf_env any E -> wf_span span -> (2 < f)%nat ->
  view_ok E span vt f v -> vt_const vt = false -> vt_managed vt = true ->
  is_virtual E (vt_elem vt) = false -> dflt E (vt_elem vt) = Some d ->
  exists b, (stream_view E span f vt v = Ok (b, v) /\
     (len b < two64 -> serialize_view E span f vt v = Ok (b, v))) /\
    forall w, exists x, view_copy (vt_kind vt) v x /\ forall before after,
      deserialize_view E span f vt (before ++ b ++ after) (length before) w = Ok (x, len b).
Proof.
  intros E span vt f d v wf Hsp Hf Hok Hc Hman Hv Hd.
  exists (wroot E (vt_name vt) (wview E span vt v)). split.
  - unfold stream_view, serialize_view, root_view. rewrite Hc.
    refine (both_ways _ _ _ _ v v _ _ _ _ eq_refl).
    + apply e_root; [now right|]. eapply e_view; eauto.
    + apply e_root; [now left|]. eapply e_view; eauto.
  - intros w. destruct (r_view E wf span f Hf vt d v w) as (x & Hx & Hr); auto.
    exists x. split; auto. intros before after. apply deserialize_reads.
    unfold root_view. rewrite Hc. apply r_root; auto.
Qed.

(** ** Views of constant elements *)
Lemma deep_copy_emits : forall l ds dst src,
  (forall idx, In idx (ds ++ l) -> offset (v_str dst) idx < len (v_data dst)) ->
  (forall idx, In idx (ds ++ l) -> exists x, at_ src idx = Some x) ->
  (forall i j, In i (ds ++ l) -> In j (ds ++ l) ->
     offset (v_str dst) i = offset (v_str dst) j -> at_ src i = at_ src j) ->
  (forall idx, In idx ds -> at_ dst idx = at_ src idx) ->
  exists dst', same_shape dst dst' /\
    (forall idx, In idx (ds ++ l) -> at_ dst' idx = at_ src idx) /\
    (forall x, In x (v_data dst') -> In x (v_data dst) \/ In x (v_data src)) /\
    emits (foldP (fun d idx => bind (valid (at_ src idx)) (fun x => valid (set_at d idx x))) l dst)
      false dst' false [].
Proof.
  induction l as [|i l IH]; intros ds dst src Hm Hs Hc Hd.
  - exists dst. split; [repeat split; auto|]. split; [rewrite app_nil_r; auto|].
    split; [auto|]. apply emits_ret.
  - destruct (Hs i) as (x & Hx); [apply in_or_app; right; now left|].
    assert (Hoi : offset (v_str dst) i < len (v_data dst)).
    { apply Hm. apply in_or_app; right; now left. }
    set (d1 := with_data dst (upd (v_data dst) (N.to_nat (offset (v_str dst) i)) x)).
    assert (Hl1 : len (v_data d1) = len (v_data dst)).
    { unfold d1, len. cbn [v_data with_data]. now rewrite upd_length. }
    assert (Hin : forall idx, In idx ((ds ++ [i]) ++ l) <-> In idx (ds ++ i :: l)).
    { intros idx. rewrite <- app_assoc. reflexivity. }
    destruct (IH (ds ++ [i]) d1 src) as (dst' & Hsh & Hat & Hdat & Hem).
    + intros idx Hi. rewrite Hl1. apply (Hm idx). now apply Hin.
    + intros idx Hi. apply Hs. now apply Hin.
    + intros a b Ha Hb. apply (Hc a b); now apply Hin.
    + intros idx Hi.
      destruct (N.eq_dec (offset (v_str dst) i) (offset (v_str dst) idx)) as [He|He].
      * transitivity (Some x).
        -- unfold at_, d1. cbn [v_str v_data with_data]. rewrite <- He. apply (at_upd_same dst i x Hoi).
        -- rewrite <- Hx. apply Hc; auto; apply in_or_app.
           ++ right; now left.
           ++ apply in_app_or in Hi. destruct Hi as [Hi|[<-|[]]]; [now left|right; now left].
      * unfold d1. rewrite at_upd_other by auto. apply Hd.
        apply in_app_or in Hi. destruct Hi as [Hi|[<-|[]]]; auto. congruence.
    + exists dst'. split; [|split; [|split]].
      * destruct Hsh as (H1 & H2 & H3 & H4 & H5). unfold d1 in *.
        cbn [v_label v_ext v_str v_live v_data with_data] in *. rewrite upd_length in H5.
        repeat split; auto.
      * intros idx Hi. apply Hat. now apply Hin.
      * intros y Hy. destruct (Hdat y Hy) as [H|H]; auto. unfold d1 in H.
        cbn [v_data with_data] in H. apply In_nth_error in H. destruct H as (k & Hk).
        destruct (Nat.eq_dec k (N.to_nat (offset (v_str dst) i))) as [->|Hne].
        -- rewrite nth_error_upd_eq in Hk by (unfold len in Hoi; lia). inversion Hk; subst.
           right. eapply at_in; eauto.
        -- rewrite nth_error_upd_neq in Hk by auto. left. eapply nth_error_In; eauto.
      * cbn [foldP]. eapply emits_eq; [|apply app_nil_l]. eapply emits_bind with (a := d1).
        -- rewrite Hx. cbn [valid bind]. rewrite set_at_some by auto. apply emits_ret.
        -- exact Hem.
Qed.

Lemma len_framed : forall E t n b b', len b = len b' -> len (framed E t n b) = len (framed E t n b').
Proof. intros. unfold framed. destruct (chk E); auto. now rewrite !len_app, H. Qed.
Lemma len_concat : forall A (l l' : list (list A)), Forall2 (fun a b => len a = len b) l l' ->
  len (concat l) = len (concat l').
Proof. induction 1; cbn [concat]; auto. rewrite !len_app. lia. Qed.
Lemma len_wroot : forall E t b b', len b = len b' -> len (wroot E t b) = len (wroot E t b').
Proof. intros. unfold wroot. destruct (chk E); [now apply len_framed|]. now rewrite !len_app, H. Qed.
Lemma Forall2_map2 : forall A B (f : A -> B) (R : B -> B -> Prop) l l',
  Forall2 (fun a b => R (f a) (f b)) l l' -> Forall2 R (map f l) (map f l').
Proof. induction 1; cbn; constructor; auto. Qed.
Lemma Forall2_all : forall A B (P : A -> Prop) (Q : B -> Prop) (R : A -> B -> Prop) l l',
  (forall a b, P a -> Q b -> R a b) -> length l = length l' -> Forall P l -> Forall Q l' ->
  Forall2 R l l'.
Proof.
  intros A B P Q R l. induction l; intros [|b l'] HR Hl H1 H2; try discriminate; constructor.
  - inversion H1; inversion H2; subst; auto.
  - inversion H1; inversion H2; subst. apply IHl; auto.
Qed.

Lemma len_wview : forall E span vt f v w, view_ok E span vt f v -> view_ok E span vt f w ->
  fixed_size E (vt_elem vt) -> same_shape v w ->
  len (wview E span vt v) = len (wview E span vt w).
Proof.
  intros E span vt f v w Hv Hw Hfix (S1 & S2 & S3 & S4 & S5).
  assert (Hct : contiguous span (vt_kind vt) w = contiguous span (vt_kind vt) v).
  { unfold contiguous. now rewrite S2, S3. }
  unfold wview, layout_of. rewrite S1, S2, S3, S4, Hct. rewrite !len_app.
  do 6 f_equal. unfold wbody. rewrite S2, S4, Hct. destruct (v_live v) eqn:Hl; auto.
  destruct (vo_live _ _ _ _ _ Hv Hl) as (Hm1 & Hc1 & Hel1).
  destruct (vo_live _ _ _ _ _ Hw (eq_trans S4 eq_refl)) as (Hm2 & Hc2 & Hel2).
  destruct (contiguous span (vt_kind vt) v).
  - set (a := firstn _ (v_data v)). set (b := firstn _ (v_data w)).
    assert (Hab : Forall2 (fun x y => len (encb E (vt_elem vt) x) = len (encb E (vt_elem vt) y)) a b).
    { apply Forall2_all with (P := has_ty E (vt_elem vt)) (Q := has_ty E (vt_elem vt)).
      - apply Hfix.
      - unfold a, b. rewrite !firstn_length. lia.
      - apply Forall_firstn'. eapply Forall_impl; [|exact Hel1]. intros x (Hx & _). exact Hx.
      - apply Forall_firstn'. eapply Forall_impl; [|exact Hel2]. intros x (Hx & _). exact Hx. }
    apply (Forall2_map2 _ _ (encb E (vt_elem vt)) (fun x y => len x = len y)) in Hab.
    unfold warray. inversion Hab as [|p q lp lq Hpq Hl2 Hep Heq]; auto.
    pose proof (Forall2_length _ _ _ _ _ Hl2) as Hll. cbn [length]. rewrite Hll.
    apply len_framed. apply len_concat. constructor; auto.
  - apply len_concat.
    apply (Forall2_map2 _ _ (enc E (vt_elem vt)) (fun x y => len x = len y)).
    apply Forall2_all with (P := has_ty E (vt_elem vt)) (Q := has_ty E (vt_elem vt)).
    + intros x y Hx Hy. unfold enc. now apply len_framed, Hfix.
    + rewrite <- (Forall2_length _ _ _ _ _ (elements_at v Hm1)),
        <- (Forall2_length _ _ _ _ _ (elements_at w Hm2)). now rewrite S2.
    + rewrite Forall_forall in *. intros x Hx. apply Hel1, elements_in; auto.
    + rewrite Forall_forall in *. intros x Hx. apply Hel2, elements_in; auto.
Qed.

Lemma prod_zero : forall ext idx, prod ext = 0 -> ~ in_bounds idx ext.
Proof.
  intros ext idx Hp Hi. induction Hi as [|i e is_ es Hie His IH]; cbn in Hp; [discriminate|].
  apply N.mul_eq_0 in Hp. destruct Hp as [->|Hp]; [lia|auto].
Qed.

Section Const.
Variable E : env.
Hypothesis wf : wf_env any E.
Variable span : list N -> list N -> N.
Hypothesis Hsp : wf_span span.
Variable f : nat.
Hypothesis Hf : (2 < f)%nat.
Variable vt : vty.
Hypothesis Hman : vt_managed vt = true.
Hypothesis Hvir : is_virtual E (vt_elem vt) = false.
Variable d : val.
Hypothesis Hd : dflt E (vt_elem vt) = Some d.
Hypothesis Hdt : has_ty E (vt_elem vt) d.
Hypothesis Hdd : (depth d < f)%nat.

Lemma shell_len : forall v, len (v_data (shell vt span d v)) =
  match vt_kind vt with LStride => span (v_ext v) (v_str v) | _ => prod (v_ext v) end.
Proof. intros. unfold shell, len. cbn [v_data]. rewrite repeat_length. lia. Qed.

Lemma shell_memory : forall v, length (v_str v) = length (v_ext v) -> has_memory (shell vt span d v).
Proof.
  intros v Hl idx Hi. rewrite shell_len. cbn [v_ext v_str shell] in *.
  destruct (vt_kind vt); try apply natural_bound; auto.
Qed.

Lemma shell_shape_ok : forall v w, view_ok E span vt f v -> same_shape (shell vt span d v) w ->
  Forall (fun x => has_ty E (vt_elem vt) x /\ (depth x < f)%nat) (v_data w) ->
  view_ok E span vt f w.
Proof.
  intros v w H (S1 & S2 & S3 & S4 & S5) Hel. destruct H.
  cbn [v_label v_ext v_str v_live shell] in *.
  assert (Hlen : len (v_data w) = len (v_data (shell vt span d v))) by (unfold len; congruence).
  constructor; rewrite ?S1, ?S2, ?S3; auto.
  - destruct (vt_kind vt); auto; rewrite natural_length; auto.
  - intros Hk. rewrite Hk. auto.
  - intros _. split; [|split]; auto.
    + intros idx Hi. rewrite Hlen. apply (shell_memory v); auto. congruence.
    + intros Hc. rewrite Hlen, shell_len. unfold contiguous in Hc. rewrite S2, S3 in Hc.
      destruct (vt_kind vt); try apply N.le_refl. apply N.eqb_eq in Hc. lia.
Qed.

Lemma shell_data : forall v,
  Forall (fun x => has_ty E (vt_elem vt) x /\ (depth x < f)%nat) (v_data (shell vt span d v)).
Proof. intros v. apply Forall_forall. intros x Hx. apply repeat_spec in Hx. subst. auto. Qed.

Lemma shell_ok : forall v, view_ok E span vt f v -> view_ok E span vt f (shell vt span d v).
Proof. intros v H. eapply shell_shape_ok; eauto using shell_data. repeat split; auto. Qed.

Lemma shell_emits : forall v vf,
  emits (new_view E span vt (v_label v) (v_ext v) (v_str v)) vf (shell vt span d v) vf [].
Proof.
  intros v vf. unfold new_view. rewrite Hd. cbn [of_opt bind]. unfold shell.
  destruct (vt_kind vt); apply emits_ret.
Qed.
Lemma shell_reads : forall v vf,
  reads (new_view E span vt (v_label v) (v_ext v) (v_str v)) vf [] (shell vt span d v) vf.
Proof.
  intros v vf. unfold new_view. rewrite Hd. cbn [of_opt bind]. unfold shell.
  destruct (vt_kind vt); apply reads_ret.
Qed.

Lemma const_copy : forall v, view_ok E span vt f v -> readable v ->
  exists c, same_shape (shell vt span d v) c /\ view_ok E span vt f c /\
    (forall idx, in_bounds idx (v_ext v) -> at_ c idx = at_ v idx) /\
    emits (deep_copy (shell vt span d v) v) false c false [].
Proof.
  intros v Hok Hrd.
  assert (Hmem : has_memory v).
  { intros idx Hi. destruct Hrd as [Hl|Hz]; [now apply (vo_live _ _ _ _ _ Hok Hl)|].
    now destruct (prod_zero (v_ext v) idx Hz). }
  destruct (deep_copy_emits (indices (v_ext v)) [] (shell vt span d v) v) as (c & Hsh & Hat & Hdat & Hem).
  - intros idx Hi. cbn [app] in Hi. apply (shell_memory v).
    + destruct Hok; congruence.
    + now apply in_indices.
  - intros idx Hi. apply at_some, Hmem. now apply in_indices.
  - intros i j Hi Hj Ho. cbn [app v_str shell] in *.
    destruct (vt_kind vt) eqn:Hk.
    + f_equal. apply (natural_inj LLeft (v_ext v)); auto; now apply in_indices.
    + f_equal. apply (natural_inj LRight (v_ext v)); auto; now apply in_indices.
    + unfold at_. now rewrite Ho.
  - intros idx [].
  - cbn [app] in *. exists c. split; auto. split.
    + destruct Hrd as [Hl|Hz].
      * eapply shell_shape_ok; eauto.
        pose proof (shell_data v) as Hs. destruct (vo_live _ _ _ _ _ Hok Hl) as (_ & _ & Hel).
        rewrite Forall_forall in *. intros x Hx. destruct (Hdat x Hx); auto.
      * unfold deep_copy in *.
        assert (Hnil : indices (v_ext v) = []).
        { pose proof (indices_length (v_ext v)) as H. rewrite Hz in H.
          destruct (indices (v_ext v)); auto. rewrite len_cons in H. lia. }
        rewrite Hnil in Hem. cbn [foldP] in Hem. specialize (Hem []). cbn in Hem.
        inversion Hem; subst. now apply shell_ok.
    + split; auto. intros idx Hi. apply Hat. now apply in_indices.
Qed.

Lemma const_round_trip : forall v, view_ok E span vt f v -> readable v -> vt_const vt = true ->
  exists b n, stream_view E span f vt v = Ok (b, v) /\
    interp sizer (root_view E span f MSizing vt v) false 0 = Ok (v, false, n) /\
    (fixed_size E (vt_elem vt) -> len b < two64 -> n = len b /\ serialize_view E span f vt v = Ok (b, v)) /\
    (n < len b -> len b < two64 -> serialize_view E span f vt v = Err UB) /\
    (len b <= n -> serialize_view E span f vt v =
       if len b =? n then Ok (b, v) else Err (SerErr 0 [Sized (tix E (vt_name vt)) n (len b)])) /\
    forall w, exists x, view_copy (vt_kind vt) v x /\ forall before after,
      deserialize_view E span f vt (before ++ b ++ after) (length before) w = Ok (x, len b).
Proof.
  intros v Hok Hrd Hc. destruct (const_copy v Hok Hrd) as (c & Hsh & Hcok & Hat & Hem).
  assert (Hs : emits (root_view E span f MSizing vt v) false v false
            (wroot E (vt_name vt) (wview E span vt (shell vt span d v)))).
  { unfold root_view. rewrite Hc. apply e_root; [now right|]. unfold ser_const_view.
    eapply emits_eq; [|apply app_nil_l]. eapply emits_bind; [apply shell_emits|]. cbn [is_packing].
    eapply emits_eq; [|apply app_nil_l]. eapply emits_bind; [apply emits_ret|].
    eapply emits_eq; [|apply app_nil_r]. eapply emits_bind.
    - eapply e_view; eauto using shell_ok.
    - cbn [is_unpacking]. apply emits_ret. }
  assert (Hp : emits (root_view E span f MPacking vt v) false v false
            (wroot E (vt_name vt) (wview E span vt c))).
  { unfold root_view. rewrite Hc. apply e_root; [now left|]. unfold ser_const_view.
    eapply emits_eq; [|apply app_nil_l]. eapply emits_bind; [apply shell_emits|]. cbn [is_packing].
    eapply emits_eq; [|apply app_nil_l]. eapply emits_bind; [exact Hem|].
    eapply emits_eq; [|apply app_nil_r]. eapply emits_bind.
    - eapply e_view; eauto.
    - cbn [is_unpacking]. apply emits_ret. }
  exists (wroot E (vt_name vt) (wview E span vt c)),
    (wrap64 (len (wroot E (vt_name vt) (wview E span vt (shell vt span d v))))).
  split; [exact (stream_emits _ _ _ _ _ _ _ Hs Hp)|].
  split; [exact (emits_sizer _ _ _ _ _ _ Hs 0)|]. split; [|split; [|split]].
  - intros Hfix Hl.
    assert (Hle : len (wroot E (vt_name vt) (wview E span vt (shell vt span d v))) =
                  len (wroot E (vt_name vt) (wview E span vt c))).
    { apply len_wroot. eapply len_wview; eauto using shell_ok. }
    rewrite Hle. unfold wrap64. rewrite N.mod_small by auto. split; auto.
    exact (serialize_emits_sizes _ _ _ _ _ _ _ _ Hs Hp Hle Hl).
  - intros Hlt Hl. unfold serialize_view, serialize_object.
    pose proof (emits_sizer _ _ _ _ _ _ Hs 0) as H. change (wrap64 0) with 0 in H. rewrite H.
    rewrite N.add_0_l.
    rewrite (emits_packer_overflow _ _ _ _ _ _ Hp).
    + reflexivity.
    + cbn [p_buf p_cur]. rewrite repeat_length. revert Hlt.
      generalize (wrap64 (len (wroot E (vt_name vt) (wview E span vt (shell vt span d v))))).
      generalize (wroot E (vt_name vt) (wview E span vt c)). intros b0 n0 Hlt.
      rewrite <- (len_nat _ b0). lia.
    + intros He. rewrite He in Hlt. rewrite len_nil in Hlt. lia.
  - pose proof (wrap64_lt (len (wroot E (vt_name vt) (wview E span vt (shell vt span d v))))) as Hn64.
    pose proof (emits_sizer _ _ _ _ _ _ Hs 0) as H. change (wrap64 0) with 0 in H. rewrite N.add_0_l in H.
    unfold serialize_view, serialize_object. rewrite H. clear H Hs. revert Hn64 Hp.
    generalize (wrap64 (len (wroot E (vt_name vt) (wview E span vt (shell vt span d v))))).
    generalize (wroot E (vt_name vt) (wview E span vt c)). intros b0 n0 Hn64 Hp Hle.
    pose proof (len_nat _ b0) as Hb0.
    pose proof (emits_packer _ _ _ _ _ _ Hp [] (repeat x00 (length b0))
      (repeat x00 (N.to_nat n0 - length b0)) 0 0 (repeat_length _ _) eq_refl) as H1.
    change (wrap64 0) with 0 in H1. cbn [app] in H1. rewrite <- repeat_app in H1.
    replace (length b0 + (N.to_nat n0 - length b0))%nat with (N.to_nat n0) in H1 by lia.
    rewrite H1. cbn [p_used p_buf]. rewrite N.add_0_l. unfold wrap64.
    rewrite N.mod_small by (eapply N.le_lt_trans; [exact Hle|exact Hn64]).
    destruct (N.eqb_spec (len b0) n0) as [He|He]; [|reflexivity]. subst n0. rewrite Hb0, Nat.sub_diag.
    cbn [repeat]. now rewrite app_nil_r.
  - intros w.
    destruct (r_view E wf span f Hf vt d c (shell vt span d w)) as (x & Hx & Hr); auto.
    exists x. split.
    + destruct Hx, Hsh as (S1 & S2 & S3 & S4 & S5). cbn [v_label v_ext v_str v_live shell] in *.
      constructor; try congruence.
      * intros Hk. rewrite vc_str by auto. rewrite S3, Hk. reflexivity.
      * intros _ idx Hi. rewrite <- Hat by auto. apply vc_elems; auto. now rewrite S2.
    + intros before after. apply deserialize_reads. unfold root_view. rewrite Hc. apply r_root; auto.
      unfold ser_const_view.
      eapply reads_eq; [|apply app_nil_l]. eapply reads_bind; [apply shell_reads|]. cbn [is_packing].
      eapply reads_eq; [|apply app_nil_l]. eapply reads_bind; [apply reads_ret|].
      eapply reads_eq; [|apply app_nil_r]. eapply reads_bind; [exact Hr|]. apply reads_ret.
Qed.
End Const.
