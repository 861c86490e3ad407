(** Facts on the functions of Crs.v. *)
From Coq Require Import List NArith Arith Bool Lia.
From Coq.Strings Require Import Byte.
From Verif Require Import Base Syntax Prog Serializers Traverse Spec ProgFacts EnvFacts ValFacts
  Fails RegistryFacts Pack Unpack ApiFacts Views ViewSpec ViewFacts ViewRound Crs CrsSpec.
Import ListNotations.
Local Open Scope N_scope.

Lemma eqb_list_refl : forall l, eqb_list l l = true.
Proof. induction l; cbn [eqb_list]; auto. now rewrite N.eqb_refl. Qed.

(** ** Copies between views *)
Lemma deep_copy_ret : forall l ds dst src,
  (forall idx, In idx (ds ++ l) -> offset (v_str dst) idx < len (v_data dst)) ->
  (forall idx, In idx (ds ++ l) -> exists x, at_ src idx = Some x) ->
  (forall i j, In i (ds ++ l) -> In j (ds ++ l) ->
     offset (v_str dst) i = offset (v_str dst) j -> at_ src i = at_ src j) ->
  (forall idx, In idx ds -> at_ dst idx = at_ src idx) ->
  exists dst', same_shape dst dst' /\
    (forall idx, In idx (ds ++ l) -> at_ dst' idx = at_ src idx) /\
    (forall k, (forall idx, In idx l -> N.to_nat (offset (v_str dst) idx) <> k) ->
       nth_error (v_data dst') k = nth_error (v_data dst) k) /\
    foldP (fun d idx => bind (valid (at_ src idx)) (fun x => valid (set_at d idx x))) l dst = Ret dst'.
Proof.
  induction l as [|i l IH]; intros ds dst src Hm Hs Hc Hd.
  - exists dst. split; [repeat split; auto|]. split; [rewrite app_nil_r; auto|]. auto.
  - destruct (Hs i) as (x & Hx); [apply in_or_app; right; now left|].
    assert (Hoi : offset (v_str dst) i < len (v_data dst)).
    { apply Hm. apply in_or_app; right; now left. }
    set (d1 := with_data dst (upd (v_data dst) (N.to_nat (offset (v_str dst) i)) x)).
    assert (Hl1 : len (v_data d1) = len (v_data dst)).
    { unfold d1, len. cbn [v_data with_data]. now rewrite upd_length. }
    assert (Hin : forall idx, In idx ((ds ++ [i]) ++ l) <-> In idx (ds ++ i :: l)).
    { intros idx. rewrite <- app_assoc. reflexivity. }
    destruct (IH (ds ++ [i]) d1 src) as (dst' & Hsh & Hat & Hfr & Hem).
    + intros idx Hi. rewrite Hl1. apply (Hm idx). now apply Hin.
    + intros idx Hi. apply Hs. now apply Hin.
    + intros a b Ha Hb. apply (Hc a b); now apply Hin.
    + intros idx Hi.
      destruct (N.eq_dec (offset (v_str dst) i) (offset (v_str dst) idx)) as [He|He].
      * transitivity (Some x).
        -- unfold at_, d1. cbn [v_str v_data with_data]. rewrite <- He. apply (at_upd_same dst i x Hoi).
        -- rewrite <- Hx. apply Hc; auto; apply in_or_app.
           ++ right; now left.
           ++ apply in_app_or in Hi. destruct Hi as [Hi|[<-|[]]]; [now left|right; now left].
      * unfold d1. rewrite at_upd_other by auto. apply Hd.
        apply in_app_or in Hi. destruct Hi as [Hi|[<-|[]]]; auto. congruence.
    + exists dst'. split; [|split; [|split]].
      * destruct Hsh as (H1 & H2 & H3 & H4 & H5). unfold d1 in *.
        cbn [v_label v_ext v_str v_live v_data with_data] in *. rewrite upd_length in H5.
        repeat split; auto.
      * intros idx Hi. apply Hat. now apply Hin.
      * intros k Hk. rewrite Hfr.
        -- unfold d1. cbn [v_data with_data]. apply nth_error_upd_neq.
           specialize (Hk i (or_introl eq_refl)). congruence.
        -- intros idx Hi. apply (Hk idx). now right.
      * cbn [foldP]. rewrite Hx. cbn [valid bind]. rewrite set_at_some by auto. exact Hem.
Qed.

(** ** A view inside of another object, whether its elements are constant or not *)

Section Any.
Variable E : env.
Hypothesis wf : wf_env any E.
Variable span : list N -> list N -> N.
Hypothesis Hsp : wf_span span.
Variable f : nat.
Hypothesis Hf : (2 < f)%nat.

(** [both g out]: sizing and packing of [g] agree, packing writes [out]. *)
Definition both {A} (g : mode -> prog A) (a : A) (out : bytes) : Prop :=
  exists out', emits (g MSizing) false a false out' /\ emits (g MPacking) false a false out /\
    len out' = len out.

Lemma both_object : forall A t (g : mode -> prog A) a out, both g a out ->
  both (fun m => as_object E m t (g m)) a (framed E t 1 out).
Proof.
  intros A t g a out (out' & H1 & H2 & H3). exists (framed E t 1 out'). split; [|split].
  - now apply e_object; auto.
  - now apply e_object; auto.
  - now apply len_framed.
Qed.
Lemma both_root : forall A t (g : mode -> prog A) a out, both g a out ->
  both (fun m => root_object E m t (g m)) a (wroot E t out).
Proof.
  intros A t g a out (out' & H1 & H2 & H3). exists (wroot E t out'). split; [|split].
  - now apply e_root; auto.
  - now apply e_root; auto.
  - now apply len_wroot.
Qed.
Lemma both_bind : forall A B (g : mode -> prog A) (h : mode -> A -> prog B) a b o1 o2,
  both g a o1 -> both (fun m => h m a) b o2 ->
  both (fun m => bind (g m) (h m)) b (o1 ++ o2).
Proof.
  intros A B g h a b o1 o2 (o1' & H1 & H2 & H3) (o2' & H4 & H5 & H6). exists (o1' ++ o2').
  split; [|split].
  - eapply emits_bind; eauto.
  - eapply emits_bind; eauto.
  - rewrite !len_app. congruence.
Qed.
Lemma both_same : forall A (g : mode -> prog A) a out,
  (forall m, m = MPacking \/ m = MSizing -> emits (g m) false a false out) -> both g a out.
Proof. intros A g a out H. exists out. repeat split; auto. Qed.
Lemma both_ret : forall A (a : A), both (fun _ => Ret a) a [].
Proof. intros. apply both_same. intros. apply emits_ret. Qed.
Lemma both_eq : forall A (g : mode -> prog A) a out out', both g a out -> out = out' -> both g a out'.
Proof. intros; subst; auto. Qed.

Lemma both_serialize : forall A i (g : mode -> prog A) a out, both g a out -> len out < two64 ->
  serialize_object i (g MSizing) (g MPacking) = Ok (out, a).
Proof.
  intros A i g a out (out' & H1 & H2 & H3) Hl. exact (serialize_emits_sizes _ _ _ _ _ _ _ _ H1 H2 H3 Hl).
Qed.

Lemma both_written : forall A i (g : mode -> prog A) a out, both g a out ->
  stream_object (g MSizing) (g MPacking) = Ok (out, a) /\
  (len out < two64 -> serialize_object i (g MSizing) (g MPacking) = Ok (out, a)).
Proof.
  intros A i g a out (out' & H1 & H2 & H3). exact (both_ways _ _ _ _ _ _ _ _ H1 H2 H3).
Qed.

Lemma any_view_round : forall vt v, storable E span f vt v ->
  exists out, both (fun m => ser_any_view E span m (with_ E m f) vt v) v out /\
    forall w, exists x, view_copy (vt_kind vt) v x /\
      reads (ser_any_view E span MUnpacking (with_ E MUnpacking f) vt w) false out x false.
Proof.
  intros vt v [Hok Hman Hvir (d & Hd & Hc)]. unfold ser_any_view.
  destruct (vt_const vt) eqn:Ec.
  - destruct (Hc eq_refl) as (Hrd & Hdt & Hdd & Hfix).
    destruct (const_copy E span Hsp f Hf vt d Hdt Hdd v Hok Hrd) as (c & Hsh & Hcok & Hat & Hem).
    exists (framed E (vt_name vt) 1 (wview E span vt c)). split.
    + exists (framed E (vt_name vt) 1 (wview E span vt (shell vt span d v))). split; [|split].
      * apply e_object; auto. unfold ser_const_view.
        eapply emits_eq; [|apply app_nil_l]. eapply emits_bind; [apply shell_emits; eauto|]. cbn [is_packing].
        eapply emits_eq; [|apply app_nil_l]. eapply emits_bind; [apply emits_ret|].
        eapply emits_eq; [|apply app_nil_r]. eapply emits_bind.
        -- eapply e_view; eauto using shell_ok.
        -- cbn [is_unpacking]. apply emits_ret.
      * apply e_object; auto. unfold ser_const_view.
        eapply emits_eq; [|apply app_nil_l]. eapply emits_bind; [apply shell_emits; eauto|]. cbn [is_packing].
        eapply emits_eq; [|apply app_nil_l]. eapply emits_bind; [exact Hem|].
        eapply emits_eq; [|apply app_nil_r]. eapply emits_bind.
        -- eapply e_view; eauto.
        -- cbn [is_unpacking]. apply emits_ret.
      * apply len_framed. eapply len_wview; eauto using shell_ok.
    + intros w.
      destruct (r_view E wf span f Hf vt d c (shell vt span d w)) as (x & Hx & Hr); auto.
      exists x. split.
      * destruct Hx, Hsh as (S1 & S2 & S3 & S4 & S5). cbn [v_label v_ext v_str v_live shell] in *.
        constructor; try congruence.
        -- intros Hk. rewrite vc_str by auto. rewrite S3, Hk. reflexivity.
        -- intros _ idx Hi. rewrite <- Hat by auto. apply vc_elems; auto. now rewrite S2.
      * apply r_object; auto. unfold ser_const_view.
        eapply reads_eq; [|apply app_nil_l]. eapply reads_bind; [apply shell_reads; eauto|]. cbn [is_packing].
        eapply reads_eq; [|apply app_nil_l]. eapply reads_bind; [apply reads_ret|].
        eapply reads_eq; [|apply app_nil_r]. eapply reads_bind; [exact Hr|]. apply reads_ret.
  - exists (framed E (vt_name vt) 1 (wview E span vt v)). split.
    + apply both_object, both_same. intros m Hm. eapply e_view; eauto.
    + intros w. destruct (r_view E wf span f Hf vt d v w) as (x & Hx & Hr); auto.
      exists x. split; auto. apply r_object; auto.
Qed.

(** ** Extents only *)
Definition wextents (ext : list N) : bytes := concat (map (wsize E) ext).

Lemma extents_both : forall vt v label, (1 <= vt_rank vt <= 4)%nat -> length (v_ext v) = vt_rank vt ->
  Forall (fun e => e < two64) (v_ext v) ->
  both (fun m => ser_extent_only E span m (with_ E m f) vt v label) v (wextents (v_ext v)).
Proof.
  intros vt v label Hr Hl Hb. apply both_same. intros m Hm.
  pose proof (proj1 (pack_all any E wf m Hm f)) as P.
  assert (Hs : forall i, emits (ser_size (with_ E m f) (extent v i)) false (extent v i) false
                           (wsize E (extent v i))).
  { intros i. apply (p_ser_size E (with_ E m f) f P); [|lia]. unfold extent.
    destruct (nth_in_or_default i (v_ext v) 1) as [Hi|Hi]; [|rewrite Hi; reflexivity].
    rewrite Forall_forall in Hb. auto. }
  unfold ser_extent_only, extent_only1, extent_only2, extent_only3, extent_only4.
  rewrite (m_unp m Hm).
  assert (He : concat (map (wsize E) (map (extent v) (seq 0 (vt_rank vt)))) = wextents (v_ext v)).
  { unfold wextents. do 2 f_equal. rewrite <- Hl. unfold extent. clear.
    generalize (v_ext v). intros l. induction l as [|a l IH]; auto.
    cbn [length seq map nth]. f_equal. rewrite <- IH at 2. rewrite <- seq_shift, map_map. reflexivity. }
  rewrite <- He. clear He Hl.
  destruct (vt_rank vt) as [|[|[|[|[|n]]]]]; try lia; cbn [seq map concat];
    repeat (eapply emits_bind; [apply Hs|]); try apply emits_ret.
Qed.

(** The view that reading extents makes. *)
Definition fresh (vt : vty) (label : bytes) (ext : list N) (d : val) : view :=
  {| v_label := label; v_ext := ext; v_str := natural (vt_kind vt) ext;
     v_data := repeat d (N.to_nat (prod ext)); v_live := true |}.

Lemma extents_read : forall vt ext label w d, (1 <= vt_rank vt <= 4)%nat -> length ext = vt_rank vt ->
  Forall (fun e => e < two64) ext -> vt_kind vt <> LStride -> dflt E (vt_elem vt) = Some d ->
  reads (ser_extent_only E span MUnpacking (with_ E MUnpacking f) vt w label) false
    (wextents ext) (fresh vt label ext d) false.
Proof.
  intros vt ext label w d Hr Hl Hb Hk Hd.
  pose proof (proj1 (unpack_all any E wf Cany N.le Cany_any Cany_max f)) as U.
  assert (Hs : forall e x, In e ext -> reads (ser_size (with_ E MUnpacking f) x) false (wsize E e) e false).
  { intros e x Hi. apply (u_size E Cany N.le (with_ E MUnpacking f) f U); [|lia].
    rewrite Forall_forall in Hb. auto. }
  assert (Hn : reads (from_extents E span vt label ext) false [] (fresh vt label ext d) false).
  { unfold from_extents, new_view, fresh. rewrite Hd. cbn [of_opt bind].
    destruct (vt_kind vt); [apply reads_ret|apply reads_ret|congruence]. }
  unfold ser_extent_only, extent_only1, extent_only2, extent_only3, extent_only4, wextents.
  cbn [is_unpacking].
  destruct (vt_rank vt) as [|[|[|[|[|n]]]]]; try lia; clear Hr;
    repeat match goal with H : length ?l = S _ |- _ => destruct l; [discriminate|]; cbn [length] in H; injection H as H end;
    match goal with H : length ?l = O |- _ => destruct l; [clear H|discriminate] end;
    cbn [map concat];
    repeat (eapply reads_bind; [apply Hs; cbn; auto 8|]); exact Hn.
Qed.

(** ** Contents only *)
Lemma contents_both : forall vt v out,
  both (fun m => ser_any_view E span m (with_ E m f) vt v) v out ->
  both (fun m => ser_contents_only E span m (with_ E m f) vt v) v out.
Proof.
  intros vt v out (out' & H1 & H2 & H3). exists out'. split; [|split; [|exact H3]].
  - eapply emits_eq; [|apply app_nil_r]. eapply emits_bind; [exact H1|]. apply emits_ret.
  - eapply emits_eq; [|apply app_nil_r]. eapply emits_bind; [exact H2|]. apply emits_ret.
Qed.

Lemma contents_copy : forall vt v x w, view_copy (vt_kind vt) v x -> v_live v = true ->
  v_ext w = v_ext v -> has_memory w -> disjoint_elems w ->
  exists y, deep_copy_checked w x = Ret y /\ same_shape w y /\
    (forall idx, in_bounds idx (v_ext v) ->
       exists a b, at_ v idx = Some a /\ at_ y idx = Some b /\ copy_of a b) /\
    (forall k, (forall idx, in_bounds idx (v_ext w) -> N.to_nat (offset (v_str w) idx) <> k) ->
       nth_error (v_data y) k = nth_error (v_data w) k).
Proof.
  intros vt v x w [Hcl Hce Hcs Hcx] Hlive Hext Hmem Hdis.
  assert (Hin : forall idx, In idx (indices (v_ext x)) <-> in_bounds idx (v_ext w)).
  { intros idx. rewrite Hce, <- Hext. apply in_indices. }
  destruct (deep_copy_ret (indices (v_ext x)) [] w x) as (y & Hsh & Hat & Hfr & Hy); cbn [app] in *.
  - intros idx Hi. apply Hmem. now apply Hin.
  - intros idx Hi. apply Hin in Hi. rewrite Hext in Hi.
    destruct (Hcx Hlive idx Hi) as (a & b & _ & Hb & _). eauto.
  - intros i j Hi Hj Ho. f_equal. apply Hdis; auto; now apply Hin.
  - intros idx [].
  - exists y. split; [|split; [exact Hsh|split]].
    + unfold deep_copy_checked. rewrite Hext, Hce, eqb_list_refl. exact Hy.
    + intros idx Hi. destruct (Hcx Hlive idx Hi) as (a & b & Ha & Hb & Hc). exists a, b.
      split; auto. split; auto. rewrite Hat; auto. apply Hin. now rewrite Hext.
    + intros k Hk. apply Hfr. intros idx Hi. apply Hk. now apply Hin.
Qed.

Lemma contents_read : forall vt w out x,
  reads (ser_any_view E span MUnpacking (with_ E MUnpacking f) vt w) false out x false ->
  forall y, deep_copy_checked w x = Ret y ->
  reads (ser_contents_only E span MUnpacking (with_ E MUnpacking f) vt w) false out y false.
Proof.
  intros vt w out x Hr y Hy. eapply reads_eq; [|apply app_nil_r].
  eapply reads_bind; [exact Hr|]. cbn [is_unpacking]. rewrite Hy. apply reads_ret.
Qed.

Lemma eqb_list_neq : forall a b, a <> b -> eqb_list a b = false.
Proof.
  intros a b H. destruct (eqb_list a b) eqn:He; auto. now apply eqb_list_eq in He.
Qed.

Lemma contents_differ : forall vt w out x,
  reads (ser_any_view E span MUnpacking (with_ E MUnpacking f) vt w) false out x false ->
  v_ext w <> v_ext x -> forall before after,
  deserialize_object (ser_contents_only E span MUnpacking (with_ E MUnpacking f) vt w)
    (before ++ out ++ after) (length before) = Err RtErr.
Proof.
  intros vt w out x Hr Hne before after. unfold deserialize_object, ser_contents_only.
  rewrite interp_bind.
  pose proof (reads_unpacker _ _ _ _ _ _ Hr before after 0) as H.
  change (wrap64 0) with 0 in H. rewrite H. cbn [is_unpacking]. unfold deep_copy_checked.
  now rewrite (eqb_list_neq _ _ Hne).
Qed.

(** ** Graphs and matrices *)
Lemma graph_round : forall ct g, graph_ok E span f ct g ->
  exists out, both (fun m => ser_graph E span m (with_ E m f) ct g) g out /\
    forall g0, exists h, graph_copy ct g h /\
      reads (ser_graph E span MUnpacking (with_ E MUnpacking f) ct g0) false out h false.
Proof.
  intros ct g [H1 H2 H3].
  destruct (any_view_round _ _ H1) as (o1 & B1 & R1).
  destruct (any_view_round _ _ H2) as (o2 & B2 & R2).
  destruct (any_view_round _ _ H3) as (o3 & B3 & R3).
  exists (o1 ++ o2 ++ o3). split.
  - unfold ser_graph.
    refine (both_bind _ _ _ (fun m e => _) _ _ _ _ B1 _).
    refine (both_bind _ _ _ (fun m r => _) _ _ _ _ B2 _).
    eapply both_eq; [|apply app_nil_r].
    refine (both_bind _ _ _ (fun m b => _) _ _ _ _ B3 _).
    destruct g. apply both_ret.
  - intros g0. destruct (R1 (g_entries g0)) as (x1 & C1 & Rd1).
    destruct (R2 (g_row_map g0)) as (x2 & C2 & Rd2). destruct (R3 (g_blocks g0)) as (x3 & C3 & Rd3).
    exists {| g_entries := x1; g_row_map := x2; g_blocks := x3 |}. split; [now constructor|].
    unfold ser_graph. eapply reads_bind; [exact Rd1|]. eapply reads_bind; [exact Rd2|].
    eapply reads_eq; [|apply app_nil_r]. eapply reads_bind; [exact Rd3|]. apply reads_ret.
Qed.

Variable mb : view -> view.
Lemma matrix_round : forall ct a, graph_ok E span f ct (m_graph a) -> storable E span f (ct_values ct) (m_values a) ->
  m_cols a < 256 ^ N.of_nat (ct_ord_size ct) ->
  exists out, both (fun m => ser_matrix E span mb m (with_ E m f) ct a) a out /\
    forall a0, exists b, m_cols b = m_cols a /\
      view_copy (vt_kind (ct_entries ct)) (g_entries (m_graph a)) (g_entries (m_graph b)) /\
      view_copy (vt_kind (ct_row_map ct)) (g_row_map (m_graph a)) (g_row_map (m_graph b)) /\
      view_copy (vt_kind (ct_values ct)) (m_values a) (m_values b) /\
      reads (ser_matrix E span mb MUnpacking (with_ E MUnpacking f) ct a0) false out b false.
Proof.
  intros ct a Hg Hv Hc.
  destruct (graph_round _ _ Hg) as (o1 & B1 & R1). destruct (any_view_round _ _ Hv) as (o2 & B2 & R2).
  pose proof (proj1 (unpack_all any E wf Cany N.le Cany_any Cany_max f)) as U.
  set (o0 := framed E (TPrim (ct_ord ct) (ct_ord_size ct)) 1 (le (ct_ord_size ct) (m_cols a))).
  exists (o0 ++ framed E (ct_graph ct) 1 o1 ++ o2). split.
  - assert (B0 : both (fun m => ser_word (with_ E m f) (ct_ord ct) (ct_ord_size ct) (m_cols a)) (m_cols a) o0).
    { apply both_same. intros m Hm.
      apply (p_ser_word E (with_ E m f) f (proj1 (pack_all any E wf m Hm f))); auto. lia. }
    destruct B0 as (o0' & Z1 & Z2 & Z3). destruct (both_object _ (ct_graph ct) _ _ _ B1) as (o1' & Y1 & Y2 & Y3).
    destruct B2 as (o2' & X1 & X2 & X3). exists (o0' ++ o1' ++ o2'). split; [|split].
    + unfold ser_matrix. eapply emits_bind; [exact Z1|]. eapply emits_bind; [exact Y1|].
      eapply emits_eq; [|apply app_nil_r]. eapply emits_bind; [exact X1|]. cbn [is_unpacking]. apply emits_ret.
    + unfold ser_matrix. eapply emits_bind; [exact Z2|]. eapply emits_bind; [exact Y2|].
      eapply emits_eq; [|apply app_nil_r]. eapply emits_bind; [exact X2|]. cbn [is_unpacking]. apply emits_ret.
    + rewrite !len_app. congruence.
  - intros a0. destruct (R1 (m_graph a0)) as (h & [C1 C2 C3] & Rd1).
    destruct (R2 (m_values a0)) as (x & Cx & Rd2).
    exists {| m_cols := m_cols a;
              m_graph := {| g_entries := g_entries h; g_row_map := g_row_map h; g_blocks := mb (g_blocks h) |};
              m_values := x |}.
    cbn [m_cols m_graph m_values g_entries g_row_map]. do 4 (split; [assumption || reflexivity|]).
    unfold ser_matrix.
    eapply reads_bind; [apply (u_word E Cany N.le (with_ E MUnpacking f) f U); [exact Hc|lia]|].
    eapply reads_bind; [apply r_object; [exact wf|exact Rd1]|].
    eapply reads_eq; [|apply app_nil_r]. eapply reads_bind; [exact Rd2|]. apply reads_ret.
Qed.
End Any.
