(** C46 - C49: extents only, contents only, compressed row matrices, and footprints of
    Kokkos containers. *)
From Coq Require Import List NArith Arith Bool Lia.
From Coq.Strings Require Import Byte.
From Verif Require Import Base Syntax Prog Serializers Traverse Spec ProgFacts EnvFacts ValFacts
  Fails RegistryFacts Pack Unpack Api ApiFacts Foot Examples Views ViewSpec ViewFacts ViewRound
  PropViews Crs CrsSpec CrsFacts CrsFoot DynFoot.
Import ListNotations.
Local Open Scope N_scope.

(** ** C46 *)

(** The bytes depend on the extents only; the new view has the label given by the caller,
    the extents of the original, and default elements.  Views with other ranks and with
    LayoutStride do not compile. *)
Theorem C46_extent_only : forall E i span f vt label v d, wf_env any E -> (2 < f)%nat ->
  (1 <= vt_rank vt <= 4)%nat -> length (v_ext v) = vt_rank vt ->
  Forall (fun e => e < two64) (v_ext v) -> vt_kind vt <> LStride -> dflt E (vt_elem vt) = Some d ->
  exists b, (chk E = false -> len b = 8 * len (v_ext v)) /\
    (forall v', v_ext v' = v_ext v ->
       serialize_object i (ser_extent_only E span MSizing (with_ E MSizing f) vt v' label)
         (ser_extent_only E span MPacking (with_ E MPacking f) vt v' label) = Ok (b, v')) /\
    forall w before after, exists x,
      deserialize_object (ser_extent_only E span MUnpacking (with_ E MUnpacking f) vt w label)
        (before ++ b ++ after) (length before) = Ok (x, len b) /\
      v_label x = label /\ v_ext x = v_ext v /\ v_live x = true /\
      forall idx, in_bounds idx (v_ext v) -> at_ x idx = Some d.
Proof.
  intros E i span f vt label v d wf Hf Hr Hl Hb Hk Hd. exists (wextents E (v_ext v)). split; [|split].
  - intros Hc. unfold wextents, wsize, framed. rewrite Hc. clear.
    induction (v_ext v) as [|e l IH]; [reflexivity|]. cbn [map concat]. rewrite len_app, len_cons, IH.
    unfold len at 1. rewrite le_length. change (N.of_nat 8) with 8. lia.
  - intros v' Hv'. rewrite <- Hv'.
    apply (both_serialize _ _ (fun m => ser_extent_only E span m (with_ E m f) vt v' label)).
    + apply extents_both; auto; now rewrite Hv'.
    + assert (Hlen : len (v_ext v') <= 4) by (unfold len; rewrite Hv', Hl; lia).
      apply N.le_lt_trans with (20 * len (v_ext v')); [|apply N.le_lt_trans with 80; [lia|reflexivity]].
      clear. unfold wextents, wsize, framed.
      induction (v_ext v') as [|e l IH]; [vm_compute; discriminate|]. cbn [map concat]. rewrite len_app, len_cons.
      destruct (chk E); rewrite ?len_app; unfold len at 1; rewrite ?le_length; unfold len in *;
        rewrite ?le_length; lia.
  - intros w before after. exists (fresh vt label (v_ext v) d).
    split; [apply deserialize_reads; now apply extents_read|]. repeat split; auto.
    intros idx Hi. unfold at_, fresh. cbn [v_str v_data].
    pose proof (natural_bound (vt_kind vt) (v_ext v) idx Hi) as Hlt.
    rewrite nth_error_repeat; auto. lia.
Qed.
Print Assumptions C46_extent_only.

Example C46_case : forall b, exists out x,
  serialize_object 0
    (ser_extent_only (ex b) ex_span MSizing (with_ (ex b) MSizing 3) (ex_vt INT 2 LRight false) ex_dense [x76])
    (ser_extent_only (ex b) ex_span MPacking (with_ (ex b) MPacking 3) (ex_vt INT 2 LRight false) ex_dense [x76])
    = Ok (out, ex_dense) /\
  deserialize_object
    (ser_extent_only (ex b) ex_span MUnpacking (with_ (ex b) MUnpacking 3) (ex_vt INT 2 LRight false) no_view [x76])
    out 0 = Ok (x, len out) /\
  v_label x = [x76] /\ v_ext x = [2; 3] /\ v_data x = repeat (i_ 0) 6.
Proof.
  destruct b; do 2 eexists; (split; [vm_compute; reflexivity|]); (split; [vm_compute; reflexivity|]);
  vm_compute; auto.
Qed.

(** ** C47 *)

(** The target keeps its label, extents, strides and memory; each of its elements becomes
    a copy; memory that is not an element of it (for example between the rows of a
    subview) is left alone.  A target of other extents is rejected. *)
Theorem C47_contents_only : forall E i span f vt v, wf_env any E -> wf_span span -> (2 < f)%nat ->
  storable E span f vt v -> v_live v = true ->
  exists b,
    (stream_object (ser_contents_only E span MSizing (with_ E MSizing f) vt v)
         (ser_contents_only E span MPacking (with_ E MPacking f) vt v) = Ok (b, v) /\
     (len b < two64 ->
       serialize_object i (ser_contents_only E span MSizing (with_ E MSizing f) vt v)
         (ser_contents_only E span MPacking (with_ E MPacking f) vt v) = Ok (b, v))) /\
    (forall w, v_ext w = v_ext v -> has_memory w -> disjoint_elems w ->
       exists x, (forall before after,
           deserialize_object (ser_contents_only E span MUnpacking (with_ E MUnpacking f) vt w)
             (before ++ b ++ after) (length before) = Ok (x, len b)) /\
         v_label x = v_label w /\ v_ext x = v_ext w /\ v_str x = v_str w /\ v_live x = v_live w /\
         length (v_data x) = length (v_data w) /\
         (forall idx, in_bounds idx (v_ext v) ->
            exists a c, at_ v idx = Some a /\ at_ x idx = Some c /\ copy_of a c) /\
         forall k, (forall idx, in_bounds idx (v_ext w) -> N.to_nat (offset (v_str w) idx) <> k) ->
           nth_error (v_data x) k = nth_error (v_data w) k) /\
    forall w, v_ext w <> v_ext v -> forall before after,
      deserialize_object (ser_contents_only E span MUnpacking (with_ E MUnpacking f) vt w)
        (before ++ b ++ after) (length before) = Err RtErr.
Proof.
  intros E i span f vt v wf Hsp Hf Hst Hlive.
  destruct (any_view_round E wf span Hsp f Hf vt v Hst) as (b & Hb & Hr). exists b. split; [|split].
  - apply (both_written _ _ (fun m => ser_contents_only E span m (with_ E m f) vt v)).
    now apply contents_both.
  - intros w Hw Hm Hd. destruct (Hr w) as (x & Hc & Hx).
    destruct (contents_copy vt v x w Hc Hlive Hw Hm Hd) as (y & Hy & (S1 & S2 & S3 & S4 & S5) & Hel & Hfr).
    exists y. split.
    + intros before after. apply deserialize_reads. eapply contents_read; eauto.
    + repeat split; auto.
  - intros w Hw before after. destruct (Hr w) as (x & Hc & Hx).
    eapply contents_differ; eauto. destruct Hc. congruence.
Qed.
Print Assumptions C47_contents_only.

(** A dense source, and a target with gaps, whose other six elements do not change. *)
Definition ex_numbers : view := {|
  v_label := [x6e]; v_ext := [2; 3]; v_str := [3; 1]; v_data := map i_ [1; 2; 3; 4; 5; 6]; v_live := true
|}.
Definition ex_gaps : view := {|
  v_label := [x67]; v_ext := [2; 3]; v_str := [6; 1];
  v_data := map i_ [50; 51; 52; 53; 54; 55; 56; 57; 58; 59; 60; 61]; v_live := true
|}.
Lemma ex_numbers_ok : forall b c, storable (ex b) ex_span 3 (ex_vt INT 2 LRight c) ex_numbers.
Proof.
  intros b c. constructor; try reflexivity.
  - vok. intros _. split; [|split].
    + intros idx H. destruct (bounds2 _ _ _ H) as (i & j & -> & Hi & Hj).
      cbn [offset ex_numbers v_str]. match goal with |- _ < ?x => let y := eval vm_compute in x in change x with y end. lia.
    + intros _. vm_compute. discriminate.
    + cbn [ex_numbers v_data map]. repeat (constructor; [split; [ht|cbn; lia]|]). constructor.
  - exists (i_ 0). split; [reflexivity|]. intros _. split; [now left|]. split; [ht|].
    split; [cbn; lia|apply prim_fixed].
Qed.
Example C47_case : forall b, exists out,
  serialize_object 0
    (ser_contents_only (ex b) ex_span MSizing (with_ (ex b) MSizing 3) (ex_vt INT 2 LRight false) ex_numbers)
    (ser_contents_only (ex b) ex_span MPacking (with_ (ex b) MPacking 3) (ex_vt INT 2 LRight false) ex_numbers)
    = Ok (out, ex_numbers) /\
  deserialize_object
    (ser_contents_only (ex b) ex_span MUnpacking (with_ (ex b) MUnpacking 3) (ex_vt INT 2 LRight false) ex_gaps)
    out 0 = Ok (with_data ex_gaps (map i_ [1; 2; 3; 53; 54; 55; 4; 5; 6; 59; 60; 61]), len out).
Proof.
  destruct b; eexists; (split; vm_compute; reflexivity).
Qed.
Example C47_case_ok : has_memory ex_gaps /\ disjoint_elems ex_gaps.
Proof.
  split.
  - intros idx H. destruct (bounds2 _ _ _ H) as (i & j & -> & Hi & Hj). cbn [offset ex_gaps v_str].
    match goal with |- _ < ?x => let y := eval vm_compute in x in change x with y end. lia.
  - intros idx idx' H H'. destruct (bounds2 _ _ _ H) as (i & j & -> & Hi & Hj).
    destruct (bounds2 _ _ _ H') as (i' & j' & -> & Hi' & Hj'). cbn [offset ex_gaps v_str].
    intros Ho. assert (i = i' /\ j = j') as (-> & ->) by lia. reflexivity.
Qed.

(** ** C48 *)

(** A graph. *)
Theorem C48_graph : forall E span f ct g, wf_env any E -> wf_span span -> (2 < f)%nat ->
  graph_ok E span f ct g ->
  exists b,
    (stream_object (root_graph E span f ct MSizing g) (root_graph E span f ct MPacking g) = Ok (b, g) /\
     (len b < two64 ->
       serialize_object (tix E (ct_graph ct)) (root_graph E span f ct MSizing g) (root_graph E span f ct MPacking g) = Ok (b, g))) /\
    forall g0, exists h, graph_copy ct g h /\ forall before after,
      deserialize_object (root_graph E span f ct MUnpacking g0) (before ++ b ++ after) (length before)
      = Ok (h, len b).
Proof.
  intros E span f ct g wf Hsp Hf Hok.
  destruct (graph_round E wf span Hsp f Hf ct g Hok) as (b & Hb & Hr).
  exists (wroot E (ct_graph ct) b). split.
  - apply (both_written _ _ (fun m => root_graph E span f ct m g)). unfold root_graph.
    now apply (both_root E _ _ (fun m => ser_graph E span m (with_ E m f) ct g)).
  - intros g0. destruct (Hr g0) as (h & Hc & Hh). exists h. split; auto.
    intros before after. apply deserialize_reads. unfold root_graph. now apply r_root.
Qed.
Print Assumptions C48_graph.

(** A matrix; [blocks] is what its constructor does with the block offsets. *)
Theorem C48_matrix : forall E span blocks f ct a, wf_env any E -> wf_span span -> (2 < f)%nat ->
  graph_ok E span f ct (m_graph a) -> storable E span f (ct_values ct) (m_values a) ->
  m_cols a < 256 ^ N.of_nat (ct_ord_size ct) ->
  exists b,
    (stream_object (root_matrix E span blocks f ct MSizing a) (root_matrix E span blocks f ct MPacking a) = Ok (b, a) /\
     (len b < two64 ->
       serialize_object (tix E (ct_matrix ct)) (root_matrix E span blocks f ct MSizing a) (root_matrix E span blocks f ct MPacking a) = Ok (b, a))) /\
    forall a0, exists c,
      m_cols c = m_cols a /\
      view_copy (vt_kind (ct_entries ct)) (g_entries (m_graph a)) (g_entries (m_graph c)) /\
      view_copy (vt_kind (ct_row_map ct)) (g_row_map (m_graph a)) (g_row_map (m_graph c)) /\
      view_copy (vt_kind (ct_values ct)) (m_values a) (m_values c) /\
      forall before after,
      deserialize_object (root_matrix E span blocks f ct MUnpacking a0) (before ++ b ++ after) (length before)
      = Ok (c, len b).
Proof.
  intros E span blocks f ct a wf Hsp Hf Hg Hv Hc.
  destruct (matrix_round E wf span Hsp f Hf blocks ct a Hg Hv Hc) as (b & Hb & Hr).
  exists (wroot E (ct_matrix ct) b). split.
  - apply (both_written _ _ (fun m => root_matrix E span blocks f ct m a)). unfold root_matrix.
    now apply (both_root E _ _ (fun m => ser_matrix E span blocks m (with_ E m f) ct a)).
  - intros a0. destruct (Hr a0) as (c & C0 & C1 & C2 & C3 & Hh). exists c.
    do 4 (split; [assumption|]).
    intros before after. apply deserialize_reads. unfold root_matrix. now apply r_root.
Qed.
Print Assumptions C48_matrix.

(** 3 x 5 with four entries: the row map is a view of constant elements, the block offsets
    were never allocated. *)
Definition ex_array (label : bytes) (l : list N) : view := {|
  v_label := label; v_ext := [len l]; v_str := [1]; v_data := map i_ l; v_live := true
|}.
Definition ex_unallocated : view := {|
  v_label := []; v_ext := [0]; v_str := [1]; v_data := []; v_live := false
|}.
Definition ex_ct : crs_ty := {|
  ct_entries := ex_vt INT 1 LLeft false; ct_row_map := ex_vt INT 1 LLeft true;
  ct_blocks := ex_vt INT 1 LLeft true; ct_values := ex_vt INT 1 LLeft false;
  ct_graph := TPrim 92 72; ct_matrix := TPrim 93 120; ct_ord := 3; ct_ord_size := 4
|}.
Definition ex_matrix : matrix := {|
  m_cols := 5;
  m_graph := {| g_entries := ex_array [x65] [0; 4; 2; 3]; g_row_map := ex_array [x72] [0; 2; 2; 4];
                g_blocks := ex_unallocated |};
  m_values := ex_array [x76] [10; 20; 30; 40]
|}.
Lemma ex_array_ok : forall b c label x0 x1 x2 x3, len label < two64 ->
  storable (ex b) ex_span 3 (ex_vt INT 1 LLeft c) (ex_array label [x0; x1; x2; x3]).
Proof.
  intros b c label x0 x1 x2 x3 Hl. constructor; try reflexivity.
  - constructor; try reflexivity; try exact Hl; try (cbn; lia).
    + repeat constructor.
    + intros; discriminate.
    + intros _. split; [|split].
      * intros idx H. destruct (bounds1 _ _ H) as (i & -> & Hi).
        change (len [x0; x1; x2; x3]) with 4 in Hi. cbn [offset ex_array v_str v_data map].
        match goal with |- _ < ?x => let y := eval vm_compute in x in change x with y end. lia.
      * intros _. vm_compute. discriminate.
      * cbn [ex_array v_data map]. repeat (constructor; [split; [ht|cbn; lia]|]). constructor.
  - exists (i_ 0). split; [reflexivity|]. intros _. split; [now left|]. split; [ht|].
    split; [cbn; lia|apply prim_fixed].
Qed.
Lemma ex_unallocated_ok : forall b, storable (ex b) ex_span 3 (ex_vt INT 1 LLeft true) ex_unallocated.
Proof.
  intros b. constructor; try reflexivity.
  - vok. discriminate.
  - exists (i_ 0). split; [reflexivity|]. intros _. split; [now right|]. split; [ht|].
    split; [cbn; lia|apply prim_fixed].
Qed.
Example C48_case_ok : forall b, graph_ok (ex b) ex_span 3 ex_ct (m_graph ex_matrix) /\
  storable (ex b) ex_span 3 (ct_values ex_ct) (m_values ex_matrix).
Proof.
  intros b. split; [|now apply ex_array_ok].
  constructor; [now apply ex_array_ok|now apply ex_array_ok|apply ex_unallocated_ok].
Qed.
Definition no_matrix : matrix := {|
  m_cols := 0;
  m_graph := {| g_entries := ex_unallocated; g_row_map := ex_unallocated; g_blocks := ex_unallocated |};
  m_values := ex_unallocated
|}.
Example C48_case : forall b, exists out a,
  serialize_object (tix (ex b) (ct_matrix ex_ct)) (root_matrix (ex b) ex_span (fun v => v) 3 ex_ct MSizing ex_matrix)
    (root_matrix (ex b) ex_span (fun v => v) 3 ex_ct MPacking ex_matrix) = Ok (out, ex_matrix) /\
  deserialize_object (root_matrix (ex b) ex_span (fun v => v) 3 ex_ct MUnpacking no_matrix) out 0
    = Ok (a, len out) /\
  m_cols a = 5 /\ v_data (g_entries (m_graph a)) = map i_ [0; 4; 2; 3] /\
  v_data (g_row_map (m_graph a)) = map i_ [0; 2; 2; 4] /\ v_data (m_values a) = map i_ [10; 20; 30; 40].
Proof.
  destruct b; do 2 eexists; (split; [vm_compute; reflexivity|]); (split; [vm_compute; reflexivity|]);
  vm_compute; auto.
Qed.

(** ** C49 *)

(** A view of elements that are not constant: its header, and what each of the stored
    objects takes ([takes] is the specification of C27), or the view object itself if that
    is more. *)
Theorem C49_view_partial : forall E span f vt v l ns off, wf_env any E -> (2 < f)%nat ->
  view_ok E span vt f v -> vt_const vt = false -> vt_managed vt = true ->
  is_virtual E (vt_elem vt) = false -> stored span vt v l -> Forall2 (takes E (vt_elem vt)) l ns ->
  off + N.max (header E vt v + total ns) (sizeof E (vt_name vt)) < two64 ->
  footprint_object E (vt_name vt) (root_view E span f MFootprinting vt v) off
  = Ok (v, off + N.max (header E vt v + total ns) (sizeof E (vt_name vt))).
Proof.
  intros E span f vt v l ns off wf Hf Hok Hc Hm Hv Hst Hns Hlt. unfold footprint_object, root_view. rewrite Hc.
  rewrite (f_root E _ _ _ _ _ (f_view E wf span f Hf vt v l ns Hok (or_introl Hm) Hv Hst Hns) 0 eq_refl).
  rewrite N.add_0_l. unfold wrap64. rewrite (N.mod_small (header E vt v + total ns)) by lia.
  now rewrite N.mod_small.
Qed.
Print Assumptions C49_view_partial.

(** For numbers: the product of the extents times the size of an element. *)
Theorem C49_numbers : forall E span f vt v id sz off, wf_env any E -> (2 < f)%nat ->
  view_ok E span vt f v -> vt_const vt = false -> vt_managed vt = true ->
  vt_elem vt = TPrim id sz -> v_live v = true ->
  off + N.max (header E vt v + prod (v_ext v) * N.of_nat sz) (sizeof E (vt_name vt)) < two64 ->
  footprint_object E (vt_name vt) (root_view E span f MFootprinting vt v) off
  = Ok (v, off + N.max (header E vt v + prod (v_ext v) * N.of_nat sz) (sizeof E (vt_name vt))).
Proof.
  intros E span f vt v id sz off wf Hf Hok Hc Hm Ht Hlive Hlt.
  destruct (vo_live _ _ _ _ _ Hok Hlive) as (Hmem & Hcon & Hel).
  assert (exists l, stored span vt v l /\ len l = prod (v_ext v) /\ (forall x, In x l -> In x (v_data v)))
    as (l & Hst & Hlen & Hin).
  { unfold stored. rewrite Hlive. destruct (contiguous span (vt_kind vt) v).
    - eexists. split; [reflexivity|]. split.
      + specialize (Hcon eq_refl). unfold len in *. rewrite firstn_length. lia.
      + intros x Hx. rewrite <- (firstn_skipn (N.to_nat (prod (v_ext v))) (v_data v)).
        apply in_or_app. now left.
    - exists (elements v). split; [|split].
      + exists (indices (v_ext v)). split; [apply indices_row_major|now apply elements_at].
      + rewrite <- indices_length. unfold len. f_equal. symmetry.
        exact (Forall2_length _ _ _ _ _ (elements_at v Hmem)).
      + apply elements_in. }
  assert (Hns : Forall2 (takes E (vt_elem vt)) l (repeat (N.of_nat sz) (length l))).
  { rewrite Ht in *. rewrite Forall_forall in Hel. clear Hlen Hst.
    induction l as [|x l IH]; cbn [length repeat]; constructor.
    - destruct (Hel x (Hin x (or_introl eq_refl))) as (Hx & _). inversion Hx; subst. now constructor.
    - apply IH. intros y Hy. apply Hin. now right. }
  assert (Htot : total (repeat (N.of_nat sz) (length l)) = prod (v_ext v) * N.of_nat sz).
  { rewrite <- Hlen. unfold len. clear. induction (length l); [reflexivity|].
    cbn [repeat total fold_right]. unfold total in IHn. rewrite IHn. lia. }
  rewrite <- Htot in *. eapply C49_view_partial; eauto. now rewrite Ht.
Qed.
Print Assumptions C49_numbers.

Example C49_case : forall b,
  footprint_object (ex b) (vt_name (ex_vt INT 2 LStride false))
    (root_view (ex b) ex_span 3 MFootprinting (ex_vt INT 2 LStride false) ex_strided) 0
  = Ok (ex_strided, header (ex b) (ex_vt INT 2 LStride false) ex_strided + 24).
Proof. destruct b; vm_compute; reflexivity. Qed.

(** Views of dynamic rank, allocated or not. *)
Theorem C49_dyn_rank : forall E span f vt v l ns off, wf_env any E -> span [] [] = 1 -> (2 < f)%nat ->
  dyn_ok E span vt f v -> is_virtual E (vt_elem vt) = false ->
  stored span vt v l -> Forall2 (takes E (vt_elem vt)) l ns ->
  off + N.max (dyn_header E vt v + total ns) (sizeof E (vt_name vt)) < two64 ->
  footprint_object E (vt_name vt) (root_dyn_view E span f MFootprinting vt v) off
  = Ok (v, off + N.max (dyn_header E vt v + total ns) (sizeof E (vt_name vt))).
Proof.
  intros E span f vt v l ns off wf Hs Hf Hok Hv Hst Hns Hlt. unfold footprint_object, root_dyn_view.
  rewrite (f_root E _ _ _ _ _ (f_dyn_view E wf span Hs f Hf vt v l ns Hok Hv Hst Hns) 0 eq_refl).
  rewrite N.add_0_l. unfold wrap64. rewrite (N.mod_small (dyn_header E vt v + total ns)) by lia.
  now rewrite N.mod_small.
Qed.
Print Assumptions C49_dyn_rank.

(** Views of dynamic size: the elements in use; chunks that are allocated beyond them and
    the table of chunks are not counted. *)
Theorem C49_dynamic : forall E f name t v ns off, wf_env any E -> (2 < f)%nat ->
  dview_ok E t f v -> Forall2 (takes E t) (d_elems v) ns ->
  off + N.max (dynamic_header E v + total ns) (sizeof E name) < two64 ->
  footprint_object E name (root_dynamic_view E f MFootprinting name t v) off
  = Ok (v, off + N.max (dynamic_header E v + total ns) (sizeof E name)).
Proof.
  intros E f name t v ns off wf Hf Hok Hns Hlt. unfold footprint_object, root_dynamic_view.
  rewrite (f_root E _ _ _ _ _ (f_dynamic_view E wf f Hf t v ns Hok Hns) 0 eq_refl).
  rewrite N.add_0_l. unfold wrap64. rewrite (N.mod_small (dynamic_header E v + total ns)) by lia.
  now rewrite N.mod_small.
Qed.
Print Assumptions C49_dynamic.

Example C49_dynamic_case : forall b,
  footprint_object (ex b) (vt_name (ex_vt INT 0 LStride false))
    (root_dyn_view (ex b) ex_span 3 MFootprinting (ex_vt INT 0 LStride false) ex_strided) 0
  = Ok (ex_strided, dyn_header (ex b) (ex_vt INT 0 LStride false) ex_strided + 24) /\
  footprint_object (ex b) (TPrim 93 48)
    (root_dynamic_view (ex b) 3 MFootprinting (TPrim 93 48) INT ex_dynamic) 0
  = Ok (ex_dynamic, dynamic_header (ex b) ex_dynamic + 20).
Proof. destruct b; split; vm_compute; reflexivity. Qed.

(** Full statement: at least the sum of what the elements take, also for constant elements
    and for maps.  A view of constant strings is counted as if they were empty. *)
Theorem C49_const_refuted : exists E span f vt v l ns n, wf_env any E /\ wf_span span /\ (2 < f)%nat /\
  view_ok E span vt f v /\ vt_const vt = true /\ vt_managed vt = true /\
  stored span vt v l /\ Forall2 (takes E (vt_elem vt)) l ns /\
  footprint_object E (vt_name vt) (root_view E span f MFootprinting vt v) 0 = Ok (v, n) /\ n < total ns.
Proof.
  pose (long := repeat x61 400).
  exists (ex true), ex_span, 3%nat, (ex_vt TString 1 LRight true),
    {| v_label := []; v_ext := [1]; v_str := [1]; v_data := [VStr 400 long]; v_live := true |}.
  exists [VStr 400 long], [szof (ex true) TString + 400]. eexists.
  split; [now apply ex_wf|]. split; [apply ex_span_wf|]. split; [lia|]. split.
  { vok. intros _. split; [|split].
    - intros idx H. destruct (bounds1 _ _ H) as (i & -> & Hi).
      cbn [offset v_str v_data]. match goal with |- _ < ?x => let y := eval vm_compute in x in change x with y end. lia.
    - intros _. vm_compute. discriminate.
    - constructor; [|constructor]. split; [|cbn; lia]. apply HtString; vm_compute; reflexivity || discriminate. }
  split; [reflexivity|]. split; [reflexivity|]. split; [reflexivity|]. split.
  { constructor; [|constructor]. constructor. vm_compute. discriminate. }
  split; [vm_compute; reflexivity|]. vm_compute. reflexivity.
Qed.
Print Assumptions C49_const_refuted.

(** Views of constant elements: as if every element were a new one, also for a view that has
    no memory. *)
Theorem C49_const_law : forall E span f vt v d nd off, wf_env any E -> wf_span span -> (2 < f)%nat ->
  view_ok E span vt f v -> vt_const vt = true -> vt_managed vt = true ->
  is_virtual E (vt_elem vt) = false -> dflt E (vt_elem vt) = Some d -> has_ty E (vt_elem vt) d ->
  (depth d < f)%nat -> takes E (vt_elem vt) d nd ->
  off + N.max (header E vt v + prod (v_ext v) * nd) (sizeof E (vt_name vt)) < two64 ->
  footprint_object E (vt_name vt) (root_view E span f MFootprinting vt v) off
  = Ok (v, off + N.max (header E vt v + prod (v_ext v) * nd) (sizeof E (vt_name vt))).
Proof.
  intros E span f vt v d nd off wf Hs Hf Hok Hc Hm Hv Hd Hdt Hdd Hnd Hlt.
  pose proof (shell_ok E span Hs f Hf vt d Hdt Hdd v Hok) as Hsh.
  assert (exists l, stored span vt (shell vt span d v) l /\ l = repeat d (N.to_nat (prod (v_ext v))))
    as (l & Hst & ->).
  { assert (R : forall l n, (forall x : val, In x l -> x = d) -> length l = n -> l = repeat d n).
    { clear. induction l as [|x l IH]; intros n H <-; [reflexivity|]. cbn [length repeat].
      rewrite (H x (or_introl eq_refl)). f_equal. apply IH; auto. intros y Hy. apply H. now right. }
    destruct (vo_live _ _ _ _ _ Hsh eq_refl) as (Hmem & Hcon & _).
    unfold stored. cbn [v_live shell]. fold (shell vt span d v).
    destruct (contiguous span (vt_kind vt) (shell vt span d v)).
    - eexists. split; [reflexivity|]. apply R.
      + intros x Hx. eapply repeat_spec. rewrite <- (firstn_skipn (N.to_nat (prod (v_ext v)))).
        apply in_or_app. left. exact Hx.
      + specialize (Hcon eq_refl). rewrite firstn_length. change (v_ext (shell vt span d v)) with (v_ext v) in *. unfold len in Hcon. lia.
    - exists (elements (shell vt span d v)). split.
      + exists (indices (v_ext v)). split; [apply indices_row_major|now apply (elements_at (shell vt span d v))].
      + apply R.
        * intros x Hx. apply elements_in in Hx. exact (repeat_spec _ _ _ Hx).
        * rewrite <- (Forall2_length _ _ _ _ _ (elements_at _ Hmem)). cbn [v_ext shell].
          pose proof (indices_length (v_ext v)) as Hi. unfold len in Hi. lia. }
  assert (Hns : Forall2 (takes E (vt_elem vt)) (repeat d (N.to_nat (prod (v_ext v)))) (repeat nd (N.to_nat (prod (v_ext v))))).
  { clear - Hnd. induction (N.to_nat (prod (v_ext v))); cbn [repeat]; constructor; auto. }
  assert (Htot : total (repeat nd (N.to_nat (prod (v_ext v)))) = prod (v_ext v) * nd).
  { rewrite <- (Nnat.N2Nat.id (prod (v_ext v))) at 2. generalize (N.to_nat (prod (v_ext v))). clear. intros n.
    induction n; [reflexivity|]. cbn [repeat total fold_right]. unfold total in IHn. rewrite IHn. lia. }
  pose proof (f_view E wf span f Hf vt _ _ _ Hsh (or_introl Hm) Hv Hst Hns) as T. rewrite Htot in T.
  unfold footprint_object, root_view. rewrite Hc.
  assert (T' : tallies (ser_const_view E span MFootprinting (with_ E MFootprinting f) vt v) false v false
                 (header E vt v + prod (v_ext v) * nd)).
  { unfold ser_const_view, new_view. rewrite Hd. cbn [of_opt bind is_packing is_unpacking].
    eapply tallies_eq; [eapply tallies_bind; [exact T|apply tallies_ret]|]. now rewrite N.add_0_r. }
  rewrite (f_root E _ _ _ _ _ T' 0 eq_refl).
  rewrite N.add_0_l. unfold wrap64. rewrite (N.mod_small (header E vt v + _)) by lia.
  now rewrite N.mod_small.
Qed.
Print Assumptions C49_const_law.
(** A view of 2 x 3 constant strings that was never allocated. *)
Definition ex_unborn : view := {|
  v_label := [x61]; v_ext := [2; 3]; v_str := [3; 1]; v_data := []; v_live := false
|}.
Example C49_const_case : forall b,
  let vt := ex_vt TString 2 LStride true in
  dflt (ex b) TString = Some (VStr 15 []) /\ takes (ex b) TString (VStr 15 []) 47 /\
  view_ok (ex b) ex_span vt 3 ex_unborn /\
  footprint_object (ex b) (vt_name vt) (root_view (ex b) ex_span 3 MFootprinting vt ex_unborn) 0
  = Ok (ex_unborn, header (ex b) vt ex_unborn + 6 * 47).
Proof.
  intros b vt. split; [reflexivity|]. split; [apply (TkString (ex b) 15 []); vm_compute; discriminate|].
  split; [vok; discriminate|]. destruct b; vm_compute; reflexivity.
Qed.

(** A map: itself, a key per slot and a value per entry. *)
Theorem C49_map_law : forall E name kt vt mp off,
  off + sizeof E name + len mp * sizeof E kt + len (occupied mp) * sizeof E vt < two64 ->
  footprint_object E name (root_foot_kmap E name kt vt mp) off
  = Ok (mp, off + sizeof E name + len mp * sizeof E kt + len (occupied mp) * sizeof E vt).
Proof.
  intros E name kt vt mp off H. unfold footprint_object, root_foot_kmap.
  assert (T : tallies (foot_kmap E name kt vt mp) false mp false
            (sizeof E name + (wrap64 (len mp * sizeof E kt + len (occupied mp) * sizeof E vt) + 0))).
  { unfold foot_kmap. apply tallies_count, tallies_count, tallies_ret. }
  rewrite (f_root E _ name _ _ _ T 0 eq_refl). do 2 f_equal. clear T.
  rewrite N.add_0_l, N.add_0_r. unfold wrap64. rewrite (N.mod_small (len mp * _ + _)) by lia.
  rewrite N.max_l by (rewrite N.mod_small; lia). rewrite (N.mod_small (sizeof E name + _)) by lia.
  rewrite N.mod_small; lia.
Qed.
Print Assumptions C49_map_law.

(** What the entries own is not counted, nor are the values of free slots. *)
Theorem C49_map_refuted : exists E name kt vt mp nk nv n, wf_env any E /\
  mp = [{| s_key := str_ [x61]; s_val := VStr 400 (repeat x61 400); s_occ := true |}] /\
  takes E kt (str_ [x61]) nk /\ takes E vt (VStr 400 (repeat x61 400)) nv /\
  footprint_object E name (root_foot_kmap E name kt vt mp) 0 = Ok (mp, n) /\ n < nk + nv.
Proof.
  exists (ex true), (TPrim 94 100), TString, TString. eexists.
  exists (szof (ex true) TString + 15), (szof (ex true) TString + 400). eexists.
  split; [now apply ex_wf|]. split; [reflexivity|].
  split; [constructor; vm_compute; discriminate|]. split; [constructor; vm_compute; discriminate|].
  split; [vm_compute; reflexivity|]. vm_compute. reflexivity.
Qed.
Print Assumptions C49_map_refuted.
