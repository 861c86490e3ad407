(** C39 - C42, C44 and C45: Kokkos views and maps. *)
From Coq Require Import List NArith Arith Bool Lia Permutation Sorted.
From Coq.Strings Require Import Byte.
From Verif Require Import Base Syntax Prog Serializers Traverse Spec ProgFacts EnvFacts ValFacts
  Fails RegistryFacts Pack Unpack Api ApiFacts Examples Views ViewSpec ViewFacts ViewRound ViewEq
  KMap DynViews.
Import ListNotations.
Local Open Scope N_scope.

(** ** Concrete views *)

(** Elements from data() to the last one, as Kokkos computes it from the strides. *)
Definition ex_span (ext str : list N) : N :=
  if prod ext =? 0 then 0 else 1 + offset str (map N.pred ext).

Lemma ex_span_wf : wf_span ex_span.
Proof.
  intros ext str idx Hl Hin. unfold ex_span. destruct (N.eqb_spec (prod ext) 0) as [H0|_].
  - exfalso. now apply (prod_zero ext idx).
  - assert (G : offset str idx <= offset str (map N.pred ext)); [|lia].
    revert str Hl. induction Hin as [|i e idx' ext' Hlt Hr IH]; intros [|s str'] Hl; cbn [length map offset] in *; try lia.
    specialize (IH str' ltac:(lia)). assert (s * i <= s * N.pred e) by (apply N.mul_le_mono_l; lia).
    lia.
Qed.

(** View<INT ** , LayoutStride> and the like; the names only matter as indices. *)
Definition ex_vt (t : ty) (rank : nat) (k : lkind) (const : bool) : vty := {|
  vt_elem := t; vt_rank := rank; vt_kind := k; vt_managed := true;
  vt_layout_name := TPrim 91 128; vt_name := TPrim 90 24; vt_const := const
|}.
Definition i_ (n : N) : val := VB (le 4 n).
Definition str_ (b : bytes) : val := VStr 15 b.

(** A 2 x 3 view with gaps, a view of strings, and a view without memory. *)
Definition ex_strided : view := {|
  v_label := [x61]; v_ext := [2; 3]; v_str := [1; 4];
  v_data := map i_ [10; 11; 12; 13; 14; 15; 16; 17; 18; 19]; v_live := true
|}.
Definition ex_strings (l : list bytes) : view := {|
  v_label := [x62]; v_ext := [len l]; v_str := [1]; v_data := map str_ l; v_live := true
|}.

Ltac vok := constructor;
  [reflexivity|reflexivity|cbn; lia|reflexivity|vm_compute; reflexivity
  |repeat constructor|intros; repeat constructor|].

Lemma bounds1 : forall idx n, in_bounds idx [n] -> exists i, idx = [i] /\ i < n.
Proof. intros idx n H. inversion H as [|i ? ? ? Hi Hr]; subst. inversion Hr; subst. eauto. Qed.
Lemma bounds2 : forall idx m n, in_bounds idx [m; n] -> exists i j, idx = [i; j] /\ i < m /\ j < n.
Proof.
  intros idx m n H. inversion H as [|i ? ? ? Hi Hr]; subst.
  destruct (bounds1 _ _ Hr) as (j & -> & Hj). eauto 6.
Qed.

Lemma ex_strided_ok : forall b, view_ok (ex b) ex_span (ex_vt INT 2 LStride false) 3 ex_strided.
Proof.
  intros b. vok. intros _. split; [|split].
  - intros idx H. destruct (bounds2 _ _ _ H) as (i & j & -> & Hi & Hj).
    cbn [offset ex_strided v_str]. match goal with |- _ < ?x => let y := eval vm_compute in x in change x with y end. lia.
  - vm_compute. discriminate.
  - cbn [ex_strided v_data map]. repeat (constructor; [split; [ht|cbn; lia]|]). constructor.
Qed.

(** ** C39 *)

(** Full statement: the conclusion also for views of constant elements, see
    [C39_const_partial] and [C39_const_refuted].  The hypotheses on [vt_managed] and
    [is_virtual] are static assertions or assertions of the code; [dflt] is what the
    allocation of a view requires of its elements. *)
Theorem C39_partial : forall E span vt f d v, wf_env any E -> wf_span span -> (2 < f)%nat ->
  view_ok E span vt f v -> vt_const vt = false -> vt_managed vt = true ->
  is_virtual E (vt_elem vt) = false -> dflt E (vt_elem vt) = Some d ->
  exists b, (stream_view E span f vt v = Ok (b, v) /\
     (len b < two64 -> serialize_view E span f vt v = Ok (b, v))) /\
    forall w, exists x, view_copy (vt_kind vt) v x /\ forall before after,
      deserialize_view E span f vt (before ++ b ++ after) (length before) w = Ok (x, len b).
Proof. exact view_round_trip. Qed.
Print Assumptions C39_partial.

Example C39_case : forall b, exists out x n,
  serialize_view (ex b) ex_span 3 (ex_vt INT 2 LStride false) ex_strided = Ok (out, ex_strided) /\
  deserialize_view (ex b) ex_span 3 (ex_vt INT 2 LStride false) out 0 no_view = Ok (x, n) /\
  v_ext x = [2; 3] /\ v_str x = [1; 4] /\ at_ x [1; 2] = Some (i_ 19).
Proof.
  destruct b; do 3 eexists; (split; [vm_compute; reflexivity|]); (split; [vm_compute; reflexivity|]);
  vm_compute; auto.
Qed.
Example C39_case_ok : forall b, wf_env any (ex b) /\ wf_span ex_span /\
  view_ok (ex b) ex_span (ex_vt INT 2 LStride false) 3 ex_strided /\
  is_virtual (ex b) INT = false /\ dflt (ex b) INT = Some (i_ 0).
Proof. intros b. split; [now apply ex_wf|]. auto using ex_span_wf, ex_strided_ok. Qed.

(** Views of constant elements are copied to a temporary before packing but not before
    sizing, which sees default elements. *)
Theorem C39_const_partial : forall E span vt f d v, wf_env any E -> wf_span span -> (2 < f)%nat ->
  view_ok E span vt f v -> readable v -> vt_const vt = true -> vt_managed vt = true ->
  is_virtual E (vt_elem vt) = false -> dflt E (vt_elem vt) = Some d ->
  has_ty E (vt_elem vt) d -> (depth d < f)%nat -> fixed_size E (vt_elem vt) ->
  exists b, (stream_view E span f vt v = Ok (b, v) /\
     (len b < two64 -> serialize_view E span f vt v = Ok (b, v))) /\
    forall w, exists x, view_copy (vt_kind vt) v x /\ forall before after,
      deserialize_view E span f vt (before ++ b ++ after) (length before) w = Ok (x, len b).
Proof.
  intros E span vt f d v wf Hsp Hf Hok Hr Hc Hm Hv Hd Ht Hdd Hfix.
  destruct (const_round_trip E wf span Hsp f Hf vt Hm Hv d Hd Ht Hdd v Hok Hr Hc)
    as (b & n & Hs & _ & H1 & _ & _ & H2).
  exists b. split; [split; [exact Hs|]|auto]. intros Hl. now apply H1.
Qed.
Print Assumptions C39_const_partial.

(** All other views of constant elements: streams are not affected; in memory it depends on the
    size [n] of the same view with default elements. *)
Theorem C39_const_law : forall E span vt f d v, wf_env any E -> wf_span span -> (2 < f)%nat ->
  view_ok E span vt f v -> readable v -> vt_const vt = true -> vt_managed vt = true ->
  is_virtual E (vt_elem vt) = false -> dflt E (vt_elem vt) = Some d ->
  has_ty E (vt_elem vt) d -> (depth d < f)%nat ->
  exists b n, stream_view E span f vt v = Ok (b, v) /\
    interp sizer (root_view E span f MSizing vt v) false 0 = Ok (v, false, n) /\
    (len b < two64 -> serialize_view E span f vt v =
       if n <? len b then Err UB
       else if n =? len b then Ok (b, v) else Err (SerErr 0 [Sized (tix E (vt_name vt)) n (len b)])) /\
    forall w, exists x, view_copy (vt_kind vt) v x /\ forall before after,
      deserialize_view E span f vt (before ++ b ++ after) (length before) w = Ok (x, len b).
Proof.
  intros E span vt f d v wf Hsp Hf Hok Hr Hc Hm Hv Hd Ht Hdd.
  destruct (const_round_trip E wf span Hsp f Hf vt Hm Hv d Hd Ht Hdd v Hok Hr Hc)
    as (b & n & Hs & Hn & _ & H1 & H2 & H3).
  exists b, n. split; [exact Hs|]. split; [exact Hn|]. split; [|exact H3]. intros Hl.
  destruct (N.ltb_spec n (len b)); [now apply H1|]. rewrite (N.eqb_sym n). now apply H2.
Qed.
Print Assumptions C39_const_law.

Lemma prim_fixed : forall E id sz, fixed_size E (TPrim id sz).
Proof.
  intros E id sz x y Hx Hy. inversion Hx; subst. inversion Hy; subst. cbn [encb].
  unfold len. congruence.
Qed.

Example C39_const_case : forall b, exists out x n,
  serialize_view (ex b) ex_span 3 (ex_vt INT 2 LStride true) ex_strided = Ok (out, ex_strided) /\
  deserialize_view (ex b) ex_span 3 (ex_vt INT 2 LStride true) out 0 no_view = Ok (x, n) /\
  v_ext x = [2; 3] /\ v_str x = [1; 4] /\ at_ x [1; 2] = Some (i_ 19).
Proof.
  destruct b; do 3 eexists; (split; [vm_compute; reflexivity|]); (split; [vm_compute; reflexivity|]);
  vm_compute; auto.
Qed.
Example C39_const_case_ok : forall b, fixed_size (ex b) INT /\ readable ex_strided /\
  has_ty (ex b) INT (i_ 0) /\ (depth (i_ 0) < 3)%nat.
Proof. intros b. split; [apply prim_fixed|]. split; [now left|]. split; [ht|cbn; lia]. Qed.

(** A view of constant strings: the packer writes past the end of its buffer. *)
Theorem C39_const_refuted : exists E span vt f v, wf_env any E /\ wf_span span /\ (2 < f)%nat /\
  view_ok E span vt f v /\ readable v /\ vt_managed vt = true /\
  is_virtual E (vt_elem vt) = false /\ serialize_view E span f vt v = Err UB.
Proof.
  exists (ex true), ex_span, (ex_vt TString 1 LRight true), 3%nat, (ex_strings [[x61; x62]; [x63]]).
  split; [now apply ex_wf|]. split; [apply ex_span_wf|]. split; [lia|]. split.
  { vok. intros _. split; [|split].
    - intros idx H. destruct (bounds1 _ _ H) as (i & -> & Hi).
      change (len [[x61; x62]; [x63]]) with 2 in Hi.
      cbn [offset ex_strings v_str]. match goal with |- _ < ?x => let y := eval vm_compute in x in change x with y end. lia.
    - intros _. vm_compute. discriminate.
    - cbn [ex_strings v_data map str_]. repeat (constructor; [split; [ht|cbn; lia]|]). constructor. }
  split; [now left|]. split; [reflexivity|]. split; [reflexivity|].
  vm_compute. reflexivity.
Qed.
Print Assumptions C39_const_refuted.

(** Default elements that are larger: the sizes are compared after packing. *)
Example C39_const_law_case : forall b, exists i n k,
  serialize_view (ex b) ex_span 4 (ex_vt (TVariant [TString; CHAR]) 1 LRight true)
    {| v_label := [x61]; v_ext := [2]; v_str := [1]; v_data := [VVar 1 (VB [x41]); VVar 1 (VB [x42])];
       v_live := true |} = Err (SerErr 0 [Sized i n k]) /\ k < n.
Proof. destruct b; do 3 eexists; (split; [vm_compute; reflexivity|]); reflexivity. Qed.

(** ** C40 *)

(** [L] enumerates the index tuples in row-major order.  The packer writes the elements
    in this order, and unpacking with any other strides assigns the same elements to the
    same index tuples.  With rank 0 the existing element is deserialized in place. *)
Theorem C40_traversal : forall E f t d v w L, wf_env any E ->
  row_major (v_ext v) L -> (length (v_ext v) <= 8)%nat ->
  has_memory v -> Forall (fun x => has_ty E t x /\ (depth x < f)%nat) (v_data v) ->
  dflt E t = Some d -> v_ext w = v_ext v -> has_memory w -> disjoint_elems w ->
  (v_ext v = [] -> forall x y, at_ v [] = Some x -> at_ w [] = Some y -> target Cany E t x y) ->
  exists xs, Forall2 (fun idx x => at_ v idx = Some x) L xs /\
    (forall before old after u, length old = length (concat (map (enc E t) xs)) ->
      interp packer (traverse_manual E MPacking (with_ E MPacking f) (length (v_ext v)) t v) false
        {| p_buf := before ++ old ++ after; p_cur := length before; p_used := wrap64 u |}
      = Ok (v, false, {| p_buf := before ++ concat (map (enc E t) xs) ++ after;
                         p_cur := length before + length (concat (map (enc E t) xs));
                         p_used := wrap64 (u + len (concat (map (enc E t) xs))) |})) /\
    exists w', v_label w' = v_label w /\ v_ext w' = v_ext w /\ v_str w' = v_str w /\
      Forall2 (fun idx x => exists y, at_ w' idx = Some y /\ copy_of x y) L xs /\
      forall before after u,
      interp unpacker (traverse_manual E MUnpacking (with_ E MUnpacking f) (length (v_ext v)) t w) false
        {| u_buf := before ++ concat (map (enc E t) xs) ++ after;
           u_cur := length before; u_used := wrap64 u |}
      = Ok (w', false, {| u_buf := before ++ concat (map (enc E t) xs) ++ after;
                          u_cur := length before + length (concat (map (enc E t) xs));
                          u_used := wrap64 (u + len (concat (map (enc E t) xs))) |}).
Proof.
  intros E f t d v w L wf HL Hr Hm Hok Hd He Hmw Hdis H0.
  rewrite (row_major_unique _ _ HL).
  pose proof (elements_at v Hm) as Hat. exists (elements v). split; [exact Hat|].
  assert (Hoke : Forall (fun x => has_ty E t x /\ (depth x < f)%nat) (elements v)).
  { rewrite Forall_forall in *. intros x Hx. apply Hok. now apply elements_in. }
  split.
  - intros before old after u Hold.
    apply (emits_packer _ _ _ _ _ _
      (e_traverse any E wf MPacking (or_introl eq_refl) f t v (elements v) Hr Hat Hoke)); auto.
  - assert (Hdis' : forall p q, In p (combine (indices (v_ext w)) (elements v)) ->
      In q (combine (indices (v_ext w)) (elements v)) ->
      offset (v_str w) (fst p) = offset (v_str w) (fst q) -> snd p = snd q).
    { intros [i x] [j y] Hp Hq Ho. cbn [fst snd] in *. rewrite He in Hp, Hq.
      assert (Hij : i = j).
      { apply Hdis; auto; rewrite He; apply in_indices; eapply in_combine_l; eauto. }
      subst j. pose proof (combine_at v _ Hm Hp) as A1. pose proof (combine_at v _ Hm Hq) as A2.
      cbn [fst snd] in *. congruence. }
    destruct (r_traverse E wf f t d w (elements v)) as (w' & Hsh & Hat' & Hrd); auto.
    + now rewrite He.
    + rewrite He. intros Hz x y Hx Hy. destruct (v_ext v) eqn:Hv; [|discriminate].
      apply H0; auto. cbn [indices] in Hat. inversion Hat as [|? x' ? l' Hx1 Hx2 E1 E2]; subst.
      inversion Hx2; subst. rewrite <- E2 in Hx. destruct Hx as [->|[]]. exact Hx1.
    + rewrite He. symmetry. exact (Forall2_length _ _ _ _ _ Hat).
    + exists w'. destruct Hsh as (S1 & S2 & S3 & _). rewrite He in Hat', Hrd.
      do 3 (split; [congruence|]). split; [exact Hat'|].
      intros before after u. exact (reads_unpacker _ _ _ _ _ _ Hrd before after u).
Qed.
Print Assumptions C40_traversal.

(** Two views of extents 2 x 3: one with gaps, one dense. *)
Definition ex_dense : view := {|
  v_label := []; v_ext := [2; 3]; v_str := [3; 1]; v_data := repeat (i_ 0) 6; v_live := true
|}.
Example C40_case : forall b,
  let L := [[0; 0]; [0; 1]; [0; 2]; [1; 0]; [1; 1]; [1; 2]] in
  row_major (v_ext ex_strided) L /\ has_memory ex_strided /\
  Forall (fun x => has_ty (ex b) INT x /\ (depth x < 3)%nat) (v_data ex_strided) /\
  v_ext ex_dense = v_ext ex_strided /\ has_memory ex_dense /\ disjoint_elems ex_dense /\
  exists s, interp unpacker (traverse_manual (ex b) MUnpacking (with_ (ex b) MUnpacking 3) 2 INT ex_dense)
    false {| u_buf := concat (map (fun n => enc (ex b) INT (i_ n)) [10; 14; 18; 11; 15; 19]);
             u_cur := 0; u_used := 0 |}
    = Ok (with_data ex_dense (map i_ [10; 14; 18; 11; 15; 19]), false, s).
Proof.
  intros b L. split; [|split; [|split; [|split; [reflexivity|split; [|split]]]]].
  - change L with (indices [2; 3]). apply indices_row_major.
  - intros idx H. destruct (bounds2 _ _ _ H) as (i & j & -> & Hi & Hj). cbn [offset ex_strided v_str].
    match goal with |- _ < ?x => let y := eval vm_compute in x in change x with y end. lia.
  - cbn [ex_strided v_data map]. repeat (constructor; [split; [ht|cbn; lia]|]). constructor.
  - intros idx H. destruct (bounds2 _ _ _ H) as (i & j & -> & Hi & Hj). cbn [offset ex_dense v_str].
    match goal with |- _ < ?x => let y := eval vm_compute in x in change x with y end. lia.
  - intros idx idx' H H'. destruct (bounds2 _ _ _ H) as (i & j & -> & Hi & Hj).
    destruct (bounds2 _ _ _ H') as (i' & j' & -> & Hi' & Hj'). cbn [offset ex_dense v_str].
    intros Ho. assert (i = i' /\ j = j') as (-> & ->) by lia. reflexivity.
  - destruct b; eexists; vm_compute; reflexivity.
Qed.

(** ** C41 *)

(** What the comparison decides, for every rank: with no dimension it reports a
    difference when the elements are equal; with one, it is right; with two, it reports
    equality when every row has a difference; and so on. *)
Theorem C41_law : forall E eq v1 v2 dims, has_memory v1 -> has_memory v2 ->
  v_ext v2 = v_ext v1 -> Forall (fun e => e < two64) (v_ext v1) -> (length (v_ext v1) <= 8)%nat ->
  length dims = length (v_ext v1) ->
  exists b, compare_data E eq dims v1 v2 = Ok b /\ (b = true <-> ~ report eq v1 v2 (v_ext v1) []).
Proof. intros. now apply compare_data_law. Qed.
Print Assumptions C41_law.

Lemma eqb_list_refl : forall l, eqb_list l l = true.
Proof. induction l; cbn [eqb_list]; auto. now rewrite N.eqb_refl. Qed.
Lemma eqb_bytes_refl : forall l, eqb_bytes l l = true.
Proof. induction l; cbn [eqb_bytes]; auto. rewrite IHl. unfold Byte.eqb. now destruct a. Qed.

(** Full statement: the conclusion for every rank.  It is false for the others, see
    [C41_refuted]. *)
Theorem C41_rank1_partial : forall E span eq k v1 v2 b n, has_memory v1 -> has_memory v2 ->
  v_ext v1 = [n] -> v_ext v2 = [n] -> n < two64 -> v_label v1 = v_label v2 -> v_str v1 = v_str v2 ->
  exists r, compare E span eq k [b] v1 v2 = Ok r /\
    (r = true <-> forall i, i < n ->
       exists x y, at_ v1 [i] = Some x /\ at_ v2 [i] = Some y /\ eq x y = true).
Proof.
  intros E span eq k v1 v2 b n Hm1 Hm2 H1 H2 Hn Hl Hs.
  destruct (compare_rank1 E eq v1 v2 b n Hm1 Hm2 H1 H2 Hn) as (r & Hr & Hiff).
  exists r. split; [|exact Hiff]. unfold compare, compare_extents, compare_meta.
  replace (compare_static [b] v1) with true by (destruct b; unfold compare_static; cbn; now rewrite ?N.eqb_refl).
  replace (compare_static [b] v2) with true by (destruct b; unfold compare_static; cbn; now rewrite ?N.eqb_refl).
  cbn [negb]. rewrite H1, H2, eqb_list_refl, Hl, eqb_bytes_refl, N.eqb_refl.
  replace (contiguous span k v1) with (contiguous span k v2)
    by (unfold contiguous, view_span; now rewrite H1, H2, Hs).
  replace (view_span span k v1) with (view_span span k v2)
    by (unfold view_span; now rewrite H1, H2, Hs).
  rewrite Bool.eqb_reflx, N.eqb_refl. exact Hr.
Qed.
Print Assumptions C41_rank1_partial.

Lemma eqb_list_true : forall l l', eqb_list l l' = true -> l = l'.
Proof.
  induction l as [|x l IH]; intros [|y l'] H; cbn [eqb_list] in H; try discriminate; auto.
  apply andb_prop in H. destruct H as (H1 & H2). apply N.eqb_eq in H1. subst. f_equal. auto.
Qed.
Lemma eqb_bytes_true : forall l l', eqb_bytes l l' = true -> l = l'.
Proof.
  induction l as [|x l IH]; intros [|y l'] H; cbn [eqb_bytes] in H; try discriminate; auto.
  apply andb_prop in H. destruct H as (H1 & H2). f_equal; auto.
  apply Byte.byte_dec_bl in H1. exact H1.
Qed.

(** Views that are reported equal have the same label and extents, whatever their rank, and
    occupy the same amount of memory or are both without gaps. *)
Theorem C41_meta : forall E span eq k dims v1 v2, compare E span eq k dims v1 v2 = Ok true ->
  v_label v1 = v_label v2 /\ v_ext v1 = v_ext v2 /\
  match k with
  | LStride => span (v_ext v1) (v_str v1) = span (v_ext v2) (v_str v2)
  | _ => v_str v1 = natural k (v_ext v1) <-> v_str v2 = natural k (v_ext v2)
  end.
Proof.
  intros E span eq k dims v1 v2 H. unfold compare in H.
  destruct (compare_static dims v1); cbn [negb] in H; [|discriminate].
  destruct (compare_static dims v2); cbn [negb] in H; [|discriminate].
  destruct (compare_extents v1 v2) eqn:He; cbn [negb] in H; [|discriminate].
  destruct (compare_meta span k v1 v2) eqn:Hm; cbn [negb] in H; [|discriminate].
  apply eqb_list_true in He. unfold compare_meta in Hm.
  apply andb_prop in Hm. destruct Hm as (Hm & Hs). apply andb_prop in Hm. destruct Hm as (Hm & Hc).
  apply andb_prop in Hm. destruct Hm as (Hl & _). apply eqb_bytes_true in Hl.
  apply N.eqb_eq in Hs. apply Bool.eqb_prop in Hc.
  split; [exact Hl|]. split; [exact He|].
  assert (Hn : eqb_list (v_str v1) (natural k (v_ext v1)) = eqb_list (v_str v2) (natural k (v_ext v2)) ->
    (v_str v1 = natural k (v_ext v1) <-> v_str v2 = natural k (v_ext v2))).
  { intros Hq. split; intros Hx; apply eqb_list_true.
    - rewrite <- Hq, Hx. apply eqb_list_refl.
    - rewrite Hq, Hx. apply eqb_list_refl. }
  destruct k; cbn [contiguous view_span] in Hc, Hs; auto.
Qed.
Print Assumptions C41_meta.

(** Equality of integers. *)
Definition i_eq (a b : val) : bool :=
  match a, b with VB x, VB y => eqb_bytes x y | _, _ => false end.

(** Lines that differ only in the label, or in the distance of their elements. *)
Example C41_meta_case :
  let v := {| v_label := []; v_ext := [2]; v_str := [1]; v_data := map i_ [1; 2; 3]; v_live := true |} in
  let named := {| v_label := [x61]; v_ext := [2]; v_str := [1]; v_data := map i_ [1; 2; 3]; v_live := true |} in
  let wide := {| v_label := []; v_ext := [2]; v_str := [2]; v_data := map i_ [1; 2; 2]; v_live := true |} in
  compare (ex true) ex_span i_eq LRight [true] v v = Ok true /\
  compare (ex true) ex_span i_eq LRight [true] v named = Ok false /\
  compare (ex true) ex_span i_eq LRight [true] v wide = Ok false /\
  compare (ex true) ex_span i_eq LStride [true] v v = Ok true /\
  compare (ex true) ex_span i_eq LStride [true] v wide = Ok false.
Proof. vm_compute. auto 10. Qed.

Definition ex_line (l : list N) : view := {|
  v_label := []; v_ext := [len l]; v_str := [1]; v_data := map i_ l; v_live := true
|}.
Example C41_case : has_memory (ex_line [1; 2; 3]) /\
  compare (ex true) ex_span i_eq LRight [true] (ex_line [1; 2; 3]) (ex_line [1; 2; 3]) = Ok true /\
  compare (ex true) ex_span i_eq LRight [true] (ex_line [1; 2; 3]) (ex_line [1; 7; 3]) = Ok false.
Proof.
  split; [|vm_compute; auto]. intros idx H. destruct (bounds1 _ _ H) as (i & -> & Hi).
  change (len [1; 2; 3]) with 3 in Hi. cbn [offset ex_line v_str].
  match goal with |- _ < ?x => let y := eval vm_compute in x in change x with y end. lia.
Qed.

(** Two equal matrices are reported to differ, two that differ are reported equal; a
    view of rank 0 is reported to differ from itself. *)
Definition ex_square (l : list N) : view := {|
  v_label := []; v_ext := [2; 2]; v_str := [2; 1]; v_data := map i_ l; v_live := true
|}.
Definition ex_scalar (n : N) : view := {|
  v_label := []; v_ext := []; v_str := []; v_data := [i_ n]; v_live := true
|}.
Theorem C41_refuted : exists E span eq k,
  (exists v, has_memory v /\ length (v_ext v) = 2%nat /\
    (forall idx x, in_bounds idx (v_ext v) -> at_ v idx = Some x -> eq x x = true) /\
    compare E span eq k [true; true] v v = Ok false) /\
  (exists v w, has_memory v /\ has_memory w /\ v_ext w = v_ext v /\
    (exists idx x y, in_bounds idx (v_ext v) /\ at_ v idx = Some x /\ at_ w idx = Some y /\
      eq x y = false) /\
    compare E span eq k [true; true] v w = Ok true) /\
  (exists v x, has_memory v /\ v_ext v = [] /\ at_ v [] = Some x /\ eq x x = true /\
    compare E span eq k [] v v = Ok false).
Proof.
  assert (M : forall a b c d, has_memory (ex_square [a; b; c; d])).
  { intros a b c d idx H. destruct (bounds2 _ _ _ H) as (i & j & -> & Hi & Hj).
    cbn [offset ex_square v_str v_data map]. change (len _) with 4. lia. }
  exists (ex true), ex_span, i_eq, LRight. split; [|split].
  - exists (ex_square [1; 2; 3; 4]). split; [apply M|]. split; [reflexivity|]. split.
    + intros idx x _ H. unfold at_ in H. apply nth_error_In in H.
      cbn [ex_square v_data map] in H. repeat (destruct H as [<-|H]; [apply eqb_bytes_refl|]). contradiction.
    + vm_compute. reflexivity.
  - exists (ex_square [1; 2; 3; 4]), (ex_square [1; 7; 8; 4]).
    split; [apply M|]. split; [apply M|]. split; [reflexivity|]. split.
    + exists [0; 1], (i_ 2), (i_ 7). split; [repeat constructor|]. vm_compute. auto.
    + vm_compute. reflexivity.
  - exists (ex_scalar 5), (i_ 5). split; [|vm_compute; auto].
    intros idx H. inversion H; subst. vm_compute. reflexivity.
Qed.
Print Assumptions C41_refuted.

(** The comparison of the compile-time extents with those of the view: right for every view
    of the type exactly if there are no runtime dimensions, no compile-time ones, one of them
    after at most two runtime ones, or two after at most one. *)
Definition right_type (p q : nat) : Prop := (p = 0 \/ q = 0 \/ (q = 1 /\ p <= 2) \/ (q = 2 /\ p <= 1))%nat.
Lemma types_of : forall p q, N.to_nat (dynamic (repeat true p ++ repeat false q)) = p /\
  length (repeat true p ++ repeat false q) = (p + q)%nat.
Proof.
  intros p q. split; [|now rewrite app_length, !repeat_length].
  unfold dynamic, len. rewrite Nnat.Nat2N.id, filter_app, app_length.
  assert (H1 : length (filter (fun b : bool => b) (repeat true p)) = p) by (induction p; cbn; auto).
  assert (H2 : filter (fun b : bool => b) (repeat false q) = []) by (induction q; cbn; auto).
  rewrite H1, H2. cbn. lia.
Qed.

(** A view of such a type whose compile-time extents are 2 and whose runtime extents are 3. *)
Definition ex_static (p q : nat) : view :=
  let ext := repeat 3 p ++ repeat 2 q in
  {| v_label := []; v_ext := ext; v_str := natural LRight ext; v_data := repeat (i_ 7) (N.to_nat (prod ext));
     v_live := true |}.
Lemma ex_static_memory : forall p q, has_memory (ex_static p q).
Proof.
  intros p q idx H. cbn [ex_static v_ext v_str v_data natural] in *. unfold len. rewrite repeat_length.
  rewrite Nnat.N2Nat.id. now apply right_bound.
Qed.

Theorem C41_static : forall p q,
  ((forall v, length (v_ext v) = (p + q)%nat -> compare_static (repeat true p ++ repeat false q) v = true)
   <-> right_type p q) /\
  (~ right_type p q -> has_memory (ex_static p q) /\ length (v_ext (ex_static p q)) = (p + q)%nat /\
   forall E span eq k, compare E span eq k (repeat true p ++ repeat false q) (ex_static p q) (ex_static p q) = Ok false).
Proof.
  intros p q. destruct (types_of p q) as (Hp & Hl).
  assert (Hbad : ~ right_type p q -> compare_static (repeat true p ++ repeat false q) (ex_static p q) = false).
  { intros Hn. unfold compare_static. rewrite Hp, Hl. replace (p + q - p)%nat with q by lia.
    assert (H3 : forall i, (i < p)%nat -> extent (ex_static p q) i = 3).
    { intros i Hi. unfold extent. cbn [ex_static v_ext]. rewrite app_nth1 by (now rewrite repeat_length).
      rewrite (nth_indep _ 1 3) by (now rewrite repeat_length). apply nth_repeat. }
    assert (H2 : forall i, (p <= i < p + q)%nat -> extent (ex_static p q) i = 2).
    { intros i Hi. unfold extent. cbn [ex_static v_ext]. rewrite app_nth2 by (rewrite repeat_length; lia).
      rewrite repeat_length, (nth_indep _ 1 2) by (rewrite repeat_length; lia). apply nth_repeat. }
    unfold right_type in Hn.
    destruct q as [|[|[|q]]]; [lia| | |]; destruct p as [|[|p]]; try lia; cbn [static_checks forallb fst snd].
    - destruct p; [lia|]. rewrite (H3 2%nat), (H2 (S (S (S p)))) by lia. reflexivity.
    - rewrite (H3 1%nat), (H2 (S (S p))) by lia. reflexivity.
    - rewrite (H3 0%nat), (H2 1%nat) by lia. reflexivity.
    - rewrite (H3 0%nat), (H2 (S (S p))) by lia. reflexivity. }
  split; [split|].
  - intros H.
    assert (D : right_type p q \/ ~ right_type p q) by (unfold right_type; lia).
    destruct D as [D|D]; auto. exfalso. specialize (H (ex_static p q)). rewrite Hbad in H by auto.
    cbn [ex_static v_ext] in H. rewrite app_length, !repeat_length in H. now specialize (H eq_refl).
  - intros H v Hv. unfold compare_static. rewrite Hp, Hl. replace (p + q - p)%nat with q by lia.
    unfold right_type in H.
    destruct q as [|[|[|q]]]; destruct p as [|[|[|p]]]; try lia; cbn [static_checks forallb fst snd];
      now rewrite ?N.eqb_refl.
  - intros H. split; [apply ex_static_memory|].
    split; [cbn [ex_static v_ext]; now rewrite app_length, !repeat_length|].
    intros E span eq k. unfold compare. now rewrite Hbad.
Qed.
Print Assumptions C41_static.
(** View<int**[2][2]> with runtime extents 3 and 3, reported to differ from itself. *)
Example C41_static_case : ~ right_type 2 2 /\ right_type 1 2 /\
  v_ext (ex_static 2 2) = [3; 3; 2; 2] /\
  compare (ex true) ex_span i_eq LRight [true; true; false; false] (ex_static 2 2) (ex_static 2 2) = Ok false.
Proof. unfold right_type. split; [lia|]. split; [lia|]. vm_compute. auto. Qed.

(** ** C42 *)

(** Full statement: without [no_leftover], and with the same capacity.  It is false,
    see [C42_refuted].  The capacity is the one Kokkos chooses for the requested one. *)
Theorem C42_partial : forall E K f name kt vt mp, wf_env any E -> wf_kokkos K -> (1 < f)%nat ->
  constructible E kt -> constructible E vt -> kmap_ok E K kt vt f mp -> no_leftover K mp ->
  exists b, (stream_kmap E K f name kt vt mp = Ok (b, mp) /\
     (len b < two64 -> serialize_kmap E K f name kt vt mp = Ok (b, mp))) /\
    forall w, occupied w = [] -> exists x, kmap_copy mp x /\ len x = len (k_rehash K w (len mp)) /\
      forall before after,
      deserialize_kmap E K f name kt vt (before ++ b ++ after) (length before) w = Ok (x, len b).
Proof. exact kmap_round_trip. Qed.
Print Assumptions C42_partial.

(** A map from integers that keeps its occupied slots when it grows. *)
Definition empty_slot : slot := {| s_key := i_ 0; s_val := i_ 0; s_occ := false |}.
Definition slot_ (k v : N) : slot := {| s_key := i_ k; s_val := i_ v; s_occ := true |}.
Fixpoint first_free (mp : kmap) : option nat :=
  match mp with
  | [] => None
  | s :: r => if s_occ s then option_map S (first_free r) else Some 0%nat
  end.
Definition ex_map : kokkos_map := {|
  k_eq := i_eq;
  k_rehash := fun mp n => occupied mp ++ repeat empty_slot (N.to_nat (n - len (occupied mp)));
  k_place := fun mp _ => first_free mp
|}.
Lemma ex_map_wf : wf_kokkos ex_map.
Proof.
  constructor.
  - intros a a' b b' Ha Hb. inversion Ha; subst; inversion Hb; subst; reflexivity.
  - intros mp n H. cbn [k_rehash ex_map]. rewrite H, N.sub_0_r. cbn [app]. split.
    + unfold occupied. induction (N.to_nat n); auto.
    + unfold len. rewrite repeat_length. lia.
  - intros mp k. cbn [k_place ex_map]. unfold len, occupied.
    induction mp as [|s r IH]; cbn [filter length first_free]; intros H; [lia|].
    destruct (s_occ s) eqn:Hs.
    + destruct IH as (i & s' & H1 & H2 & H3); [cbn [length] in H; lia|].
      exists (S i), s'. rewrite H1. auto.
    + exists 0%nat, s. auto.
Qed.

Definition ex_kmap : kmap := [slot_ 3 30; empty_slot; slot_ 5 50; empty_slot].
Ltac slots := repeat (constructor; [split; [ht|split; [ht|split; cbn; lia]]|]); constructor.
Ltac pick i H := destruct i as [|[|[|[|i]]]]; cbn in H;
  try discriminate H; try (destruct i; discriminate H); injection H as <-.
Ltac apart := intros i j s s' Hi Hj; pick i Hi; pick j Hj; cbn; intros; auto; discriminate.
Lemma int_constructible : forall b, constructible (ex b) INT.
Proof. intros b. discriminate. Qed.
Lemma ex_kmap_ok : forall b, kmap_ok (ex b) ex_map INT INT 3 ex_kmap /\ no_leftover ex_map ex_kmap.
Proof.
  intros b. split; [constructor|].
  - reflexivity.
  - intros s H. repeat (destruct H as [<-|H]; [reflexivity|]). contradiction.
  - apart.
  - change (occupied ex_kmap) with [slot_ 3 30; slot_ 5 50]. unfold slot_. slots.
  - intros s s' H H'. repeat (destruct H as [<-|H]; [|]); try contradiction;
      repeat (destruct H' as [<-|H']; [|]); try contradiction; cbn; intros; auto; discriminate.
Qed.
Example C42_case : forall b, exists out x n,
  serialize_kmap (ex b) ex_map 3 (TPrim 92 40) INT INT ex_kmap = Ok (out, ex_kmap) /\
  deserialize_kmap (ex b) ex_map 3 (TPrim 92 40) INT INT out 0 [] = Ok (x, n) /\
  x = [slot_ 3 30; slot_ 5 50; empty_slot; empty_slot].
Proof.
  destruct b; do 3 eexists; (split; [vm_compute; reflexivity|]); (split; [vm_compute; reflexivity|]);
  reflexivity.
Qed.

(** A free slot still holds the default key 0, and key 0 is also present: it is
    written twice, the two elements that are read leave key 5 behind, and the map cannot
    be deserialized. *)
Definition ex_lossy : kmap := [empty_slot; slot_ 0 10; slot_ 5 50].
Theorem C42_refuted : exists E K f name kt vt mp b d m,
  wf_env any E /\ wf_kokkos K /\ (1 < f)%nat /\ constructible E kt /\ constructible E vt /\
  kmap_ok E K kt vt f mp /\ serialize_kmap E K f name kt vt mp = Ok (b, mp) /\
  deserialize_kmap E K f name kt vt b 0 [] = Err (SerErr d m).
Proof.
  exists (ex true), ex_map, 3%nat, (TPrim 92 40), INT, INT, ex_lossy. do 3 eexists.
  split; [now apply ex_wf|]. split; [apply ex_map_wf|]. split; [lia|].
  split; [apply int_constructible|]. split; [apply int_constructible|]. split; [|split].
  - constructor.
    + reflexivity.
    + intros s H. repeat (destruct H as [<-|H]; [reflexivity|]). contradiction.
    + apart.
    + change (occupied ex_lossy) with [slot_ 0 10; slot_ 5 50]. unfold slot_. slots.
  - vm_compute. reflexivity.
  - vm_compute. reflexivity.
Qed.
Print Assumptions C42_refuted.

(** ** C44 *)

(** [span [] [] = 1]: a view of rank 0 has one element (Kokkos). *)
Theorem C44_dyn_rank_view : forall E span vt f d v, wf_env any E -> wf_span span -> span [] [] = 1 ->
  (2 < f)%nat -> dyn_ok E span vt f v -> is_virtual E (vt_elem vt) = false ->
  dflt E (vt_elem vt) = Some d ->
  exists b, (stream_dyn_view E span f vt v = Ok (b, v) /\
     (len b < two64 -> serialize_dyn_view E span f vt v = Ok (b, v))) /\
    forall w, exists x, (v_live v = true -> view_copy (vt_kind vt) v x) /\ (v = no_view -> x = no_view) /\
      forall before after,
      deserialize_dyn_view E span f vt (before ++ b ++ after) (length before) w = Ok (x, len b).
Proof. intros. eapply dyn_round_trip; eauto. Qed.
Print Assumptions C44_dyn_rank_view.

Example C44_case : forall b, dyn_ok (ex b) ex_span (ex_vt INT 0 LStride false) 3 ex_strided /\
  ex_span [] [] = 1 /\ exists out x n,
  serialize_dyn_view (ex b) ex_span 3 (ex_vt INT 0 LStride false) ex_strided = Ok (out, ex_strided) /\
  deserialize_dyn_view (ex b) ex_span 3 (ex_vt INT 0 LStride false) out 0 no_view = Ok (x, n) /\
  v_ext x = [2; 3] /\ at_ x [1; 2] = Some (i_ 19).
Proof.
  intros b. split; [|split; [reflexivity|]].
  - right. split; [reflexivity|]. split; [apply ex_strided_ok|]. split; [cbn; lia|].
    repeat constructor.
  - destruct b; do 3 eexists; (split; [vm_compute; reflexivity|]); (split; [vm_compute; reflexivity|]);
      vm_compute; auto.
Qed.

(** ** C45 *)

(** Full statement: also [d_chunks x = d_chunks v] (the view can grow as far as before),
    and without the two bounds of 32 bits.  Both are false, see [C45_refuted] and
    [C45_truncated]. *)
Theorem C45_partial : forall E f name t d v, wf_env any E -> (2 < f)%nat -> dview_ok E t f v ->
  dflt E t = Some d -> d_chunk v < 2 ^ 32 -> allocation_extent v < 2 ^ 32 ->
  exists b, (stream_dynamic_view E f name t v = Ok (b, v) /\
     (len b < two64 -> serialize_dynamic_view E f name t v = Ok (b, v))) /\
    forall w, exists x, d_label x = d_label v /\ d_chunk x = d_chunk v /\
      d_chunks x = chunks_for (d_chunk v) (len (d_elems v)) /\
      Forall2 copy_of (d_elems v) (d_elems x) /\ forall before after,
      deserialize_dynamic_view E f name t (before ++ b ++ after) (length before) w = Ok (x, len b).
Proof. exact dynamic_round_trip. Qed.
Print Assumptions C45_partial.

Definition no_dview : dview := {| d_label := []; d_chunk := 1; d_chunks := 0; d_elems := [] |}.
Definition ex_dynamic : dview := {|
  d_label := [x61]; d_chunk := 4; d_chunks := 8; d_elems := map i_ [1; 2; 3; 4; 5]
|}.
Lemma ex_dynamic_ok : forall b, dview_ok (ex b) INT 3 ex_dynamic.
Proof.
  intros b. constructor; try reflexivity.
  - exists 2. reflexivity.
  - vm_compute. discriminate.
  - cbn [ex_dynamic d_elems map]. repeat (constructor; [split; [ht|cbn; lia]|]). constructor.
Qed.

(** The maximum extent that is written is the extent in use, so that the copy has no
    chunks to grow into. *)
Theorem C45_refuted : exists E f name t d v b x n, wf_env any E /\ (2 < f)%nat /\ dview_ok E t f v /\
  dflt E t = Some d /\ d_chunk v < 2 ^ 32 /\ allocation_extent v < 2 ^ 32 /\
  serialize_dynamic_view E f name t v = Ok (b, v) /\
  deserialize_dynamic_view E f name t b 0 no_dview = Ok (x, n) /\
  d_chunks x < d_chunks v.
Proof.
  exists (ex true), 3%nat, (TPrim 93 48), INT, (i_ 0), ex_dynamic. do 3 eexists.
  split; [now apply ex_wf|]. split; [lia|]. split; [apply ex_dynamic_ok|].
  split; [reflexivity|]. split; [reflexivity|]. split; [reflexivity|].
  split; [vm_compute; reflexivity|]. split; [vm_compute; reflexivity|]. reflexivity.
Qed.
Print Assumptions C45_refuted.

(** The chunk size and the maximum extent are passed on as 32-bit numbers: from 2^32
    elements on, deserialization aborts. *)
Theorem C45_truncated : forall E f name t v w, wf_env any E -> (2 < f)%nat -> dview_ok E t f v ->
  d_chunk v < 2 ^ 32 ->
  chunks_for (d_chunk v) (wrap32 (allocation_extent v)) < chunks_for (d_chunk v) (len (d_elems v)) ->
  exists b, (stream_dynamic_view E f name t v = Ok (b, v) /\
     (len b < two64 -> serialize_dynamic_view E f name t v = Ok (b, v))) /\
    forall before after,
    deserialize_dynamic_view E f name t (before ++ b ++ after) (length before) w = Err Terminate.
Proof. exact dynamic_abort. Qed.
Print Assumptions C45_truncated.

Definition ex_huge (l : list val) : dview := {|
  d_label := []; d_chunk := 1024; d_chunks := 8388608; d_elems := l
|}.
Lemma huge_ok : forall b l, len l = 2 ^ 32 -> Forall (eq (VB [x07])) l ->
  dview_ok (ex b) CHAR 3 (ex_huge l) /\ d_chunk (ex_huge l) < 2 ^ 32 /\
  chunks_for (d_chunk (ex_huge l)) (wrap32 (allocation_extent (ex_huge l))) <
  chunks_for (d_chunk (ex_huge l)) (len (d_elems (ex_huge l))).
Proof.
  intros b l Hl Hx.
  assert (Ha : allocation_extent (ex_huge l) = 2 ^ 32).
  { unfold allocation_extent. cbn [ex_huge d_elems d_chunk]. rewrite Hl. reflexivity. }
  split; [|split].
  - constructor.
    + reflexivity.
    + exists 10. reflexivity.
    + reflexivity.
    + rewrite Ha. reflexivity.
    + cbn [ex_huge d_elems d_chunk d_chunks]. rewrite Hl. vm_compute. discriminate.
    + cbn [ex_huge d_elems]. eapply Forall_impl; [|exact Hx]. intros x <-. split; [ht|cbn; lia].
  - reflexivity.
  - rewrite Ha. cbn [ex_huge d_elems d_chunk]. rewrite Hl. vm_compute. reflexivity.
Qed.
Example C45_truncated_case : forall b, exists v, dview_ok (ex b) CHAR 3 v /\ d_chunk v < 2 ^ 32 /\
  chunks_for (d_chunk v) (wrap32 (allocation_extent v)) < chunks_for (d_chunk v) (len (d_elems v)).
Proof.
  intros b.
  assert (G : forall n, len (repeat (VB [x07]) (N.to_nat n)) = n /\
                        Forall (eq (VB [x07])) (repeat (VB [x07]) (N.to_nat n))).
  { intros n. unfold len. rewrite repeat_length. split; [lia|].
    apply Forall_forall. intros x Hx. apply repeat_spec in Hx. auto. }
  destruct (G (2 ^ 32)) as (Hl & Hx). revert Hl Hx. generalize (repeat (VB [x07]) (N.to_nat (2 ^ 32))).
  intros l Hl Hx. exists (ex_huge l). now apply huge_ok.
Qed.
