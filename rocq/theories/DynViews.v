(** Round trips of views of dynamic rank and of dynamic size. *)
From Coq Require Import List NArith Arith Bool Lia.
From Coq.Strings Require Import Byte.
From Verif Require Import Base Syntax Prog Serializers Traverse Spec ProgFacts EnvFacts ValFacts
  Fails RegistryFacts Pack Unpack ApiFacts Views ViewSpec ViewFacts ViewRound.
From Verif Require Stable.
Import ListNotations.
Local Open Scope N_scope.

(** ** DynRankView *)
Definition wdyn (E : env) (span : list N -> list N -> N) (vt : vty) (v : view) : bytes :=
  wlabel E (v_label v) ++ framed E (TPrim 2 4) 1 (le 4 (N.of_nat (length (v_ext v)))) ++
  wlayout E vt (layout_of v) ++ wsize E (dyn_size v) ++
  if v_live v
  then wbool E (contiguous span (vt_kind vt) v) ++ wbool E true ++ wbody E span vt v
  else [].

Lemma dims_pos : forall v, v_live v = true ->
  (N.of_nat (length (v_ext v)) =? 0) && (dyn_size v =? 0) = false.
Proof.
  intros v Hl. unfold dyn_size. rewrite Hl. destruct (v_ext v); [reflexivity|].
  cbn [length]. destruct (N.eqb_spec (N.of_nat (S (length l))) 0); auto. lia.
Qed.

Lemma valid_dims_pad : forall ext, Forall (fun e => e < no_dim) ext -> valid_dims (pad8 no_dim ext) = ext.
Proof.
  intros ext H. unfold pad8. generalize (8 - length ext)%nat. intros n.
  induction H as [|e ext He Hx IH]; cbn [app valid_dims].
  - destruct n; auto.
  - destruct (N.eqb_spec e no_dim); [lia|]. now rewrite IH.
Qed.

Lemma contig_rank0 : forall span vt v, span [] [] = 1 -> v_ext v = [] -> length (v_str v) = 0%nat ->
  contiguous span (vt_kind vt) v = true.
Proof.
  intros span vt v Hs He Hl. destruct (v_str v) eqn:Hst; [|discriminate].
  unfold contiguous. rewrite He, Hst. destruct (vt_kind vt); auto. rewrite Hs. reflexivity.
Qed.

Lemma layout_no_view : forall vt, layout64 vt (layout_of no_view).
Proof.
  intros vt. unfold layout64, layout_of, no_view. cbn [v_ext v_str fst snd].
  repeat split; intros; repeat constructor.
Qed.

Section Rank.
Variable E : env.
Variable span : list N -> list N -> N.
Hypothesis Hspan0 : span [] [] = 1.
Variable f : nat.
Hypothesis Hf : (2 < f)%nat.
Variable vt : vty.
Hypothesis Hvir : is_virtual E (vt_elem vt) = false.

Lemma traverse_range : forall v, length (v_str v) = length (v_ext v) -> (length (v_ext v) <= 7)%nat ->
  contiguous span (vt_kind vt) v = false ->
  (Nat.leb 1 (length (v_ext v)) && Nat.leb (length (v_ext v)) 7)%bool = true.
Proof.
  intros v Hs H7 Hc.
  destruct (length (v_ext v)) as [|k] eqn:Hk.
  - rewrite contig_rank0 in Hc; [discriminate|auto| |auto]. now destruct (v_ext v).
  - apply andb_true_iff. split; apply Nat.leb_le; lia.
Qed.

Lemma e_dyn : forall F, wf_env F E -> forall m, m = MPacking \/ m = MSizing -> forall v,
  dyn_ok E span vt f v ->
  emits (ser_dyn_view E span m (with_ E m f) vt v) false v false (wdyn E span vt v).
Proof.
  intros F wf m Hm v Hok. pose proof (proj1 (pack_all F E wf m Hm f)) as P.
  unfold ser_dyn_view, wdyn. rewrite (m_unp m Hm).
  assert (Hf1 : (1 < f)%nat) by lia.
  destruct Hok as [->|(Hl & Hok & H7 & Hnd)].
  - eapply emits_bind; [now apply (e_label F E wf m Hm f Hf)|].
    eapply emits_bind; [apply (p_ser_word E _ f P); auto; reflexivity|].
    eapply emits_bind; [apply (e_layout F E wf m Hm f Hf), layout_no_view|].
    eapply emits_bind; [apply (p_ser_size E _ f P); auto; reflexivity|].
    cbn [dyn_size no_view v_live v_ext length N.of_nat N.eqb andb bind]. apply emits_ret.
  - pose proof (layout_of_64 _ _ _ _ _ Hok) as Hlay. destruct Hok. cbn [at_rank vt_rank vt_kind vt_elem] in *.
    eapply emits_bind; [now apply (e_label F E wf m Hm f Hf)|].
    eapply emits_bind; [apply (p_ser_word E _ f P); auto; change (256 ^ N.of_nat 4) with (2 ^ 32); lia|].
    eapply emits_bind; [now apply (e_layout F E wf m Hm f Hf)|].
    eapply emits_bind; [apply (p_ser_size E _ f P); auto; unfold dyn_size; rewrite Hl; auto|].
    cbn zeta. rewrite (dims_pos v Hl). cbn [bind]. rewrite Hl.
    eapply emits_bind; [apply (p_ser_bool E _ f P); auto|].
    eapply emits_bind; [apply (p_ser_bool E _ f P); auto|].
    unfold wbody. rewrite Hl. destruct (vo_live Hl) as (Hmem & Hcon & Hel).
    destruct (contiguous span (vt_kind vt) v) eqn:Hc.
    + replace (dyn_size v) with (prod (v_ext v)) by (unfold dyn_size; now rewrite Hl).
      apply (e_data F E wf m Hm f); auto.
    + rewrite Nat2N.id. rewrite (traverse_range v vo_str H7 Hc).
      eapply e_traverse; eauto; [now apply elements_at|].
      rewrite Forall_forall in *. intros x Hx. apply Hel. now apply elements_in.
Qed.

Lemma g_dyn_full : forall (F : N -> Prop) (C R : N -> N -> Prop) (HFC : forall c w, F w -> C c w) (HCR : forall c w, C c w -> R c (N.max w c))
  d v w, wf_env F E -> wf_span span -> dyn_ok E span vt f v ->
  dflt E (vt_elem vt) = Some d ->
  exists x, (v_live v = true -> read_by R span vt v (shell vt span d v) x) /\ (v = no_view -> x = no_view) /\
    reads (ser_dyn_view E span MUnpacking (with_ E MUnpacking f) vt w) false (wdyn E span vt v) x false.
Proof.
  intros F C R HFC HCR d v w wf Hsp Hok Hd.
  pose proof (proj1 (unpack_all F E wf C R HFC HCR f)) as U.
  pose proof (Stable.wf_env_mono _ any E (fun _ _ => I) wf) as wfa.
  unfold ser_dyn_view, wdyn. cbn [is_unpacking].
  assert (Hf1 : (1 <= f)%nat) by lia.
  destruct Hok as [->|(Hl & Hok & H7 & Hnd)].
  - exists no_view. split; [discriminate|]. split; auto.
    eapply reads_bind; [now apply (r_label E wfa f Hf)|].
    eapply reads_bind; [apply (u_word E C R _ f U); auto; reflexivity|].
    eapply reads_bind; [apply (r_layout E wfa f Hf), layout_no_view|].
    eapply reads_bind; [apply (u_size E C R _ f U); auto; reflexivity|].
    cbn [dyn_size no_view v_live v_ext length N.of_nat N.eqb andb bind]. apply reads_ret.
  - destruct (g_body_full E F wf C R HFC HCR span f Hf (at_rank vt (length (v_ext v))) d v Hsp Hok Hvir Hd) as (x & Hx & _ & Hr).
    exists x. split; [intros _; destruct (Hx Hl); constructor; auto|]. split; [intros ->; discriminate|].
    pose proof (layout_of_64 _ _ _ _ _ Hok) as Hlay. destruct Hok.
    cbn [at_rank vt_rank vt_kind vt_elem] in *.
    eapply reads_bind; [now apply (r_label E wfa f Hf)|].
    eapply reads_bind; [apply (u_word E C R _ f U); auto; change (256 ^ N.of_nat 4) with (2 ^ 32); lia|].
    eapply reads_bind; [now apply (r_layout E wfa f Hf)|].
    eapply reads_bind; [apply (u_size E C R _ f U); auto; unfold dyn_size; rewrite Hl; auto|].
    cbn zeta. rewrite (dims_pos v Hl).
    eapply reads_eq; [|apply app_nil_l].
    eapply reads_bind with (a := shell vt span d v) (vf1 := false).
    { unfold layout_of. cbn [fst snd]. rewrite valid_dims_pad by auto.
      pose proof (r_new_shell E span vt d v false Hd) as Hn.
      destruct (vt_kind vt); auto. now rewrite pad8_firstn by auto. }
    rewrite Hl in Hr |- *.
    eapply reads_bind; [apply (u_bool E C R _ f U); auto|].
    eapply reads_bind; [apply (u_bool E C R _ f U); auto|].
    destruct (contiguous span (vt_kind vt) v) eqn:Hc.
    + replace (dyn_size v) with (prod (v_ext v)) by (unfold dyn_size; now rewrite Hl). exact Hr.
    + rewrite Nat2N.id. rewrite (traverse_range v vo_str H7 Hc). exact Hr.
Qed.

Lemma r_dyn_full : forall d v w, wf_env any E -> wf_span span -> dyn_ok E span vt f v ->
  dflt E (vt_elem vt) = Some d ->
  exists x, (v_live v = true -> read_from span vt v (shell vt span d v) x) /\ (v = no_view -> x = no_view) /\
    reads (ser_dyn_view E span MUnpacking (with_ E MUnpacking f) vt w) false (wdyn E span vt v) x false.
Proof. intros d v w wf. exact (g_dyn_full any Cany N.le Cany_any Cany_max d v w wf). Qed.

Lemma r_dyn : forall d v w, wf_env any E -> wf_span span -> dyn_ok E span vt f v ->
  dflt E (vt_elem vt) = Some d ->
  exists x, (v_live v = true -> view_copy (vt_kind vt) v x) /\ (v = no_view -> x = no_view) /\
    reads (ser_dyn_view E span MUnpacking (with_ E MUnpacking f) vt w) false (wdyn E span vt v) x false.
Proof.
  intros d v w wf Hsp Hok Hd. destruct (r_dyn_full d v w wf Hsp Hok Hd) as (x & H1 & H2 & Hr).
  exists x. split; [|auto]. intros Hl. now destruct (H1 Hl).
Qed.

Lemma dyn_round_trip : forall d v, wf_env any E -> wf_span span -> dyn_ok E span vt f v ->
  dflt E (vt_elem vt) = Some d ->
  exists b, (stream_dyn_view E span f vt v = Ok (b, v) /\
     (len b < two64 -> serialize_dyn_view E span f vt v = Ok (b, v))) /\
    forall w, exists x, (v_live v = true -> view_copy (vt_kind vt) v x) /\ (v = no_view -> x = no_view) /\
      forall before after,
      deserialize_dyn_view E span f vt (before ++ b ++ after) (length before) w = Ok (x, len b).
Proof.
  intros d v wf Hsp Hok Hd. exists (wroot E (vt_name vt) (wdyn E span vt v)). split.
  - unfold stream_dyn_view, serialize_dyn_view, root_dyn_view.
    refine (both_ways _ _ _ _ v v _ _ _ _ eq_refl).
    + apply e_root; [now right|]. eapply e_dyn; eauto.
    + apply e_root; [now left|]. eapply e_dyn; eauto.
  - intros w. destruct (r_dyn d v w wf Hsp Hok Hd) as (x & H1 & H2 & Hr).
    exists x. split; auto. split; auto. intros before after. apply deserialize_reads.
    unfold root_dyn_view. now apply r_root.
Qed.
End Rank.

(** ** DynamicView *)
Definition as_view (v : dview) : view :=
  {| v_label := d_label v; v_ext := [len (d_elems v)]; v_str := [1]; v_data := d_elems v;
     v_live := true |}.

Definition wdynamic (E : env) (t : ty) (v : dview) : bytes :=
  wlabel E (d_label v) ++ wsize E (d_chunk v) ++ wsize E (allocation_extent v) ++
  wsize E (len (d_elems v)) ++ concat (map (enc E t) (d_elems v)).

Lemma chunks_cover : forall c n, 0 < c -> n <= chunks_for c n * c.
Proof.
  intros c n Hc. unfold chunks_for.
  pose proof (N.div_mod (n + (c - 1)) c). pose proof (N.mod_lt (n + (c - 1)) c).
  set (q := (n + (c - 1)) / c) in *. nia.
Qed.

Lemma chunks_alloc : forall c q, 0 < c -> chunks_for c (q * c) = q.
Proof.
  intros c q Hc. unfold chunks_for. rewrite N.add_comm, N.div_add by lia.
  rewrite N.div_small by lia. reflexivity.
Qed.

Lemma pow2_pos : forall k, 0 < 2 ^ k.
Proof. intros. apply N.neq_0_lt_0, N.pow_nonzero. discriminate. Qed.

Lemma indices1 : forall n, indices [n] = map (fun i => [N.of_nat i]) (seq 0 (N.to_nat n)).
Proof. intros. cbn [indices map]. induction (seq 0 (N.to_nat n)); cbn; congruence. Qed.

Lemma offset1 : forall i, offset [1] [i] = i.
Proof. intros. cbn [offset]. lia. Qed.

Lemma as_view_elements : forall v, elements (as_view v) = d_elems v.
Proof.
  intros v. unfold elements. cbn [as_view v_ext]. rewrite indices1. unfold len. rewrite Nat2N.id.
  unfold at_. cbn [as_view v_str v_data].
  assert (H : forall l : list val,
    flat_map (fun idx => match nth_error l (N.to_nat (offset [1] idx)) with Some x => [x] | None => [] end)
      (map (fun i => [N.of_nat i]) (seq 0 (length l))) = l).
  { intros l. rewrite flat_map_concat_map, map_map.
    rewrite (map_ext _ (fun i => match nth_error l i with Some x => [x] | None => [] end)).
    2:{ intros i. now rewrite offset1, Nat2N.id. }
    clear v. rewrite <- flat_map_concat_map. induction l as [|a l IH]; auto.
    cbn [length seq flat_map nth_error app]. f_equal. rewrite <- seq_shift, flat_map_concat_map, map_map.
    cbn [nth_error]. rewrite <- flat_map_concat_map. exact IH. }
  apply H.
Qed.

Lemma as_view_memory : forall v, has_memory (as_view v).
Proof.
  intros v idx Hi. cbn [as_view v_ext v_str v_data] in *.
  inversion Hi as [|i e is_ es Hlt Hr]; subst. inversion Hr; subst. now rewrite offset1.
Qed.

Section Dynamic.
Variable E : env.
Variable f : nat.
Hypothesis Hf : (2 < f)%nat.
Variable t : ty.

Lemma dview_eta : forall v, {| d_label := d_label v; d_chunk := d_chunk v; d_chunks := d_chunks v;
  d_elems := d_elems v |} = v.
Proof. destruct v; reflexivity. Qed.

Lemma size64 : forall v, dview_ok E t f v -> len (d_elems v) < two64.
Proof.
  intros v H. destruct (do_chunk _ _ _ _ H) as (k & Hk). pose proof (do_alloc64 _ _ _ _ H) as Ha.
  unfold allocation_extent in Ha. pose proof (pow2_pos k) as Hp. rewrite <- Hk in Hp.
  pose proof (chunks_cover (d_chunk v) (len (d_elems v)) Hp). lia.
Qed.

Lemma e_dynamic : forall F, wf_env F E -> forall m, m = MPacking \/ m = MSizing -> forall v,
  dview_ok E t f v ->
  emits (ser_dynamic_view E m (with_ E m f) t v) false v false (wdynamic E t v).
Proof.
  intros F wf m Hm v Hok. pose proof (proj1 (pack_all F E wf m Hm f)) as P.
  pose proof (size64 v Hok) as H64. destruct Hok.
  assert (Hf1 : (1 < f)%nat) by lia.
  unfold ser_dynamic_view, wdynamic. rewrite (m_unp m Hm).
  eapply emits_bind; [now apply (e_label F E wf m Hm f Hf)|].
  eapply emits_bind; [apply (p_ser_size E _ f P); auto|].
  eapply emits_bind; [apply (p_ser_size E _ f P); auto|].
  eapply emits_bind; [apply (p_ser_size E _ f P); auto|].
  cbn [bind]. eapply emits_eq; [|apply app_nil_r].
  eapply emits_bind with (a := as_view v) (vf1 := false).
  - change (emits (traverse_manual E m (with_ E m f) (length (v_ext (as_view v))) t (as_view v)) false
      (as_view v) false (concat (map (enc E t) (d_elems v)))).
    eapply e_traverse; eauto.
    + cbn. lia.
    + rewrite <- (as_view_elements v). apply elements_at, as_view_memory.
  - cbn [as_view v_data]. rewrite dview_eta. apply emits_ret.
Qed.

Lemma g_dynamic : forall (F : N -> Prop) (C R : N -> N -> Prop) (HFC : forall c w, F w -> C c w) (HCR : forall c w, C c w -> R c (N.max w c))
  d v w, wf_env F E -> dview_ok E t f v -> dflt E t = Some d ->
  d_chunk v < 2 ^ 32 -> allocation_extent v < 2 ^ 32 ->
  exists x, d_label x = d_label v /\ d_chunk x = d_chunk v /\
    d_chunks x = chunks_for (d_chunk v) (len (d_elems v)) /\
    Forall2 (sim R) (d_elems v) (d_elems x) /\
    reads (ser_dynamic_view E MUnpacking (with_ E MUnpacking f) t w) false (wdynamic E t v) x false.
Proof.
  intros F C R HFC HCR d v w wf Hok Hd Hc32 Ha32. pose proof (size64 v Hok) as H64.
  pose proof (proj1 (unpack_all F E wf C R HFC HCR f)) as U.
  pose proof (Stable.wf_env_mono _ any E (fun _ _ => I) wf) as wfa.
  destruct Hok as [do_label0 do_chunk0 do_chunk640 do_alloc640 do_room0 do_elems0]. destruct do_chunk0 as (k & Hk).
  assert (Hpos : 0 < d_chunk v) by (rewrite Hk; apply pow2_pos).
  set (n := len (d_elems v)) in *.
  set (nv := {| d_label := d_label v; d_chunk := d_chunk v; d_chunks := chunks_for (d_chunk v) n;
                d_elems := repeat d (N.to_nat n) |}).
  assert (Hn : len (d_elems nv) = n).
  { unfold nv, len. cbn [d_elems]. rewrite repeat_length. lia. }
  assert (Hn0 : length (d_elems nv) = length (d_elems v)).
  { unfold len in Hn. unfold n, len in Hn. lia. }
  destruct (g_traverse E F wf C R HFC HCR f t d (as_view nv) (d_elems v)) as (x & Hsh & Hat & Hr); auto.
  - cbn. lia.
  - cbn. discriminate.
  - cbn [as_view v_ext]. rewrite indices1, map_length, seq_length, Hn. unfold n, len. lia.
  - apply as_view_memory.
  - intros [i a] [j b] Hp Hq. cbn [fst snd as_view v_str].
    intros Ho.
    assert (Hij : i = j).
    { pose proof (in_combine_l _ _ _ _ Hp) as Hi. pose proof (in_combine_l _ _ _ _ Hq) as Hj.
      cbn [as_view v_ext] in Hi, Hj. rewrite indices1 in Hi, Hj.
      apply in_map_iff in Hi. apply in_map_iff in Hj. destruct Hi as (i' & <- & _), Hj as (j' & <- & _).
      rewrite !offset1 in Ho. congruence. }
    subst j.
    assert (Hnd : NoDup (indices (v_ext (as_view nv)))) by apply indices_nodup.
    revert Hnd Hp Hq. generalize (indices (v_ext (as_view nv))), (d_elems v). clear.
    induction l as [|y l IH]; intros [|z l'] Hnd Hp Hq; try contradiction.
    inversion Hnd; subst. cbn [combine] in Hp, Hq.
    destruct Hp as [Hp|Hp], Hq as [Hq|Hq].
    + congruence.
    + inversion Hp; subst. apply in_combine_l in Hq. contradiction.
    + inversion Hq; subst. apply in_combine_l in Hp. contradiction.
    + eapply IH; eauto.
  - exists {| d_label := d_label v; d_chunk := d_chunk v; d_chunks := chunks_for (d_chunk v) n;
              d_elems := v_data x |}. cbn [d_label d_chunk d_chunks d_elems].
    do 3 (split; [reflexivity|]). split.
    + destruct Hsh as (S1 & S2 & S3 & S4 & S5). cbn [as_view v_ext v_str v_data] in *.
      rewrite indices1, Hn in Hat. rewrite Hn0 in S5. unfold n, len in Hat. rewrite Nat2N.id in Hat.
      unfold at_ in Hat. rewrite S3 in Hat.
      revert S5 Hat. generalize (v_data x), (d_elems v). clear.
      intros l l'. revert l. induction l' as [|a l' IH]; intros [|b l] Hl Hat; try discriminate; constructor.
      * cbn [length seq map] in Hat. inversion Hat as [|? ? ? ? (y & Hy & Hc) Hr]; subst.
        rewrite offset1 in Hy. cbn in Hy. congruence.
      * apply IH; [now inversion Hl|]. cbn [length seq map] in Hat. inversion Hat as [|? ? ? ? _ Hr]; subst.
        rewrite <- seq_shift, map_map in Hr.
        revert Hr. generalize (seq 0 (length l')). clear. intros s Hr.
        remember (map (fun x0 => [N.of_nat (S x0)]) s) as s' eqn:Hs. revert s Hs.
        induction Hr as [|i a' is_ l'' (y & Hy & Hc) Hr IH]; intros [|j s] Hs; try discriminate; constructor.
        -- assert (Hi : i = [N.of_nat (S j)]) by (cbn [map] in Hs; congruence).
           rewrite Hi, offset1, Nat2N.id in Hy. rewrite offset1, Nat2N.id.
           exists y. split; auto.
        -- apply IH. now inversion Hs.
    + unfold ser_dynamic_view, wdynamic. cbn [is_unpacking].
      assert (Hf1 : (1 <= f)%nat) by lia.
      eapply reads_bind; [now apply (r_label E wfa f Hf)|].
      eapply reads_bind; [apply (u_size E C R _ f U); auto|].
      eapply reads_bind; [apply (u_size E C R _ f U); auto|].
      eapply reads_bind; [apply (u_size E C R _ f U); auto|].
      eapply reads_eq; [|apply app_nil_l].
      eapply reads_bind with (a := nv) (vf1 := false).
      { unfold wrap32. change (2 ^ 32) with 4294967296 in Hc32, Ha32.
        rewrite !N.mod_small by auto. rewrite Hk, N.log2_up_pow2 by lia. rewrite <- Hk. cbn zeta.
        unfold allocation_extent. fold n. rewrite chunks_alloc by auto.
        rewrite N.ltb_irrefl, Hd. cbn [of_opt bind]. apply reads_ret. }
      eapply reads_eq; [|apply app_nil_r]. eapply reads_bind; [exact Hr|].
      cbn [nv d_label d_chunk d_chunks]. apply reads_ret.
Qed.

Lemma r_dynamic : forall d v w, wf_env any E -> dview_ok E t f v -> dflt E t = Some d ->
  d_chunk v < 2 ^ 32 -> allocation_extent v < 2 ^ 32 ->
  exists x, d_label x = d_label v /\ d_chunk x = d_chunk v /\
    d_chunks x = chunks_for (d_chunk v) (len (d_elems v)) /\
    Forall2 copy_of (d_elems v) (d_elems x) /\
    reads (ser_dynamic_view E MUnpacking (with_ E MUnpacking f) t w) false (wdynamic E t v) x false.
Proof. intros d v w wf. exact (g_dynamic any Cany N.le Cany_any Cany_max d v w wf). Qed.

(** More chunks than fit in 32 bits: their number is cut down, and the elements do not
    find room. *)
Lemma f_dynamic : forall v w, wf_env any E -> dview_ok E t f v ->
  d_chunk v < 2 ^ 32 ->
  chunks_for (d_chunk v) (wrap32 (allocation_extent v)) < chunks_for (d_chunk v) (len (d_elems v)) ->
  exists i r, wdynamic E t v = i ++ r /\
  fails (ser_dynamic_view E MUnpacking (with_ E MUnpacking f) t w) false i Terminate.
Proof.
  intros v w wf Hok Hc32 Hlt. pose proof (size64 v Hok) as H64.
  pose proof (proj1 (unpack_all any E wf Cany N.le Cany_any Cany_max f)) as U.
  destruct Hok as [do_label0 do_chunk0 do_chunk640 do_alloc640 do_room0 do_elems0]. destruct do_chunk0 as (k & Hk). assert (Hf1 : (1 <= f)%nat) by lia.
  exists (wlabel E (d_label v) ++ wsize E (d_chunk v) ++ wsize E (allocation_extent v) ++
          wsize E (len (d_elems v)) ++ []), (concat (map (enc E t) (d_elems v))).
  split; [unfold wdynamic; rewrite !app_nil_r, !app_assoc; reflexivity|].
  unfold ser_dynamic_view. cbn [is_unpacking].
  eapply fails_bind_r; [now apply (r_label E wf f Hf)|].
  eapply fails_bind_r; [apply (u_size E Cany N.le _ f U); auto|].
  eapply fails_bind_r; [apply (u_size E Cany N.le _ f U); auto|].
  eapply fails_bind_r; [apply (u_size E Cany N.le _ f U); auto|].
  change (2 ^ 32) with 4294967296 in Hc32.
  assert (Hw : 2 ^ N.log2_up (wrap32 (d_chunk v)) = d_chunk v).
  { unfold wrap32. rewrite N.mod_small by auto. rewrite Hk at 1. rewrite N.log2_up_pow2 by lia. auto. }
  cbn zeta. rewrite Hw.
  destruct (N.ltb_spec (chunks_for (d_chunk v) (wrap32 (allocation_extent v)))
    (chunks_for (d_chunk v) (len (d_elems v)))); [|lia].
  cbn [bind]. apply fails_fail.
Qed.
End Dynamic.

Lemma dynamic_round_trip : forall E f name t d v, wf_env any E -> (2 < f)%nat -> dview_ok E t f v ->
  dflt E t = Some d -> d_chunk v < 2 ^ 32 -> allocation_extent v < 2 ^ 32 ->
  exists b, (stream_dynamic_view E f name t v = Ok (b, v) /\
     (len b < two64 -> serialize_dynamic_view E f name t v = Ok (b, v))) /\
    forall w, exists x, d_label x = d_label v /\ d_chunk x = d_chunk v /\
      d_chunks x = chunks_for (d_chunk v) (len (d_elems v)) /\
      Forall2 copy_of (d_elems v) (d_elems x) /\ forall before after,
      deserialize_dynamic_view E f name t (before ++ b ++ after) (length before) w = Ok (x, len b).
Proof.
  intros E f name t d v wf Hf Hok Hd Hc Ha. exists (wroot E name (wdynamic E t v)). split.
  - unfold stream_dynamic_view, serialize_dynamic_view, root_dynamic_view.
    refine (both_ways _ _ _ _ v v _ _ _ _ eq_refl).
    + apply e_root; [now right|]. eapply e_dynamic; eauto.
    + apply e_root; [now left|]. eapply e_dynamic; eauto.
  - intros w. destruct (r_dynamic E f Hf t d v w wf Hok Hd Hc Ha) as (x & H1 & H2 & H3 & H4 & Hr).
    exists x. repeat (split; auto). intros before after. apply deserialize_reads.
    unfold root_dynamic_view. now apply r_root.
Qed.

Lemma f_root : forall E, wf_env any E -> forall A t (p : prog A) i r,
  fails p false i Terminate -> fails (root_object E MUnpacking t p) false (wroot E t (i ++ r)) Terminate.
Proof.
  intros E wf A t p i r Hp.
  assert (Hti : reads (with_type_idx E MUnpacking t) false (le 4 (tix E t)) tt false).
  { destruct (tix_ok any E wf t) as (Hu & Hval).
    unfold with_type_idx. eapply reads_eq; [|apply app_nil_r].
    apply reads_contig; [now rewrite !le_length|].
    cbn zeta. rewrite Hu, Hval, N.eqb_refl. apply reads_ret. }
  unfold root_object, wroot, as_object, framed. destruct (chk E) eqn:Ec.
  - eapply fails_bind_r; [exact Hti|]. rewrite <- app_assoc. apply fails_more.
    apply fails_bind_l. exact (fails_catch _ _ _ _ _ _ Hp).
  - eapply fails_bind_r; [exact Hti|]. rewrite <- app_assoc. apply fails_more.
    now apply fails_bind_l.
Qed.

Lemma dynamic_abort : forall E f name t v w, wf_env any E -> (2 < f)%nat -> dview_ok E t f v ->
  d_chunk v < 2 ^ 32 ->
  chunks_for (d_chunk v) (wrap32 (allocation_extent v)) < chunks_for (d_chunk v) (len (d_elems v)) ->
  exists b, (stream_dynamic_view E f name t v = Ok (b, v) /\
     (len b < two64 -> serialize_dynamic_view E f name t v = Ok (b, v))) /\
    forall before after,
    deserialize_dynamic_view E f name t (before ++ b ++ after) (length before) w = Err Terminate.
Proof.
  intros E f name t v w wf Hf Hok Hc Hlt. exists (wroot E name (wdynamic E t v)). split.
  - unfold stream_dynamic_view, serialize_dynamic_view, root_dynamic_view.
    refine (both_ways _ _ _ _ v v _ _ _ _ eq_refl).
    + apply e_root; [now right|]. eapply e_dynamic; eauto.
    + apply e_root; [now left|]. eapply e_dynamic; eauto.
  - intros before after. destruct (f_dynamic E f Hf t v w wf Hok Hc Hlt) as (i & r & He & Hfl).
    unfold deserialize_dynamic_view, deserialize_object, root_dynamic_view.
    pose proof (f_root E wf _ name _ i r Hfl) as Hr. rewrite <- He in Hr.
    pose proof (fails_unpacker _ _ _ _ _ Hr before after 0) as H'. change (wrap64 0) with 0 in H'.
    now rewrite H'.
Qed.
