(** Reading data that was not written for it as a view of dynamic rank, a view of dynamic size
    or a map: specification and proofs. *)
From Coq Require Import List NArith Arith Bool Lia Permutation.
From Coq.Strings Require Import Byte.
From Verif Require Import Base Syntax Prog Serializers Traverse Spec ProgFacts EnvFacts
  RegistryFacts Unpack ApiFacts Robust RobustFacts Views ViewSpec ViewFacts ViewRound Damage.
From Verif Require Pack KMap.
Import ListNotations.
Local Open Scope N_scope.

(** ** Specification *)

(** What stands before the elements of a view of dynamic rank. *)
Definition dyn_start (E : env) (vt : vty) (label : bytes) (rank : N) (l : list N * list N) (n : N) : bytes :=
  le 4 (tix E (vt_name vt)) ++ wlabel E label ++ framed E (TPrim 2 4) 1 (le 4 rank) ++ wlayout E vt l ++
  wsize E n.

(** The extents in a layout end before the first that is not valid. *)
Definition extents_in (l ext : list N) : Prop :=
  exists rest, l = ext ++ rest /\ Forall (fun e => e <> no_dim) ext /\
    match rest with [] => True | e :: _ => e = no_dim end.

(** The strides and the number of elements of a new view. *)
Definition new_strides (k : lkind) (ext str : list N) : list N :=
  match k with LStride => firstn (length ext) str | _ => natural k ext end.
Definition new_room (span : list N -> list N -> N) (k : lkind) (ext str : list N) : N :=
  match k with LStride => span ext (firstn (length ext) str) | _ => prod ext end.

(** The first [n] extents, where those that a view does not have are 1. *)
Definition first_extents (n : nat) (ext : list N) : list N := map (fun i => nth i ext 1) (seq 0 n).

(** Data that starts as a view of dynamic rank would, but with a bool that is neither false nor
    true or with more contiguous elements than the extents allow. *)
Definition dyn_damaged (E : env) (span : list N -> list N -> N) (vt : vty) (d : bytes) : Prop :=
  exists label rank l ext n c rest,
    len label < two64 /\ rank < 2 ^ 32 /\ layout64 LStride l /\ extents_in (fst l) ext /\ n < two64 /\
    d = dyn_start E vt label rank l n ++ flag E c ++ rest /\ (rank <> 0 \/ n <> 0) /\
    (no_bool c \/
     exists i rest', rest = flag E i ++ rest' /\
       (no_bool i \/ (c = x01 /\ i = x01 /\ new_room span (vt_kind vt) ext (snd l) < n))).

(** The same with elements that are not contiguous, a rank that is not the number of extents,
    and an element at indices that fit the rank but not the memory. *)
Definition dyn_astray (E : env) (span : list N -> list N -> N) (vt : vty) (d : bytes) : Prop :=
  exists label rank l ext n rest idx,
    len label < two64 /\ layout64 LStride l /\ extents_in (fst l) ext /\ n < two64 /\
    d = dyn_start E vt label rank l n ++ flag E x00 ++ flag E x01 ++ rest /\
    1 <= rank <= 7 /\ rank < len ext /\
    in_bounds idx (first_extents (N.to_nat rank) ext) /\
    new_room span (vt_kind vt) ext (snd l) <= offset (new_strides (vt_kind vt) ext (snd l)) idx.

(** A view of dynamic rank that can be used: never allocated, or with memory for all of its
    elements, each of which is an object of the element type. *)
Definition dyn_usable (E : env) (vt : vty) (v : view) : Prop :=
  v = no_view \/
  ((length (v_ext v) <= 8)%nat /\ v_live v = true /\ has_memory v /\
   Forall (Robust.valid E (vt_elem vt)) (v_data v)).

(** What stands before the elements of a view of dynamic size. *)
Definition chunk_start (E : env) (name : ty) (label : bytes) (chunk max n : N) : bytes :=
  le 4 (tix E name) ++ wlabel E label ++ wsize E chunk ++ wsize E max ++ wsize E n.

(** [p] is the power of two that a chunk size is rounded up to. *)
Definition rounded (chunk p : N) : Prop :=
  (exists e, p = 2 ^ e) /\ chunk <= p /\ (p = 1 \/ p < 2 * chunk).

(** Data with more elements than as many chunks as are allowed can hold. *)
Definition too_small (E : env) (name : ty) (d : bytes) : Prop :=
  exists label chunk max n rest p q,
    len label < two64 /\ chunk < two64 /\ max < two64 /\ n < two64 /\
    d = chunk_start E name label chunk max n ++ rest /\
    rounded (chunk mod 2 ^ 32) p /\ max mod 2 ^ 32 <= q * p /\ q * p < n.

(** A view of dynamic size that can be used: the elements fit its chunks, whose size is a
    power of two, and are objects of the element type. *)
Record dynamic_usable (E : env) (t : ty) (v : dview) : Prop := {
  du_chunk : exists e, d_chunk v = 2 ^ e;
  du_room : len (d_elems v) <= d_chunks v * d_chunk v;
  du_elems : Forall (Robust.valid E t) (d_elems v)
}.

(** A map that can be used: keys and values are objects of their types, no two keys are equal. *)
Record map_usable (E : env) (K : kokkos_map) (kt vt : ty) (mp : kmap) : Prop := {
  mu_elems : Forall (fun s => Robust.valid E kt (s_key s) /\ Robust.valid E vt (s_val s)) (occupied mp);
  mu_distinct : ForallOrdPairs (fun s s' => k_eq K (s_key s) (s_key s') = false) (occupied mp)
}.

(** What is relied on of Kokkos: the equality is symmetric, rehashing a map that can be used gives such a
    map, new keys go to free slots. *)
Record safe_kokkos (E : env) (kt vt : ty) (K : kokkos_map) : Prop := {
  sk_sym : forall a b, k_eq K a b = k_eq K b a;
  sk_rehash : forall mp n, map_usable E K kt vt mp -> map_usable E K kt vt (k_rehash K mp n);
  sk_place : forall mp k i s, k_place K mp k = Some i -> nth_error mp i = Some s -> s_occ s = false
}.

(** ** Proofs *)

(** [runs] for any set of errors. *)
Definition ends (C : fail -> Prop) {A} (p : nat -> prog A) (vf : bool) (s : bytes) (Q : A -> bytes -> Prop) : Prop :=
  exists f0 (r : res (A * bool * bytes)),
    (forall f, (f0 <= f)%nat -> interp (reader RtErr) (p f) vf s = r) /\
    match r with Ok (a, _, s') => Q a s' | Err e => C e end.

Lemma ends_runs : forall (C : fail -> Prop) U A (p : nat -> prog A) vf s Q, (forall e, caught U e -> C e) ->
  runs U p vf s Q -> ends C p vf s Q.
Proof.
  intros C U A p vf s Q HC (f0 & r & Hr & Hq). exists f0, r. split; auto.
  destruct r as [[[a vf'] s']|e]; auto.
Qed.
Lemma ends_fail : forall (C : fail -> Prop) A e vf s (Q : A -> bytes -> Prop), C e -> ends C (fun _ => Fail e) vf s Q.
Proof. intros C A e vf s Q H. exists O, (Err e). split; auto. Qed.
Lemma ends_bind : forall (C : fail -> Prop) A B (p : nat -> prog A) (k : nat -> A -> prog B) vf s Q Q',
  ends C p vf s Q ->
  (forall a vf' s', Q a s' -> ends C (fun f => k f a) vf' s' Q') ->
  ends C (fun f => bind (p f) (k f)) vf s Q'.
Proof.
  intros C A B p k vf s Q Q' (f0 & r & Hr & Hq) H.
  destruct r as [[[a vf'] s']|e].
  - destruct (H a vf' s' Hq) as (f1 & r1 & Hr1 & Hq1).
    exists (Nat.max f0 f1), r1. split; auto.
    intros f Hf. rewrite interp_bind, Hr by lia. apply Hr1. lia.
  - exists f0, (Err e). split; auto. intros f Hf. rewrite interp_bind, Hr by lia. reflexivity.
Qed.
Lemma ends_catch : forall (C : fail -> Prop) A t (p : nat -> prog A) vf s Q, (forall e, C e -> C (bump t e)) ->
  ends C p vf s Q -> ends C (fun f => catch t (p f)) vf s Q.
Proof.
  intros C A t p vf s Q HC (f0 & r & Hr & Hq).
  destruct r as [x|e].
  - exists f0, (Ok x). split; auto. intros f Hf. apply interp_catch_ok. auto.
  - exists f0, (Err (bump t e)). split; auto.
    intros f Hf. apply interp_catch_err; auto.
    intros i b s0 e0 He. cbn [contig reader] in He.
    destruct (split_at (length b) s0) as [[? ?]|]; inversion He; subst. reflexivity.
Qed.

Section Damage.
Variable E : env.
Hypothesis wf : wf_env any E.
Variable T : ty -> Prop.
Hypothesis rd : Robust.readable E T.
Variable span : list N -> list N -> N.
Hypothesis wsp : wf_span span.
Variable U : Prop.
Hypothesis HU : forall t, T t -> by_flag t = true -> U.
Notation R := (fun f => with_ E MUnpacking f).

Lemma x_unsigned : forall n vf s,
  runs U (fun f => ser_word (R f) 2 4 n) vf s
    (fun x s' => x < 2 ^ 32 /\ s = framed E (TPrim 2 4) 1 (le 4 x) ++ s').
Proof.
  intros n vf s. eapply runs_impl; [eapply x_word; eauto|]. cbn beta.
  intros x s' _ (b & Hb & -> & ->). split.
  - pose proof (unle_bound b) as H. unfold len in H. rewrite Hb in H. exact H.
  - now rewrite le_of.
Qed.

(** The object itself between its type index and its size. *)
Lemma ends_root : forall (C : fail -> Prop) A name (p : nat -> prog A) s (Q : A -> bytes -> Prop),
  (forall e, caught U e -> C e) -> (forall t e, C e -> C (bump t e)) ->
  (forall s1, s = le 4 (tix E name) ++ s1 -> ends C p false s1 (fun a _ => Q a [])) ->
  ends C (fun f => root_object E MUnpacking name (p f)) false s (fun a _ => Q a []).
Proof.
  intros C A name p s Q HC Hb Hp. unfold root_object, as_object.
  assert (Hi : ends C (fun _ => with_type_idx E MUnpacking name) false s
    (fun _ s1 => s = le 4 (tix E name) ++ s1)).
  { eapply ends_runs; [exact HC|]. eapply x_idx; eauto. }
  destruct Hi as (f0 & r & Hr & Hq).
  assert (Hv : forall f, (f0 <= f)%nat -> match r with Ok (_, vf, _) => vf = false | _ => True end).
  { intros f Hf. rewrite <- (Hr f Hf). unfold with_type_idx. cbn [interp contig reader].
    destruct (split_at _ s) as [[x y]|]; [|exact I].
    destruct (_ || _); cbn [interp]; auto. }
  destruct r as [[[u vf] s1]|e].
  2:{ exists f0, (Err e). split; auto. intros f Hf. destruct (chk E); rewrite interp_bind, (Hr f Hf); reflexivity. }
  pose proof (Hv f0 (Nat.le_refl _)) as Hvf. cbn beta iota in Hvf. subst vf.
  assert (Hused : forall vf s2, ends C (fun _ => with_mem_used E MUnpacking name 1) vf s2 (fun _ _ => True)).
  { intros vf s2. eapply ends_runs; [exact HC|]. eapply runs_impl; [eapply x_used; eauto|]. auto. }
  assert (G : ends C (fun f => bind (if chk E then catch (tix E name) (p f) else p f)
      (fun a => bind (with_mem_used E MUnpacking name 1) (fun _ => Ret a))) false s1 (fun a _ => Q a [])).
  { eapply (ends_bind C _ _ _ (fun f a => bind (with_mem_used E MUnpacking name 1) (fun _ => Ret a))).
    - destruct (chk E); [apply ends_catch; [apply Hb|]|]; apply Hp; exact Hq.
    - intros a vf2 s2 Ha.
      eapply (ends_bind C _ _ (fun _ => with_mem_used E MUnpacking name 1) (fun f _ => Ret a)); [apply Hused|].
      intros _ vf3 s3 _. exists O, (Ok (a, vf3, s3)). split; auto. }
  destruct G as (f1 & r & Hr1 & Hq1). exists (Nat.max f0 f1), r. split; auto.
  intros f Hf. specialize (Hr1 f ltac:(lia)). specialize (Hr f ltac:(lia)).
  destruct (chk E); rewrite interp_bind, Hr; exact Hr1.
Qed.

(** ** Views of dynamic rank *)
Lemma valid_dims_in : forall l, extents_in l (valid_dims l).
Proof.
  induction l as [|e l IH]; cbn [valid_dims]; [exists []; repeat split; constructor|].
  destruct (N.eqb_spec e no_dim) as [He|He].
  - exists (e :: l). repeat split; auto.
  - destruct IH as (r & Hr & H1 & H2). exists r. cbn [app]. split; [now rewrite <- Hr|]. split; auto.
Qed.
Lemma extents_unique : forall l ext, extents_in l ext -> valid_dims l = ext.
Proof.
  intros l ext (r & -> & H1 & H2). induction H1 as [|e ext He _ IH]; cbn [app].
  - destruct r as [|e r]; cbn [valid_dims]; auto. subst e. now rewrite N.eqb_refl.
  - cbn [valid_dims]. destruct (N.eqb_spec e no_dim); [contradiction|]. now rewrite IH.
Qed.

Lemma manual_nest : forall m rec t v d, (1 <= d <= 8)%nat ->
  traverse_manual E m rec d t v = nest (first_extents d (v_ext v)) (visit E m rec t) v.
Proof.
  intros m rec t v d Hd. unfold first_extents.
  do 9 (destruct d as [|d]; [first [lia | reflexivity]|]). lia.
Qed.

(** Indices that fit a rank that is not less than the number of extents fit the extents. *)
Lemma more_bounds : forall ext n idx str, (length ext <= n)%nat -> length str = length ext ->
  in_bounds idx (first_extents n ext) ->
  exists idx', in_bounds idx' ext /\ offset str idx = offset str idx'.
Proof.
  unfold first_extents. intros ext. induction ext as [|e ext IH]; intros n idx str Hn Hs Hi.
  - destruct str; [|discriminate]. exists []. split; [constructor|]. reflexivity.
  - destruct n as [|n]; [cbn in Hn; lia|]. destruct str as [|s str]; [discriminate|].
    cbn [seq map] in Hi. inversion Hi as [|i ? idx0 ? Hlt Hrest]; subst.
    cbn [nth] in Hlt. rewrite <- seq_shift, map_map in Hrest.
    change (map (fun x => nth (S x) (e :: ext) 1) (seq 0 n)) with (map (fun x => nth x ext 1) (seq 0 n)) in Hrest.
    destruct (IH n idx0 str) as (idx' & H1 & H2); [cbn in Hn; lia|cbn in Hs; lia|exact Hrest|].
    exists (i :: idx'). split; [now constructor|]. cbn [offset]. now rewrite H2.
Qed.

Lemma run_visit_at : forall t d nv v idx vf s, T t -> dflt E t = Some d -> kept E t nv v ->
  (len (v_data nv) <= offset (v_str nv) idx -> U) ->
  runs U (fun f => visit E MUnpacking (R f) t idx v) vf s (fun v' _ => kept E t nv v').
Proof.
  intros t d nv v idx vf s Ht Hd Hk Hi. unfold visit. cbn [is_unpacking]. rewrite Hd. cbn [of_opt bind].
  eapply (runs_bind U _ _ _ (fun f x => Views.valid (set_at v idx x))).
  { eapply run_one; eauto. eapply dflt_valid; eauto. }
  intros x vf1 s1 _ Hx.
  pose proof Hk as ((_ & _ & Hs & _ & Hl) & _).
  destruct (N.le_gt_cases (len (v_data nv)) (offset (v_str nv) idx)) as [Hle|Hlt].
  - unfold set_at. rewrite Hs, Hl. unfold len in Hle.
    destruct (Nat.ltb_spec (N.to_nat (offset (v_str nv) idx)) (length (v_data nv))); [lia|].
    cbn [Views.valid]. apply runs_fail. cbn [caught]. auto.
  - rewrite set_at_some by (unfold len in *; rewrite Hs, Hl; exact Hlt).
    cbn [Views.valid]. apply runs_ret. now apply kept_upd.
Qed.

Lemma run_dyn_view : forall vt d w vf s s0, T (vt_elem vt) -> dflt E (vt_elem vt) = Some d ->
  s0 = le 4 (tix E (vt_name vt)) ++ s ->
  (dyn_damaged E span vt s0 -> U) -> (dyn_astray E span vt s0 -> U) ->
  runs U (fun f => ser_dyn_view E span MUnpacking (R f) vt w) vf s (fun v _ => dyn_usable E vt v).
Proof.
  intros vt d w vf s s0 Ht Hd Hs0 HD HA. unfold ser_dyn_view. cbn [is_unpacking].
  match goal with |- runs _ (fun f => bind _ (@?k f)) _ _ _ => eapply (runs_bind U _ _ _ k) end;
    [eapply x_label; eauto|].
  intros label vf1 s1 _ (H1 & Hs1). cbn beta.
  match goal with |- runs _ (fun f => bind _ (@?k f)) _ _ _ => eapply (runs_bind U _ _ _ k) end;
    [apply x_unsigned|].
  intros rank vf2 s2 _ (H2 & Hs2). cbn beta.
  match goal with |- runs _ (fun f => bind _ (@?k f)) _ _ _ => eapply (runs_bind U _ _ _ k) end;
    [eapply x_layout; eauto|].
  intros l vf3 s3 _ (H3 & Hs3). cbn beta.
  match goal with |- runs _ (fun f => bind _ (@?k f)) _ _ _ => eapply (runs_bind U _ _ _ k) end;
    [eapply x_size; eauto|].
  intros n vf4 s4 _ (H4 & Hs4). cbn beta.
  assert (Hst : s0 = dyn_start E vt label rank l n ++ s4).
  { unfold dyn_start. rewrite Hs0, Hs1, Hs2, Hs3, Hs4. now rewrite <- !app_assoc. }
  destruct ((rank =? 0) && (n =? 0)) eqn:Hun; cbn [bind].
  { apply runs_ret. now left. }
  assert (Hne : rank <> 0 \/ n <> 0).
  { destruct (N.eqb_spec rank 0); [|auto]. destruct (N.eqb_spec n 0); [discriminate|auto]. }
  unfold new_view. rewrite Hd. cbn [of_opt bind].
  set (ext := valid_dims (fst l)). pose proof (valid_dims_in (fst l)) as Hext. fold ext in Hext.
  set (nv := {| v_label := label |}).
  assert (Hlen : (length ext <= 8)%nat).
  { destruct Hext as (r & Hr & _). destruct H3 as (L1 & _). rewrite Hr, app_length in L1. lia. }
  assert (Hstr : v_str nv = new_strides (vt_kind vt) ext (snd l)).
  { unfold nv, new_strides. cbn [v_str]. destruct (vt_kind vt); reflexivity. }
  assert (Hslen : length (v_str nv) = length ext).
  { unfold nv. cbn [v_str]. destruct (vt_kind vt); cbn [natural]; try apply right_strides_length; try apply left_strides_length.
    rewrite firstn_length. destruct H3 as (_ & L2 & _). lia. }
  assert (Hn : len (v_data nv) = new_room span (vt_kind vt) ext (snd l)).
  { unfold nv, len. cbn [v_data]. rewrite repeat_length, N2Nat.id. unfold new_room. destruct (vt_kind vt); reflexivity. }
  assert (Hm : has_memory nv).
  { intros idx Hi. rewrite Hn. unfold new_room. cbn [v_ext v_str nv] in Hi |- *.
    unfold nv. cbn [v_str].
    destruct (vt_kind vt); try now apply natural_bound.
    apply wsp; auto. }
  assert (Hk : kept E (vt_elem vt) nv nv).
  { split; [repeat split; auto|]. cbn [v_data nv]. apply Forall_forall. intros x Hx.
    apply repeat_spec in Hx. subst. eapply dflt_valid; eauto. }
  assert (Huse : forall v, kept E (vt_elem vt) nv v -> dyn_usable E vt v).
  { intros v Hv. right. split; [|split; [|split]].
    - destruct Hv as ((_ & -> & _) & _). exact Hlen.
    - destruct Hv as ((_ & _ & _ & -> & _) & _). auto.
    - eapply kept_memory; eauto.
    - apply Hv. }
  match goal with |- runs _ (fun f => bind _ (@?k f)) _ _ _ => eapply (runs_bind U _ _ _ k) end.
  { eapply x_bool; eauto. intros c s' Hc Hb. apply HD. exists label, rank, l, ext, n, c, s'.
    repeat (split; [assumption|]). split; [now rewrite Hst, Hc|]. split; auto. }
  intros cg vf5 s5 _ Hs5. cbn beta.
  match goal with |- runs _ (fun f => bind _ (@?k f)) _ _ _ => eapply (runs_bind U _ _ _ k) end.
  { eapply x_bool; eauto. intros c s' Hc Hb. apply HD.
    exists label, rank, l, ext, n, (if cg then x01 else x00), s5.
    repeat (split; [assumption|]). split; [now rewrite Hst, Hs5|]. split; auto. right. exists c, s'. auto. }
  intros ini vf6 s6 _ Hs6. cbn beta. destruct ini; [|apply runs_ret; auto].
  destruct cg.
  - eapply runs_impl; [|intros v s' _; apply Huse].
    eapply run_data; eauto. intros Hlt. apply HD.
    exists label, rank, l, ext, n, x01, s5. repeat (split; [assumption|]).
    split; [now rewrite Hst, Hs5|]. split; auto. right. exists x01, s6. split; auto. right.
    repeat split; auto. now rewrite <- Hn.
  - destruct (Nat.leb_spec 1 (N.to_nat rank)) as [Hr1|Hr1]; cbn [andb].
    2:{ destruct (asserts E); [now apply runs_fail|apply runs_ret; auto]. }
    destruct (Nat.leb_spec (N.to_nat rank) 7) as [Hr7|Hr7].
    2:{ destruct (asserts E); [now apply runs_fail|apply runs_ret; auto]. }
    eapply runs_impl; [|intros v s' _; apply Huse].
    eapply runs_peq.
    { intros f. rewrite manual_nest by lia. apply nest_foldP. }
    apply (runs_foldP U _ _ (fun f s idx => visit E MUnpacking (R f) (vt_elem vt) idx s)
      (fun v _ => kept E (vt_elem vt) nv v)); auto.
    intros v idx vf7 s7 Hin _ Hv. eapply run_visit_at; eauto.
    apply in_indices in Hin. change (v_ext nv) with ext in Hin.
    intros Hout. destruct (Nat.le_gt_cases (length ext) (N.to_nat rank)) as [Hge|Hlt].
    + exfalso. destruct (more_bounds ext (N.to_nat rank) idx (v_str nv) Hge Hslen Hin) as (idx' & Hi' & Ho).
      rewrite Ho in Hout. specialize (Hm idx' Hi'). lia.
    + apply HA. exists label, rank, l, ext, n, s6, idx.
      repeat (split; [assumption|]). split; [rewrite Hst, Hs5, Hs6; now rewrite <- ?app_assoc|].
      split; [lia|]. split; [unfold len; lia|]. split; auto.
      rewrite <- Hstr, <- Hn. exact Hout.
Qed.

Lemma run_root_dyn_view : forall vt d w s, T (vt_elem vt) -> dflt E (vt_elem vt) = Some d ->
  (dyn_damaged E span vt s -> U) -> (dyn_astray E span vt s -> U) ->
  ends (caught U) (fun f => root_dyn_view E span f MUnpacking vt w) false s (fun v _ => dyn_usable E vt v).
Proof.
  intros vt d w s Ht Hd HD HA. unfold root_dyn_view.
  eapply (ends_root (caught U) _ (vt_name vt) _ s (fun v _ => dyn_usable E vt v)); auto.
  { intros t e. destruct e; cbn; auto. }
  intros s1 Hs. apply (ends_runs (caught U) U); [auto|]. eapply run_dyn_view; eauto.
Qed.

(** ** Views of dynamic size *)
Lemma chunks_enough : forall p a b, 0 < p -> chunks_for p a < chunks_for p b <-> exists q, a <= q * p /\ q * p < b.
Proof.
  intros p a b Hp. unfold chunks_for. split.
  - intros H. exists ((a + (p - 1)) / p). split.
    + pose proof (N.div_mod (a + (p - 1)) p ltac:(lia)). pose proof (N.mod_lt (a + (p - 1)) p ltac:(lia)).
      rewrite N.mul_comm. lia.
    + pose proof (N.div_mod (b + (p - 1)) p ltac:(lia)). pose proof (N.mod_lt (b + (p - 1)) p ltac:(lia)).
      set (x := (a + (p - 1)) / p) in *. set (y := (b + (p - 1)) / p) in *.
      assert (Hxy : (x + 1) * p <= y * p) by (apply N.mul_le_mono_r; lia).
      rewrite N.mul_add_distr_r, N.mul_1_l in Hxy. rewrite (N.mul_comm p y) in H0.
      clearbody x y. generalize dependent ((b + (p - 1)) mod p). intros. lia.
  - intros (q & H1 & H2). eapply N.le_lt_trans with (m := q).
    + apply N.lt_succ_r. apply N.div_lt_upper_bound; [lia|]. rewrite N.mul_succ_r, (N.mul_comm p q). lia.
    + apply N.le_succ_l. apply N.div_le_lower_bound; [lia|]. rewrite N.mul_succ_r, (N.mul_comm p q). lia.
Qed.

Lemma rounded_log : forall c p, rounded c p <-> p = 2 ^ N.log2_up c.
Proof.
  intros c p. split.
  - intros ((e & ->) & H1 & H2). f_equal.
    destruct (N.le_gt_cases c 1) as [Hc|Hc].
    + assert (H0 : 0 < 2 ^ e) by (apply N.neq_0_lt_0, N.pow_nonzero; lia).
      assert (He : 2 ^ e = 1) by (destruct H2 as [H2|H2]; [exact H2|]; generalize dependent (2 ^ e); intros; lia).
      assert (e = 0).
      { destruct (N.eq_0_gt_0_cases e) as [X|X]; auto. exfalso.
        assert (X2 : 2 ^ 1 <= 2 ^ e) by (apply N.pow_le_mono_r; lia). rewrite He in X2. cbn in X2. lia. }
      subst e. assert (c = 0 \/ c = 1) as [->| ->] by lia; reflexivity.
    + destruct H2 as [H2|H2]; [lia|]. symmetry. apply N.log2_up_unique; [|split; auto].
      * destruct e; [cbn in H1; lia|lia].
      * assert (e <> 0) by (intros ->; cbn in H1; lia).
        replace e with (N.succ (N.pred e)) in H2 by lia. rewrite N.pow_succ_r in H2 by lia. lia.
  - intros ->. split; [eauto|]. destruct (N.le_gt_cases c 1) as [Hc|Hc].
    + assert (c = 0 \/ c = 1) as [->| ->] by lia; cbn; split; auto; lia.
    + pose proof (N.log2_up_spec c Hc) as (H1 & H2). split; auto. right.
      assert (0 < N.log2_up c) by (apply N.log2_up_pos; lia).
      replace (N.log2_up c) with (N.succ (N.pred (N.log2_up c))) at 1 by lia.
      rewrite N.pow_succ_r by lia. lia.
Qed.

Definition stopped (name : ty) (d : bytes) (e : fail) : Prop :=
  caught U e \/ (e = Terminate /\ too_small E name d).

Lemma run_dynamic_view : forall name t d w vf s s0, T t -> dflt E t = Some d ->
  s0 = le 4 (tix E name) ++ s ->
  ends (stopped name s0) (fun f => ser_dynamic_view E MUnpacking (R f) t w) vf s (fun v _ => dynamic_usable E t v).
Proof.
  intros name t d w vf s s0 Ht Hd Hs0. unfold ser_dynamic_view. cbn [is_unpacking].
  assert (HC : forall e, caught U e -> stopped name s0 e) by (intros; now left).
  match goal with |- ends _ (fun f => bind _ (@?k f)) _ _ _ => eapply (ends_bind _ _ _ _ k) end;
    [eapply ends_runs; [exact HC|]; eapply x_label; eauto|].
  intros label vf1 s1 (H1 & Hs1). cbn beta.
  match goal with |- ends _ (fun f => bind _ (@?k f)) _ _ _ => eapply (ends_bind _ _ _ _ k) end;
    [eapply ends_runs; [exact HC|]; eapply x_size; eauto|].
  intros chunk vf2 s2 (H2 & Hs2). cbn beta.
  match goal with |- ends _ (fun f => bind _ (@?k f)) _ _ _ => eapply (ends_bind _ _ _ _ k) end;
    [eapply ends_runs; [exact HC|]; eapply x_size; eauto|].
  intros mx vf3 s3 (H3 & Hs3). cbn beta.
  match goal with |- ends _ (fun f => bind _ (@?k f)) _ _ _ => eapply (ends_bind _ _ _ _ k) end;
    [eapply ends_runs; [exact HC|]; eapply x_size; eauto|].
  intros n vf4 s4 (H4 & Hs4). cbn beta zeta.
  set (p := 2 ^ N.log2_up (wrap32 chunk)).
  assert (Hp : 0 < p) by (apply N.neq_0_lt_0, N.pow_nonzero; lia).
  destruct (N.ltb_spec (chunks_for p (wrap32 mx)) (chunks_for p n)) as [Hlt|Hge].
  { cbn [bind]. apply ends_fail. right. split; auto.
    apply chunks_enough in Hlt; auto. destruct Hlt as (q & Hq1 & Hq2).
    exists label, chunk, mx, n, s4, p, q. repeat (split; [assumption|]).
    split. { unfold chunk_start. rewrite Hs0, Hs1, Hs2, Hs3, Hs4. now rewrite <- !app_assoc. }
    split; [now apply rounded_log|]. split; auto. }
  rewrite Hd. cbn [of_opt bind d_elems d_label d_chunk d_chunks]. eapply ends_runs; [exact HC|].
  set (nv := {| v_label := label; v_ext := _ |}).
  assert (Hln : len (repeat d (N.to_nat n)) = n) by (unfold len; rewrite repeat_length, N2Nat.id; auto).
  assert (Hm : has_memory nv).
  { intros idx Hi. unfold nv in *. cbn [v_ext v_str v_data] in *. inversion Hi as [|i ? r ? Hlt Hr]; subst.
    inversion Hr; subst. cbn [offset]. lia. }
  assert (Hk : kept E t nv nv).
  { split; [repeat split; auto|]. cbn [v_data nv]. apply Forall_forall. intros x Hx.
    apply repeat_spec in Hx. subst. eapply dflt_valid; eauto. }
  match goal with |- runs _ (fun f => bind _ (@?k f)) _ _ _ => eapply (runs_bind U _ _ _ k) end.
  { pose proof (run_manual E wf T rd U HU t d nv Ht Hd Hm vf4 s4 Hk) as Hrun.
    apply Hrun. cbn. lia. }
  intros v vf5 s5 _ ((_ & _ & _ & _ & Hl) & Hv). apply runs_ret. constructor; cbn [d_chunk d_chunks d_elems].
  - unfold p. eauto.
  - assert (Hlv : len (v_data v) = n) by (unfold len; rewrite Hl; unfold nv; cbn [v_data]; exact Hln).
    rewrite Hlv. destruct (N.le_gt_cases n (chunks_for p (wrap32 mx) * p)) as [Hok|Hbad]; auto. exfalso.
    assert (chunks_for p (wrap32 mx) < chunks_for p n); [|lia].
    apply chunks_enough; auto. exists (chunks_for p (wrap32 mx)). split; auto.
    unfold chunks_for. pose proof (N.div_mod (wrap32 mx + (p - 1)) p ltac:(lia)).
    pose proof (N.mod_lt (wrap32 mx + (p - 1)) p ltac:(lia)). rewrite N.mul_comm. lia.
  - exact Hv.
Qed.

Lemma run_root_dynamic_view : forall name t d w s, T t -> dflt E t = Some d ->
  ends (stopped name s) (fun f => root_dynamic_view E f MUnpacking name t w) false s (fun v _ => dynamic_usable E t v).
Proof.
  intros name t d w s Ht Hd. unfold root_dynamic_view.
  eapply (ends_root (stopped name s) _ name _ s (fun v _ => dynamic_usable E t v)); auto.
  { intros e; now left. }
  { intros t0 e [He|(-> & He)]; [left; destruct e; cbn in *; auto|right; auto]. }
  intros s1 Hs. eapply run_dynamic_view; eauto.
Qed.

(** ** Maps *)
Lemma pairs_perm : forall A (P : A -> A -> Prop), (forall x y, P x y -> P y x) ->
  forall l l', Permutation l l' -> ForallOrdPairs P l -> ForallOrdPairs P l'.
Proof.
  intros A P Hs l l' Hp. induction Hp as [|x l l' Hp IH|x y l|l l' l'' H1 IH1 H2 IH2]; intros H; auto.
  - inversion H; subst. constructor; auto. eapply Permutation_Forall; eauto.
  - inversion H as [|? ? Hy Hr]; subst. inversion Hr as [|? ? Hx Hl]; subst. inversion Hy; subst.
    constructor; [constructor; auto|constructor; auto].
Qed.

Lemma kinsert_usable : forall K kt vt mp k v, safe_kokkos E kt vt K -> map_usable E K kt vt mp ->
  Robust.valid E kt k -> Robust.valid E vt v -> map_usable E K kt vt (kinsert K mp k v).
Proof.
  intros K kt vt mp k v HK Hmp Hk Hv. unfold kinsert. destruct (kfind K mp k) as [s|] eqn:Hf; [exact Hmp|].
  destruct (k_place K mp k) as [i|] eqn:Hp; [|exact Hmp].
  set (ns := {| s_key := k; s_val := v; s_occ := true |}).
  destruct (nth_error mp i) as [s|] eqn:Hi.
  2:{ replace (upd mp i ns) with mp; [exact Hmp|]. clear -Hi. revert i Hi.
      induction mp; intros [|i] Hi; cbn [upd nth_error] in *; auto; try discriminate. f_equal. auto. }
  pose proof (KMap.occupied_upd mp i s ns Hi (sk_place _ _ _ _ HK _ _ _ _ Hp Hi) eq_refl) as Hperm.
  constructor.
  - eapply Permutation_Forall; [exact Hperm|]. constructor; [now split|]. apply Hmp.
  - eapply pairs_perm; [|exact Hperm|].
    { intros x y. now rewrite (sk_sym _ _ _ _ HK). }
    constructor; [|apply Hmp]. apply Forall_forall. intros s' Hs'. apply filter_In in Hs'.
    destruct Hs' as (Hin & Ho). unfold kfind in Hf. pose proof (find_none _ _ Hf s' Hin) as H. cbn beta in H.
    now rewrite Ho in H.
Qed.

Lemma run_kmap : forall K kt vt mp vf s, safe_kokkos E kt vt K -> map_usable E K kt vt mp ->
  T kt -> T vt -> constructible E kt -> constructible E vt ->
  runs U (fun f => ser_kmap E K MUnpacking (R f) kt vt mp) vf s (fun mp' _ => map_usable E K kt vt mp').
Proof.
  intros K kt vt mp vf s HK Hmp Hkt Hvt Hck Hcv. unfold ser_kmap. cbn [is_unpacking].
  match goal with |- runs _ (fun f => bind _ (@?k f)) _ _ _ => eapply (runs_bind U _ _ _ k) end;
    [apply x_unsigned|].
  intros size vf1 s1 _ _. cbn beta.
  match goal with |- runs _ (fun f => bind _ (@?k f)) _ _ _ => eapply (runs_bind U _ _ _ k) end;
    [apply x_unsigned|].
  intros cap vf2 s2 _ _. cbn beta. unfold deser_kmap_elems.
  match goal with |- runs _ (fun f => foldP (@?g f) _ _) _ _ _ =>
    apply (runs_foldP U _ _ g (fun m _ => map_usable E K kt vt m)) end.
  { now apply (sk_rehash _ _ _ _ HK). }
  intros b [] vf3 s3 _ _ Hb. cbn beta.
  match goal with |- runs _ (fun f => bind (@?p f) (@?k f)) _ _ _ =>
    eapply (runs_bind U _ _ p k vf3 s3 (fun o _ => Robust.valid E kt o)) end.
  { eapply runs_construct; eauto. }
  intros k0 vf4 s4 _ Hk0. cbn beta.
  match goal with |- runs _ (fun f => bind (@?p f) (@?k f)) _ _ _ =>
    eapply (runs_bind U _ _ p k vf4 s4 (fun o _ => Robust.valid E vt o)) end.
  { eapply runs_construct; eauto. }
  intros v0 vf5 s5 _ Hv0. cbn beta.
  match goal with |- runs _ (fun f => bind (@?p f) (@?k f)) _ _ _ =>
    eapply (runs_bind U _ _ p k vf5 s5 (fun o _ => Robust.valid E kt o)) end.
  { eapply run_one; eauto. }
  intros k vf6 s6 _ Hk. cbn beta.
  match goal with |- runs _ (fun f => bind (@?p f) (@?k f)) _ _ _ =>
    eapply (runs_bind U _ _ p k vf6 s6 (fun o _ => Robust.valid E vt o)) end.
  { eapply run_one; eauto. }
  intros v vf7 s7 _ Hv. cbn beta.
  unfold leave. destruct (movec E kt), (movec E vt); repeat apply runs_note; apply runs_ret; now apply kinsert_usable.
Qed.

Lemma run_root_kmap : forall K name kt vt mp s, safe_kokkos E kt vt K -> map_usable E K kt vt mp ->
  T kt -> T vt -> constructible E kt -> constructible E vt ->
  ends (caught U) (fun f => root_kmap E K f name kt vt MUnpacking mp) false s (fun mp' _ => map_usable E K kt vt mp').
Proof.
  intros K name kt vt mp s HK Hmp Hkt Hvt Hck Hcv. unfold root_kmap.
  eapply (ends_root (caught U) _ name _ s (fun mp' _ => map_usable E K kt vt mp')); auto.
  { intros t e. destruct e; cbn; auto. }
  intros s1 Hs. apply (ends_runs (caught U) U); [auto|]. eapply run_kmap; eauto.
Qed.
End Damage.

(** ** The converses *)
Section Converse.
Variable E : env.
Hypothesis wf : wf_env any E.
Variable span : list N -> list N -> N.
Variable f : nat.
Hypothesis Hf : (2 < f)%nat.
Notation m := MUnpacking.
Notation rec := (with_ E m f).
Notation rdr := (reader RtErr).
Let UA := proj1 (unpack_all any E wf Cany N.le Cany_any Cany_max f).
Let Hf1 : (1 <= f)%nat. Proof. lia. Qed.

(** An error that is not an exception passes through. *)
Lemma root_fails : forall A name (p : prog A) s e, (forall t, bump t e = e) ->
  interp rdr p false s = Err e ->
  interp rdr (root_object E m name p) false (le 4 (tix E name) ++ s) = Err e.
Proof.
  intros A name p s e He Hp. unfold root_object, as_object. destruct (chk E).
  - rewrite (after_reads _ _ _ _ _ _ tt false) by (apply r_idx; auto).
    rewrite interp_bind. erewrite interp_catch_err; eauto; [now rewrite He|].
    intros i b s0 e0 H. cbn [contig reader] in H.
    destruct (split_at (length b) s0) as [[? ?]|]; inversion H; subst. reflexivity.
  - rewrite (after_reads _ _ _ _ _ _ tt false) by (apply r_idx; auto).
    rewrite interp_bind, Hp. reflexivity.
Qed.

Lemma root_dyn_undefined : forall vt d w s, dflt E (vt_elem vt) = Some d -> dyn_damaged E span vt s ->
  interp rdr (root_dyn_view E span f m vt w) false s = Err UB.
Proof.
  intros vt d w s Hd (label & rank & l & ext & n & c & rest & H1 & H2 & H3 & Hext & H4 & -> & Hne & Hbad).
  unfold dyn_start, root_dyn_view. rewrite <- !app_assoc. apply root_fails; [reflexivity|].
  unfold ser_dyn_view. cbn [is_unpacking].
  rewrite (after_reads _ _ _ _ _ _ label false) by now apply r_label.
  rewrite (after_reads _ _ _ _ _ _ rank false) by (apply (u_word E Cany N.le rec f UA); auto).
  rewrite (after_reads _ _ _ _ _ _ (fst l, match vt_kind vt with LStride => snd l | _ => repeat 0 8 end) false).
  2:{ apply r_layout; auto. destruct H3 as (L1 & L2 & L3 & L4). repeat split; auto. }
  rewrite (after_reads _ _ _ _ _ _ n false) by (apply (u_size E Cany N.le rec f UA); auto).
  replace ((rank =? 0) && (n =? 0)) with false
    by (destruct (N.eqb_spec rank 0), (N.eqb_spec n 0); cbn; auto; destruct Hne; contradiction).
  cbn [fst snd]. rewrite (extents_unique _ _ Hext). unfold new_view. rewrite Hd. cbn [of_opt bind].
  destruct (bool_or_not c) as [Hc|(cb & Hc)]; [now apply bad_bool|].
  destruct Hbad as [(B0 & B1)|(i & rest' & -> & Hbad)]; [destruct cb; contradiction|].
  rewrite Hc, <- wbool_flag.
  rewrite (after_reads _ _ _ _ _ _ cb false) by (apply (u_bool E Cany N.le rec f UA); auto).
  destruct (bool_or_not i) as [Hi|(ib & Hi)]; [now apply bad_bool|].
  destruct Hbad as [(B0 & B1)|(B0 & B1 & B2)]; [destruct ib; contradiction|].
  rewrite Hi, <- wbool_flag.
  rewrite (after_reads _ _ _ _ _ _ ib false) by (apply (u_bool E Cany N.le rec f UA); auto).
  destruct ib; [|congruence]. destruct cb; [|congruence].
  unfold ser_data. cbn [v_data]. unfold len. rewrite repeat_length, N2Nat.id.
  unfold new_room in B2. destruct (vt_kind vt);
    match goal with |- interp _ (if ?a <? ?b then _ else _) _ _ = _ => destruct (N.ltb_spec a b) end;
    try reflexivity; lia.
Qed.

Lemma root_dynamic_stops : forall name t w s, too_small E name s ->
  interp rdr (root_dynamic_view E f m name t w) false s = Err Terminate.
Proof.
  intros name t w s (label & chunk & mx & n & rest & p & q & H1 & H2 & H3 & H4 & -> & Hp & Hq & Hn).
  unfold chunk_start, root_dynamic_view. rewrite <- !app_assoc. apply root_fails; [reflexivity|].
  unfold ser_dynamic_view. cbn [is_unpacking].
  rewrite (after_reads _ _ _ _ _ _ label false) by now apply r_label.
  rewrite (after_reads _ _ _ _ _ _ chunk false) by (apply (u_size E Cany N.le rec f UA); auto).
  rewrite (after_reads _ _ _ _ _ _ mx false) by (apply (u_size E Cany N.le rec f UA); auto).
  rewrite (after_reads _ _ _ _ _ _ n false) by (apply (u_size E Cany N.le rec f UA); auto).
  cbn zeta. apply rounded_log in Hp. change (2 ^ N.log2_up (wrap32 chunk)) with (2 ^ N.log2_up (chunk mod 2 ^ 32)).
  rewrite <- Hp.
  assert (Hlt : chunks_for p (wrap32 mx) < chunks_for p n).
  { apply chunks_enough; [|exists q; auto]. rewrite Hp. apply N.neq_0_lt_0, N.pow_nonzero. lia. }
  apply N.ltb_lt in Hlt. rewrite Hlt. reflexivity.
Qed.
End Converse.
