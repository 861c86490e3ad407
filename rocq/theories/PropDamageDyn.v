(** C72 for views of dynamic rank, views of dynamic size and maps. *)
From Coq Require Import List NArith Arith Bool Lia.
From Coq.Strings Require Import Byte.
From Verif Require Import Base Syntax Prog Serializers Traverse Spec ProgFacts EnvFacts
  RegistryFacts Unpack Api ApiFacts Examples Robust RobustFacts PropRobust Views ViewSpec ViewFacts
  ViewRound ObjectIO PropViews PropMemory Damage DamageDyn.
Import ListNotations.
Local Open Scope N_scope.

(** How a call that reads an object from the bytes [d] may end: with an object that satisfies [Q],
    having consumed a prefix of the stream, or with an error out of [C]. *)
Definition may_end {A} (C : fail -> Prop) (Q : A -> Prop) (d : bytes) (r : res (A * istream)) : Prop :=
  match r with
  | Ok (x, i) => Q x /\ exists used, d = used ++ i_data i
  | Err e => C e
  end.

Lemma from_stream_ends : forall (C : fail -> Prop) A (p : nat -> prog A) (Q : A -> Prop) d,
  ends C p false d (fun a _ => Q a) ->
  exists f0 r, (forall f, (f0 <= f)%nat -> object_from_stream (p f) (in_stream d) = r) /\ may_end C Q d r.
Proof.
  intros C A p Q d (f0 & r & Hrun & Hq). destruct r as [[[x vf'] r]|e].
  - exists f0, (Ok (x, {| i_data := r; i_nbytes := wrap64 (0 + (len d - len r)) |})). split.
    + intros f Hf. unfold object_from_stream, in_stream.
      pose proof (stream_reader _ (p f) false d 0) as Hs.
      rewrite (Hrun f Hf) in Hs. destruct Hs as (Hs & _).
      change (wrap64 0) with 0 in Hs. rewrite Hs. reflexivity.
    + cbn [may_end i_data]. split; auto.
      specialize (Hrun f0 (Nat.le_refl _)). apply reader_local in Hrun.
      destruct Hrun as (i & -> & _). eauto.
  - exists f0, (Err e). split; auto.
    intros f Hf. unfold object_from_stream, in_stream.
    pose proof (stream_reader _ (p f) false d 0) as Hs.
    rewrite (Hrun f Hf) in Hs. change (wrap64 0) with 0 in Hs. rewrite Hs. reflexivity.
Qed.

(** ** Views of dynamic rank *)

(** Full statement: never undefined behaviour.  This is false of [dyn_damaged] data, see
    [C72_dyn_rank_undefined], of [dyn_astray] data, see [C72_dyn_rank_refuted], and of the flags
    inside of elements, see C56. *)
Theorem C72_dyn_rank_partial : forall E, wf_env any E -> forall T, Robust.readable E T ->
  forall span vt w d, wf_span span -> T (vt_elem vt) -> dflt E (vt_elem vt) <> None ->
  exists f0 r, (forall f, (f0 <= f)%nat ->
      object_from_stream (root_dyn_view E span f MUnpacking vt w) (in_stream d) = r) /\
    may_end (caught (flagged T \/ dyn_damaged E span vt d \/ dyn_astray E span vt d))
      (dyn_usable E vt) d r.
Proof.
  intros E wf T rd span vt w d Hsp Ht Hd.
  destruct (dflt E (vt_elem vt)) as [d0|] eqn:Hdf; [clear Hd|congruence].
  apply from_stream_ends. eapply run_root_dyn_view; eauto.
  intros t H1 H2. left. exists t. auto.
Qed.
Print Assumptions C72_dyn_rank_partial.

Theorem C72_dyn_rank_undefined : forall E, wf_env any E -> forall span vt w f d, (2 < f)%nat ->
  dflt E (vt_elem vt) <> None -> dyn_damaged E span vt d ->
  object_from_stream (root_dyn_view E span f MUnpacking vt w) (in_stream d) = Err UB.
Proof.
  intros E wf span vt w f d Hf Hd Hdam.
  destruct (dflt E (vt_elem vt)) as [d0|] eqn:Hdf; [clear Hd|congruence].
  unfold object_from_stream, in_stream.
  pose proof (stream_reader _ (root_dyn_view E span f MUnpacking vt w) false d 0) as Hs.
  rewrite (root_dyn_undefined E wf span f Hf vt d0 w d Hdf Hdam) in Hs.
  change (wrap64 0) with 0 in Hs. rewrite Hs. reflexivity.
Qed.
Print Assumptions C72_dyn_rank_undefined.

(** ** Views of dynamic size *)

(** Full statement: never undefined behaviour.  This is false only of the flags inside of elements.
    The program is ended when the data has more elements than chunks. *)
Theorem C72_dynamic_partial : forall E, wf_env any E -> forall T, Robust.readable E T ->
  forall name t w d, T t -> dflt E t <> None ->
  exists f0 r, (forall f, (f0 <= f)%nat ->
      object_from_stream (root_dynamic_view E f MUnpacking name t w) (in_stream d) = r) /\
    may_end (fun e => caught (flagged T) e \/ (e = Terminate /\ too_small E name d))
      (dynamic_usable E t) d r.
Proof.
  intros E wf T rd name t w d Ht Hd.
  destruct (dflt E t) as [d0|] eqn:Hdf; [clear Hd|congruence].
  apply from_stream_ends. eapply run_root_dynamic_view; eauto.
  intros t' H1 H2. exists t'. auto.
Qed.
Print Assumptions C72_dynamic_partial.

Theorem C72_dynamic_stops : forall E, wf_env any E -> forall name t w f d, (2 < f)%nat ->
  too_small E name d ->
  object_from_stream (root_dynamic_view E f MUnpacking name t w) (in_stream d) = Err Terminate.
Proof.
  intros E wf name t w f d Hf Hsm. unfold object_from_stream, in_stream.
  pose proof (stream_reader _ (root_dynamic_view E f MUnpacking name t w) false d 0) as Hs.
  rewrite (root_dynamic_stops E wf f Hf name t w d Hsm) in Hs.
  change (wrap64 0) with 0 in Hs. rewrite Hs. reflexivity.
Qed.
Print Assumptions C72_dynamic_stops.

(** ** Maps *)

(** Full statement: never undefined behaviour.  This is false only of the flags inside of keys
    and values. *)
Theorem C72_map_partial : forall E, wf_env any E -> forall T, Robust.readable E T ->
  forall K name kt vt mp d, safe_kokkos E kt vt K -> map_usable E K kt vt mp ->
  T kt -> T vt -> constructible E kt -> constructible E vt ->
  exists f0 r, (forall f, (f0 <= f)%nat ->
      object_from_stream (root_kmap E K f name kt vt MUnpacking mp) (in_stream d) = r) /\
    may_end (caught (flagged T)) (map_usable E K kt vt) d r.
Proof.
  intros E wf T rd K name kt vt mp d HK Hmp Hkt Hvt Hck Hcv.
  apply from_stream_ends. eapply run_root_kmap; eauto.
  intros t' H1 H2. exists t'. auto.
Qed.
Print Assumptions C72_map_partial.

(** ** Cases *)

(** Data that says rank 1, not contiguous, with extents 2 and 0 and one element. *)
Definition astray_bytes (E : env) : bytes :=
  dyn_start E (ex_vt OINT 7 LRight false) [x61] 1 ([2; 0] ++ repeat no_dim 6, repeat 0 8) 0 ++
  flag E x00 ++ flag E x01 ++ enc E OINT (i_ 5) ++ repeat x00 16.

Theorem C72_dyn_rank_refuted : exists E T span vt d f, wf_env any E /\ Robust.readable E T /\ wf_span span /\
  T (vt_elem vt) /\ by_flag (vt_elem vt) = false /\ dyn_astray E span vt d /\
  object_from_stream (root_dyn_view E span f MUnpacking vt no_view) (in_stream d) = Err UB.
Proof.
  exists pl, in_plain, ex_span, (ex_vt OINT 7 LRight false), (astray_bytes pl), 3%nat.
  split; [apply pl_wf|]. split; [apply plain_readable|]. split; [apply ex_span_wf|].
  split; [unfold in_plain; ins|]. split; [reflexivity|]. split.
  - exists [x61], 1, ([2; 0] ++ repeat no_dim 6, repeat 0 8), [2; 0], 0, (enc pl OINT (i_ 5) ++ repeat x00 16), [1].
    split; [reflexivity|]. split; [repeat split; repeat constructor|].
    split; [exists (repeat no_dim 6); split; [reflexivity|split; [repeat constructor; discriminate|reflexivity]]|].
    split; [reflexivity|]. split; [reflexivity|]. split; [lia|]. split; [reflexivity|].
    split; [repeat constructor|]. vm_compute. discriminate.
  - vm_compute. reflexivity.
Qed.
Print Assumptions C72_dyn_rank_refuted.

Lemma i_eq_sym : forall a b, i_eq a b = i_eq b a.
Proof.
  intros [x| | | | | | | |] [y| | | | | | | |]; auto. cbn [i_eq].
  revert y. induction x as [|a x IH]; intros [|b y]; auto. cbn [eqb_bytes]. rewrite IH. f_equal.
  destruct (Byte.eqb a b) eqn:H; symmetry.
  - apply Byte.byte_dec_bl in H. subst. apply Byte.byte_dec_lb. auto.
  - apply not_true_is_false. intros H'. apply Byte.byte_dec_bl in H'. subst.
    rewrite (Byte.byte_dec_lb (eq_refl a)) in H. discriminate.
Qed.

Lemma safe_ex_map : safe_kokkos pl OINT OINT ex_map.
Proof.
  constructor.
  - intros a b. apply i_eq_sym.
  - intros mp n (H1 & H2). cbn [k_rehash ex_map].
    assert (Ho : occupied (occupied mp ++ repeat empty_slot (N.to_nat (n - len (occupied mp)))) = occupied mp).
    { unfold occupied at 1. rewrite filter_app.
      replace (filter s_occ (repeat empty_slot _)) with (@nil slot) by (induction (N.to_nat _); auto).
      rewrite app_nil_r. clear. unfold occupied. induction mp as [|s mp IH]; auto. cbn [filter].
      destruct (s_occ s) eqn:Hs; [cbn [filter]; rewrite Hs; f_equal|]; apply IH. }
    constructor; now rewrite Ho.
  - intros mp k. cbn [k_place ex_map]. induction mp as [|s mp IH]; intros i s' Hi Hn; cbn [first_free] in Hi; [discriminate|].
    destruct (s_occ s) eqn:Hs.
    + destruct (first_free mp) as [j|]; [|discriminate]. cbn in Hi. injection Hi as <-.
      eapply IH; eauto.
    + injection Hi as <-. cbn in Hn. congruence.
Qed.

(** The hypotheses hold of strings and integers; reading arbitrary bytes as a map of integers is
    never undefined behaviour. *)
Example C72_dyn_hypotheses : wf_env any pl /\ Robust.readable pl in_plain /\ wf_span ex_span /\
  in_plain OINT /\ dflt pl OINT <> None /\ constructible pl OINT /\
  safe_kokkos pl OINT OINT ex_map /\ map_usable pl ex_map OINT OINT ex_kmap.
Proof.
  split; [apply pl_wf|]. split; [apply plain_readable|]. split; [apply ex_span_wf|].
  split; [unfold in_plain; ins|]. split; [discriminate|]. split; [discriminate|].
  split; [apply safe_ex_map|].
  constructor; change (occupied ex_kmap) with [slot_ 3 30; slot_ 5 50];
    repeat constructor.
Qed.

(** Data of a view of dynamic rank and of a view of dynamic size: read back, and changed so that
    it is undefined behaviour and ends the program. *)
Definition dyn_bytes (E : env) (n : N) : bytes :=
  dyn_start E (ex_vt OINT 7 LRight false) [x61] 1 ([2] ++ repeat no_dim 7, repeat 0 8) n ++
  flag E x01 ++ flag E x01 ++ framed E OINT 2 (le 4 7 ++ le 4 8) ++
  le 8 (wrap64 (sizeof E (TPrim 90 24) * 1)).
Example C72_dyn_case : forall w,
  dyn_damaged pl ex_span (ex_vt OINT 7 LRight false) (dyn_bytes pl 3) /\
  object_from_stream (root_dyn_view pl ex_span 3 MUnpacking (ex_vt OINT 7 LRight false) w)
    (in_stream (dyn_bytes pl 3)) = Err UB /\
  exists x i, object_from_stream (root_dyn_view pl ex_span 3 MUnpacking (ex_vt OINT 7 LRight false) no_view)
    (in_stream (dyn_bytes pl 2)) = Ok (x, i) /\ v_data x = [i_ 7; i_ 8] /\ i_data i = [].
Proof.
  intros w. assert (Hd : dyn_damaged pl ex_span (ex_vt OINT 7 LRight false) (dyn_bytes pl 3)).
  { do 3 eexists. exists [2]. do 3 eexists.
    split; [|split; [|split; [|split; [|split; [|split; [reflexivity|split]]]]]].
    - reflexivity.
    - reflexivity.
    - repeat split; repeat constructor.
    - exists (repeat no_dim 7). split; [reflexivity|split; [repeat constructor; discriminate|reflexivity]].
    - reflexivity.
    - left. discriminate.
    - right. do 2 eexists. split; [reflexivity|]. right. split; [reflexivity|]. split; [reflexivity|]. reflexivity. }
  split; [exact Hd|]. split.
  - apply C72_dyn_rank_undefined; auto; [apply pl_wf|discriminate].
  - do 2 eexists. split; [vm_compute; reflexivity|]. split; reflexivity.
Qed.

Definition size_bytes (E : env) (n : N) : bytes :=
  chunk_start E (TPrim 93 64) [x61] 4 4 n ++ repeat x00 8.
Example C72_dynamic_case : forall w,
  object_from_stream (root_dynamic_view pl 3 MUnpacking (TPrim 93 64) OINT w) (in_stream (size_bytes pl 5))
    = Err Terminate.
Proof.
  intros w. apply C72_dynamic_stops; [apply pl_wf|lia|].
  exists [x61], 4, 4, 5, (repeat x00 8), 4, 1.
  split; [reflexivity|]. split; [reflexivity|]. split; [reflexivity|]. split; [reflexivity|]. split; [reflexivity|].
  split; [|split; [vm_compute; discriminate|reflexivity]].
  split; [exists 2; reflexivity|]. split; [vm_compute; discriminate|]. right. reflexivity.
Qed.
