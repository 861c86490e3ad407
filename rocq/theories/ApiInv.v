(** What successful and failing API calls say about the bytes involved. *)
From Coq Require Import List NArith Arith Bool Lia.
From Coq.Strings Require Import Byte.
From Verif Require Import Base Syntax Prog Serializers Traverse Spec ProgFacts EnvFacts ValFacts
  Pack Unpack Api ApiFacts Fails.
Import ListNotations.
Local Open Scope N_scope.

(** The frame around a root object is there in both build modes. *)
Definition root_frame (E : env) (t : ty) (body : bytes) : bytes :=
  le 4 (tix E t) ++ body ++ le 8 (wrap64 (sizeof E t)).

Lemma enc_root_frame : forall E t v, enc_root E t v = root_frame E t (encb E t v).
Proof.
  intros. unfold enc_root, enc, framed, root_frame. destruct (chk E) eqn:Ec; auto.
  now rewrite N.mul_1_r.
Qed.

Lemma emits_catch_inv : forall A t (p : prog A) vf a vf' out,
  emits (catch t p) vf a vf' out -> emits p vf a vf' out.
Proof.
  intros * H. specialize (H []). apply interp_catch_inv in H.
  apply collector_app in H. destruct H as (o & Ho & H). cbn [app] in Ho. now subst.
Qed.

Section Inv.
Variable E : env.

Lemma emits_tix : forall m t vf, m = MPacking \/ m = MSizing ->
  emits (with_type_idx E m t) vf tt vf (le 4 (tix E t)).
Proof.
  intros m t vf Hm. unfold with_type_idx. eapply emits_eq; [|apply app_nil_r].
  destruct Hm as [-> | ->]; (apply emits_contig; apply emits_ret).
Qed.
Lemma emits_mem : forall m t n vf, m = MPacking \/ m = MSizing ->
  emits (with_mem_used E m t n) vf tt vf (le 8 (wrap64 (sizeof E t * N.of_nat n))).
Proof.
  intros m t n vf Hm. unfold with_mem_used. eapply emits_eq; [|apply app_nil_r].
  destruct Hm as [-> | ->]; (apply emits_contig; apply emits_ret).
Qed.

(** The frame of an object, taken apart. *)
Lemma frame_inv : forall m t n A (p : prog A) vf a vf' out, m = MPacking \/ m = MSizing ->
  emits (bind (with_type_idx E m t) (fun _ => bind p (fun a =>
         bind (with_mem_used E m t n) (fun _ => Ret a)))) vf a vf' out ->
  exists body, emits p vf a vf' body /\
    out = le 4 (tix E t) ++ body ++ le 8 (wrap64 (sizeof E t * N.of_nat n)).
Proof.
  intros * Hm H. apply emits_inv_bind in H. destruct H as (u & vf1 & o1 & o2 & H1 & H2 & ->).
  destruct (emits_fun _ _ _ _ _ _ _ _ _ H1 (emits_tix m t vf Hm)) as (-> & -> & ->).
  apply emits_inv_bind in H2. destruct H2 as (x & vf2 & o3 & o4 & H3 & H4 & ->).
  apply emits_inv_bind in H4. destruct H4 as (u' & vf3 & o5 & o6 & H5 & H6 & ->).
  destruct (emits_fun _ _ _ _ _ _ _ _ _ H5 (emits_mem m t n vf2 Hm)) as (-> & -> & ->).
  destruct (emits_fun _ _ _ _ _ _ _ _ _ H6 (emits_ret _ x vf2)) as (-> & -> & ->).
  exists o3. split; [exact H3|]. now rewrite app_nil_r.
Qed.

Lemma root_inv : forall m f t v v' vf' out, m = MPacking \/ m = MSizing ->
  emits (with_root E m f t v) false v' vf' out ->
  exists body, out = root_frame E t body.
Proof.
  intros * Hm H. unfold with_root in H. destruct (chk E) eqn:Ec.
  - unfold ser in H. apply emits_inv_bind in H.
    destruct H as (vs & vf1 & o1 & o2 & H1 & H2 & ->).
    destruct f as [|f]; [specialize (H1 []); discriminate|]. cbn [with_] in H1.
    unfold traverse in H1. rewrite Ec in H1. apply frame_inv in H1; auto.
    destruct H1 as (body & _ & ->).
    destruct vs as [|x [|]]; try (specialize (H2 []); discriminate).
    destruct (emits_fun _ _ _ _ _ _ _ _ _ H2 (emits_ret _ x vf1)) as (_ & _ & ->).
    exists body. unfold root_frame. cbn [length]. now rewrite app_nil_r, N.mul_1_r.
  - apply frame_inv in H; auto. destruct H as (body & _ & ->).
    exists body. unfold root_frame. now rewrite N.mul_1_r.
Qed.

Lemma emits_root : forall m f t v body, m = MPacking \/ m = MSizing ->
  emits (ser (with_ E m f) t v) false v false (framed E t 1 body) ->
  emits (with_root E m f t v) false v false (root_frame E t body).
Proof.
  intros m f t v body Hm Hs. unfold with_root, root_frame. unfold framed in Hs.
  destruct (chk E); [now rewrite N.mul_1_r in Hs|].
  eapply emits_bind; [apply emits_tix; auto|].
  eapply emits_bind; [exact Hs|].
  rewrite <- (app_nil_r (le 8 _)).
  eapply emits_bind with (a := tt) (vf1 := false); [|apply emits_ret].
  rewrite <- (N.mul_1_r (sizeof E t)). apply (emits_mem m t 1 false); auto.
Qed.

Lemma reads_root : forall F f t w x body, wf_env F E ->
  reads (ser (with_ E MUnpacking f) t w) false (framed E t 1 body) x false ->
  reads (with_root E MUnpacking f t w) false (root_frame E t body) x false.
Proof.
  intros F f t w x body wf Hr. unfold with_root, root_frame. unfold framed in Hr.
  destruct (chk E) eqn:Ec; [now rewrite N.mul_1_r in Hr|].
  destruct (tix_ok F E wf t) as (Hu & Hval).
  eapply reads_bind with (vf1 := false).
  { unfold with_type_idx. eapply reads_eq; [|apply app_nil_r].
    apply reads_contig; [now rewrite !le_length|].
    cbn zeta. rewrite Hu, Hval, N.eqb_refl. apply reads_ret. }
  eapply reads_bind; [exact Hr|].
  eapply reads_eq; [|apply app_nil_r]. eapply reads_bind with (vf1 := false) (a := tt).
  - unfold with_mem_used. eapply reads_eq; [|apply app_nil_r].
    apply reads_contig; [now rewrite !le_length|]. rewrite N.mul_1_r.
    rewrite unle_le by apply wrap64_lt. rewrite N.eqb_refl. apply reads_ret.
  - apply reads_ret.
Qed.

Lemma reads_tix : forall F t vf, wf_env F E ->
  reads (with_type_idx E MUnpacking t) vf (le 4 (tix E t)) tt vf.
Proof.
  intros F t vf wf. destruct (tix_ok F E wf t) as (Hu & Hval).
  unfold with_type_idx. eapply reads_eq; [|apply app_nil_r].
  apply reads_contig; [now rewrite !le_length|].
  cbn zeta. rewrite Hu, Hval, N.eqb_refl. apply reads_ret.
Qed.

(** What fails inside an object fails for the object, one level further out. *)
Lemma fails_traverse : forall F rec t vs vf i x, wf_env F E ->
  fails (ap E MUnpacking rec t vs) vf i x ->
  fails (traverse E MUnpacking rec t vs) vf ((if chk E then le 4 (tix E t) else []) ++ i)
    (if chk E then bump (tix E t) x else x).
Proof.
  intros F rec t vs vf i x wf H. unfold traverse. destruct (chk E); [|exact H].
  eapply fails_bind_r; [apply (reads_tix F); auto|].
  apply fails_bind_l. apply fails_catch. exact H.
Qed.
Lemma fails_root : forall F f t w i x, wf_env F E ->
  fails (ap E MUnpacking (with_ E MUnpacking f) t [w]) false i x ->
  fails (with_root E MUnpacking (S f) t w) false (le 4 (tix E t) ++ i) (if chk E then bump (tix E t) x else x).
Proof.
  intros F f t w i x wf H. pose proof (fails_traverse F _ _ _ _ _ _ wf H) as HT.
  unfold with_root, ser. cbn [with_]. destruct (chk E).
  - apply fails_bind_l. exact HT.
  - eapply fails_bind_r; [apply (reads_tix F); auto|].
    apply fails_bind_l, fails_bind_l. exact HT.
Qed.

(** Sizing and packing functions that agree write the same. *)
Lemma serialize_inv : forall f t v s, serialize E f t v None = Ok s ->
  exists v1 n v2 vf2, get_size E f t v = Ok (v1, n) /\
    emits (with_root E MPacking f t v1) false v2 vf2 (s_bytes s) /\ len (s_bytes s) = n.
Proof.
  intros f t v s H. unfold serialize in H.
  destruct (get_size E f t v) as [[v1 n]|e]; [|discriminate].
  unfold pack_memory in H. cbn [r_before r_buf r_after length app skipn] in H.
  rewrite app_nil_r in H.
  destruct (interp packer (with_root E MPacking f t v1) false
    {| p_buf := repeat x00 (N.to_nat n); p_cur := 0; p_used := 0 |}) as [[[v2 vf2] st]|e] eqn:Ei;
    [|discriminate].
  destruct (p_used st =? n) eqn:Eu; [|discriminate]. apply N.eqb_eq in Eu.
  inversion H; subst s; clear H. cbn [s_bytes].
  apply packer_emits in Ei; cbn [p_cur p_buf p_used] in *; [|lia].
  destruct Ei as (out & He & Hl & Hb & Hc & Hu). rewrite repeat_length in Hl.
  specialize (Hu eq_refl). rewrite N.add_0_l in Hu. cbn [firstn app plus] in *.
  assert (Hn : len out = n).
  { assert (len out <= n) by (unfold len; lia).
    assert (n < two64) by (rewrite <- Eu, Hu; apply N.mod_lt; discriminate).
    rewrite <- Eu, Hu. unfold wrap64. rewrite N.mod_small; auto. lia. }
  assert (Hs : firstn (N.to_nat n) (p_buf st) = out).
  { rewrite Hb, <- Hn, len_nat, firstn_app, firstn_all, Nat.sub_diag, firstn_O. apply app_nil_r. }
  rewrite Hs. exists v1, n, v2, vf2. auto.
Qed.

Lemma serialize_bytes : forall f t v bs s,
  (forall m, m = MPacking \/ m = MSizing -> emits (with_root E m f t v) false v false bs) ->
  serialize E f t v None = Ok s -> s_bytes s = bs.
Proof.
  intros f t v bs s He H. apply serialize_inv in H.
  destruct H as (v1 & n & v2 & vf2 & Hz & Hp & _).
  unfold get_size in Hz.
  pose proof (emits_sizer _ _ _ _ _ _ (He MSizing (or_intror eq_refl)) 0) as H.
  change (wrap64 0) with 0 in H. rewrite H in Hz. inversion Hz; subst v1.
  now destruct (emits_fun _ _ _ _ _ _ _ _ _ Hp (He MPacking (or_introl eq_refl))) as (_ & _ & ?).
Qed.

Lemma to_stream_inv : forall f t v d u v' o, serialize_to_stream E f t v
    {| o_data := d; o_room := None; o_bad := false; o_nbytes := u |} = Ok (v', o) ->
  exists v1 n vf out, get_size E f t v = Ok (v1, n) /\
    emits (with_root E MPacking f t v1) false v' vf out /\ o_data o = d ++ out.
Proof.
  intros f t v d u v' o H. unfold serialize_to_stream in H.
  destruct (get_size E f t v) as [[v1 n]|e]; [|discriminate].
  destruct (interp stream_packer _ _ _) as [[[v2 vf] o']|e] eqn:Ei; [|discriminate].
  inversion H; subst. apply stream_emits in Ei. destruct Ei as (out & He & Hd & _).
  exists v1, n, vf, out. auto.
Qed.

(** Failing reads of the API. *)
Lemma in_place_fails : forall f t w i x, fails (with_root E MUnpacking f t w) false i x ->
  forall before after,
  deserialize_in_place E f t (before ++ i ++ after) (length before) w = Err x.
Proof.
  intros f t w i x H before after. unfold deserialize_in_place, unpack_memory.
  pose proof (fails_unpacker _ _ _ _ _ H before after 0) as H'. change (wrap64 0) with 0 in H'.
  now rewrite H'.
Qed.
Lemma in_place_stream_fails : forall f t w i x, fails (with_root E MUnpacking f t w) false i x ->
  forall after u,
  deserialize_in_place_from_stream E f t {| i_data := i ++ after; i_nbytes := wrap64 u |} w = Err x.
Proof.
  intros f t w i x H after u. unfold deserialize_in_place_from_stream.
  now rewrite (fails_stream _ _ _ _ _ H after u).
Qed.
Lemma in_place_reads : forall f t w i x, reads (with_root E MUnpacking f t w) false i x false ->
  forall before after,
  deserialize_in_place E f t (before ++ i ++ after) (length before) w = Ok (x, len i).
Proof.
  intros f t w i x Hr before after. unfold deserialize_in_place, unpack_memory.
  pose proof (reads_unpacker _ _ _ _ _ _ Hr before after 0) as H.
  change (wrap64 0) with 0 in H. rewrite H. cbn [u_cur].
  do 2 f_equal. unfold len. f_equal. lia.
Qed.
End Inv.
