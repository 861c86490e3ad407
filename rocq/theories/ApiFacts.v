(** The API entry points on well-formed values. *)
From Coq Require Import List NArith Arith Bool Lia.
From Coq.Strings Require Import Byte.
From Verif Require Import Base Syntax Prog Serializers Traverse Spec ProgFacts EnvFacts ValFacts
  Pack Unpack Api.
Import ListNotations.
Local Open Scope N_scope.

(** Every constructor of the class table is acceptable. *)
Definition any (c : N) : Prop := True.

Section ApiFacts.
Variable E : env.
Hypothesis wf : wf_env any E.

Notation anyC := (fun _ _ : N => True).

Lemma size_ok : forall f t v, has_ty E t v -> (depth v < f)%nat ->
  get_size E f t v = Ok (v, wrap64 (len (enc_root E t v))).
Proof.
  intros f t v Ht Hd. unfold get_size.
  pose proof (emits_sizer _ _ _ _ _ _
    (pack_root any E wf MSizing (or_intror eq_refl) f t v Ht Hd) 0) as H.
  change (wrap64 0) with 0 in H. rewrite H. reflexivity.
Qed.

Lemma size_len : forall f t v, has_ty E t v -> (depth v < f)%nat ->
  len (enc_root E t v) < two64 ->
  get_size E f t v = Ok (v, len (enc_root E t v)).
Proof.
  intros. rewrite size_ok by auto. unfold wrap64. now rewrite N.mod_small by auto.
Qed.

Lemma len_nat : forall A (l : list A), N.to_nat (len l) = length l.
Proof. intros. unfold len. apply Nat2N.id. Qed.

Lemma firstn_skipn_mid : forall A (a b c : list A),
  firstn (length b) (skipn (length a) (a ++ b ++ c)) = b.
Proof.
  intros. rewrite skipn_app, skipn_all, Nat.sub_diag, skipn_O. cbn [app].
  rewrite firstn_app, Nat.sub_diag, firstn_all, firstn_O. apply app_nil_r.
Qed.

(** Packing into a region with enough room. *)
Lemma pack_memory_ok : forall f t v managed calls before old after,
  has_ty E t v -> (depth v < f)%nat -> len (enc_root E t v) < two64 ->
  length old = length (enc_root E t v) ->
  pack_memory E f t v (len (enc_root E t v)) managed calls
    {| r_before := before; r_buf := old; r_after := after |} =
  Ok {| s_managed := managed; s_size := len (enc_root E t v);
        s_bytes := enc_root E t v; s_mem := before ++ enc_root E t v ++ after;
        s_calls := calls; s_obj := v |}.
Proof.
  intros f t v managed calls before old after Ht Hd Hl Ho. unfold pack_memory.
  cbn [r_before r_buf r_after].
  pose proof (emits_packer _ _ _ _ _ _
    (pack_root any E wf MPacking (or_introl eq_refl) f t v Ht Hd)
    before old after (length before) 0 Ho eq_refl) as H.
  change (wrap64 0) with 0 in H. rewrite H. cbn [p_used p_buf].
  rewrite N.add_0_l. unfold wrap64. rewrite N.mod_small by auto.
  rewrite N.eqb_refl, len_nat, firstn_skipn_mid. reflexivity.
Qed.

Lemma serialize_managed : forall f t v, has_ty E t v -> (depth v < f)%nat ->
  len (enc_root E t v) < two64 ->
  serialize E f t v None =
  Ok {| s_managed := true; s_size := len (enc_root E t v);
        s_bytes := enc_root E t v; s_mem := enc_root E t v;
        s_calls := []; s_obj := v |}.
Proof.
  intros f t v Ht Hd Hl. unfold serialize. rewrite size_len by auto.
  rewrite pack_memory_ok; auto.
  - cbn [app]. now rewrite app_nil_r.
  - rewrite repeat_length. apply len_nat.
Qed.

(** With a callback. *)
Lemma serialize_null : forall f t v g, has_ty E t v -> (depth v < f)%nat ->
  len (enc_root E t v) < two64 -> g (len (enc_root E t v)) = None ->
  serialize E f t v (Some g) =
  Ok {| s_managed := true; s_size := len (enc_root E t v);
        s_bytes := enc_root E t v; s_mem := enc_root E t v;
        s_calls := [len (enc_root E t v)]; s_obj := v |}.
Proof.
  intros f t v g Ht Hd Hl Hg. unfold serialize. rewrite size_len by auto. rewrite Hg.
  rewrite pack_memory_ok; auto.
  - cbn [app]. now rewrite app_nil_r.
  - rewrite repeat_length. apply len_nat.
Qed.

(** A caller's buffer of at least the requested size. *)
Lemma serialize_user : forall f t v g before old extra after, has_ty E t v -> (depth v < f)%nat ->
  len (enc_root E t v) < two64 -> length old = length (enc_root E t v) ->
  g (len (enc_root E t v)) =
    Some {| r_before := before; r_buf := old ++ extra; r_after := after |} ->
  serialize E f t v (Some g) =
  Ok {| s_managed := false; s_size := len (enc_root E t v);
        s_bytes := enc_root E t v; s_mem := before ++ enc_root E t v ++ extra ++ after;
        s_calls := [len (enc_root E t v)]; s_obj := v |}.
Proof.
  intros f t v g before old extra after Ht Hd Hl Ho Hg. unfold serialize.
  rewrite size_len by auto. rewrite Hg.
  transitivity (pack_memory E f t v (len (enc_root E t v)) false [len (enc_root E t v)]
    {| r_before := before; r_buf := old; r_after := extra ++ after |}).
  { unfold pack_memory. cbn [r_before r_buf r_after]. now rewrite <- app_assoc. }
  rewrite pack_memory_ok; auto.
Qed.

Lemma recon_target : forall t v o, has_ty E t v -> recon E t = Some o ->
  target anyC E t v o.
Proof.
  intros. eapply (recon_tgt any E wf anyC); eauto.
Qed.

Lemma unpack_reads : forall f t v w, has_ty E t v -> target anyC E t v w -> (depth v < f)%nat ->
  exists x, copy_of v x /\ reads (with_root E MUnpacking f t w) false (enc_root E t v) x false.
Proof.
  intros. eapply (unpack_root any E wf anyC N.le); eauto.
  intros; lia.
Qed.

Lemma in_place_ok : forall f t v w, has_ty E t v -> target anyC E t v w -> (depth v < f)%nat ->
  exists x, copy_of v x /\ forall before after,
    deserialize_in_place E f t (before ++ enc_root E t v ++ after) (length before) w
    = Ok (x, len (enc_root E t v)).
Proof.
  intros f t v w Ht HT Hd. destruct (unpack_reads f t v w Ht HT Hd) as (x & Hc & Hr).
  exists x. split; auto. intros before after.
  unfold deserialize_in_place, unpack_memory.
  pose proof (reads_unpacker _ _ _ _ _ _ Hr before after 0) as H.
  change (wrap64 0) with 0 in H. rewrite H. cbn [u_cur].
  do 2 f_equal. unfold len. f_equal. lia.
Qed.

Lemma deserialize_ok : forall f t v, has_ty E t v -> constructible E t -> (depth v < f)%nat ->
  exists x, copy_of v x /\ forall before after,
    deserialize E f t (before ++ enc_root E t v ++ after) (length before)
    = Ok (x, len (enc_root E t v)).
Proof.
  intros f t v Ht Hc Hd. unfold constructible in Hc.
  destruct (recon E t) as [o|] eqn:Er; [|congruence].
  destruct (in_place_ok f t v o Ht (recon_target _ _ _ Ht Er) Hd) as (x & Hx & H).
  exists x. split; auto. intros. unfold deserialize. rewrite Er. apply H.
Qed.

(** Streams *)
Lemma to_stream_ok : forall f t v d u, has_ty E t v -> (depth v < f)%nat ->
  serialize_to_stream E f t v
    {| o_data := d; o_room := None; o_bad := false; o_nbytes := wrap64 u |}
  = Ok (v, {| o_data := d ++ enc_root E t v; o_room := None; o_bad := false;
              o_nbytes := wrap64 (u + len (enc_root E t v)) |}).
Proof.
  intros f t v d u Ht Hd. unfold serialize_to_stream. rewrite size_ok by auto.
  rewrite (emits_stream _ _ _ _ _ _
    (pack_root any E wf MPacking (or_introl eq_refl) f t v Ht Hd)). reflexivity.
Qed.

Lemma in_place_stream_ok : forall f t v w, has_ty E t v -> target anyC E t v w -> (depth v < f)%nat ->
  exists x, copy_of v x /\ forall after u,
    deserialize_in_place_from_stream E f t
      {| i_data := enc_root E t v ++ after; i_nbytes := wrap64 u |} w
    = Ok (x, {| i_data := after; i_nbytes := wrap64 (u + len (enc_root E t v)) |}).
Proof.
  intros f t v w Ht HT Hd. destruct (unpack_reads f t v w Ht HT Hd) as (x & Hc & Hr).
  exists x. split; auto. intros. unfold deserialize_in_place_from_stream.
  rewrite (reads_stream _ _ _ _ _ _ Hr). reflexivity.
Qed.

Lemma from_stream_ok : forall f t v, has_ty E t v -> constructible E t -> (depth v < f)%nat ->
  exists x, copy_of v x /\ forall after u,
    deserialize_from_stream E f t
      {| i_data := enc_root E t v ++ after; i_nbytes := wrap64 u |}
    = Ok (x, {| i_data := after; i_nbytes := wrap64 (u + len (enc_root E t v)) |}).
Proof.
  intros f t v Ht Hc Hd. unfold constructible in Hc.
  destruct (recon E t) as [o|] eqn:Er; [|congruence].
  destruct (in_place_stream_ok f t v o Ht (recon_target _ _ _ Ht Er) Hd) as (x & Hx & H).
  exists x. split; auto. intros. unfold deserialize_from_stream. rewrite Er. apply H.
Qed.

(** Strict prefixes. *)
Lemma stream_prefix : forall f t v j l u, has_ty E t v -> constructible E t -> (depth v < f)%nat ->
  enc_root E t v = j ++ l -> l <> [] ->
  deserialize_from_stream E f t {| i_data := j; i_nbytes := wrap64 u |} = Err RtErr.
Proof.
  intros f t v j l u Ht Hc Hd Hj Hl. unfold constructible in Hc.
  destruct (recon E t) as [o|] eqn:Er; [|congruence].
  destruct (unpack_reads f t v o Ht (recon_target _ _ _ Ht Er) Hd) as (x & _ & Hr).
  pose proof (reads_prefix _ _ _ _ _ _ Hr RtErr j l Hj Hl) as H.
  unfold deserialize_from_stream. rewrite Er. unfold deserialize_in_place_from_stream.
  pose proof (stream_reader _ (with_root E MUnpacking f t o) false j u) as S.
  rewrite H in S. now rewrite S.
Qed.

Lemma memory_prefix : forall f t v j l before, has_ty E t v -> constructible E t -> (depth v < f)%nat ->
  enc_root E t v = j ++ l -> l <> [] ->
  deserialize E f t (before ++ j) (length before) = Err UB.
Proof.
  intros f t v j l before Ht Hc Hd Hj Hl. unfold constructible in Hc.
  destruct (recon E t) as [o|] eqn:Er; [|congruence].
  destruct (unpack_reads f t v o Ht (recon_target _ _ _ Ht Er) Hd) as (x & _ & Hr).
  pose proof (reads_prefix _ _ _ _ _ _ Hr UB j l Hj Hl) as H.
  unfold deserialize. rewrite Er. unfold unpack_memory.
  pose proof (unpacker_reader _ (with_root E MUnpacking f t o) false (before ++ j)
                (length before) 0) as S.
  rewrite skipn_app, skipn_all, Nat.sub_diag, skipn_O in S. cbn [app] in S.
  rewrite H in S. change (wrap64 0) with 0 in S.
  rewrite S; auto. rewrite app_length. lia.
Qed.

(** Sequences on a stream. *)
Definition enc_all (l : list (ty * val)) : bytes :=
  concat (map (fun p => enc_root E (fst p) (snd p)) l).

Lemma write_all_ok : forall f l d u,
  Forall (fun p => has_ty E (fst p) (snd p) /\ (depth (snd p) < f)%nat) l ->
  write_all E f l {| o_data := d; o_room := None; o_bad := false; o_nbytes := wrap64 u |}
  = Ok {| o_data := d ++ enc_all l; o_room := None; o_bad := false;
          o_nbytes := wrap64 (u + len (enc_all l)) |}.
Proof.
  intros f l. induction l as [|[t v] l IH]; intros d u H; cbn [write_all].
  - unfold enc_all. cbn. now rewrite app_nil_r, N.add_0_r.
  - inversion H as [|? ? [Ht Hd] Hl]; subst. cbn [fst snd] in *.
    rewrite to_stream_ok by auto. rewrite IH by auto.
    unfold enc_all. cbn [map concat fst snd]. rewrite len_app, <- app_assoc.
    do 2 f_equal. f_equal. lia.
Qed.

Lemma read_all_ok : forall f l after u,
  Forall (fun p => has_ty E (fst p) (snd p) /\ constructible E (fst p) /\
                   (depth (snd p) < f)%nat) l ->
  exists vs, Forall2 (fun p x => copy_of (snd p) x) l vs /\
    read_all E f (map fst l) {| i_data := enc_all l ++ after; i_nbytes := wrap64 u |}
    = Ok (vs, {| i_data := after; i_nbytes := wrap64 (u + len (enc_all l)) |}).
Proof.
  intros f l after. induction l as [|[t v] l IH]; intros u H; cbn [map read_all].
  - exists []. split; [constructor|]. unfold enc_all. cbn. now rewrite N.add_0_r.
  - inversion H as [|? ? (Ht & Hc & Hd) Hl]; subst. cbn [fst snd] in *.
    destruct (from_stream_ok f t v Ht Hc Hd) as (x & Hx & Hs).
    destruct (IH (u + len (enc_root E t v)) Hl) as (vs & Hvs & Hr).
    exists (x :: vs). split; [constructor; auto|].
    unfold enc_all. cbn [map concat fst snd]. rewrite <- app_assoc.
    rewrite Hs. fold (enc_all l). rewrite Hr, len_app.
    do 2 f_equal. f_equal. f_equal. lia.
Qed.
End ApiFacts.
