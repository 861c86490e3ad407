(** Property C55: writing to a stream that cannot take everything. *)
From Coq Require Import List NArith Arith Bool Lia.
From Coq.Strings Require Import Byte.
From Verif Require Import Base Syntax Prog Serializers Traverse Spec ProgFacts EnvFacts ValFacts
  Pack Unpack Api ApiFacts Examples PropMemory.
Import ListNotations.
Local Open Scope N_scope.

(** A stream that already holds [d] and accepts [r] more bytes. *)
Definition room_stream (d : bytes) (r : N) : ostream :=
  {| o_data := d; o_room := Some r; o_bad := false; o_nbytes := 0 |}.

(** A stream that failed before. *)
Definition failed_stream (d : bytes) (r : option N) : ostream :=
  {| o_data := d; o_room := r; o_bad := true; o_nbytes := 0 |}.

(** [out] written to a stream with room for [r] bytes *)
Definition filled (d out : bytes) (r u : N) : ostream :=
  {| o_data := d ++ firstn (N.to_nat r) out; o_room := Some (r - len out);
     o_bad := negb (len out <=? r); o_nbytes := wrap64 (u + len out) |}.

Lemma emits_bad : forall A (p : prog A) vf a vf' out, emits p vf a vf' out ->
  forall d r u,
  interp stream_packer p vf {| o_data := d; o_room := r; o_bad := true; o_nbytes := wrap64 u |}
  = Ok (a, vf', {| o_data := d; o_room := r; o_bad := true; o_nbytes := wrap64 (u + len out) |}).
Proof.
  intros A p. induction p; intros vf x vf' out He d r u; cbn [interp].
  - specialize (He []). cbn in He. inversion He; subst.
    rewrite len_nil, N.add_0_r. reflexivity.
  - apply emits_inv_contig in He. destruct He as (o & -> & He).
    cbn [contig stream_packer owrite o_bad o_room o_data o_nbytes].
    rewrite wrap64_add, (H _ _ _ _ _ He), len_app.
    do 2 f_equal. f_equal. f_equal. lia.
  - apply IHp; auto.
  - apply H; auto.
  - apply IHp; auto.
  - apply IHp; auto.
  - specialize (He []). discriminate.
Qed.

Lemma emits_room : forall A (p : prog A) vf a vf' out, emits p vf a vf' out ->
  forall d r u,
  interp stream_packer p vf
    {| o_data := d; o_room := Some r; o_bad := false; o_nbytes := wrap64 u |}
  = Ok (a, vf', filled d out r u).
Proof.
  intros A p. induction p; intros vf x vf' out He d r u; cbn [interp].
  - specialize (He []). cbn in He. inversion He; subst. unfold filled.
    rewrite firstn_nil, app_nil_r, len_nil, N.add_0_r, N.sub_0_r. destruct r; reflexivity.
  - apply emits_inv_contig in He. destruct He as (o & -> & He).
    cbn [contig stream_packer]. unfold owrite. cbn [o_bad o_room o_data o_nbytes].
    destruct (len b <=? r) eqn:Eb; cbn [o_bad o_room o_data o_nbytes].
    + apply N.leb_le in Eb. rewrite wrap64_add, (H _ _ _ _ _ He). unfold filled.
      rewrite firstn_app, <- app_assoc, len_app.
      rewrite (firstn_all2 (n := N.to_nat r) b) by (unfold len in Eb; lia).
      do 2 f_equal. f_equal.
      * do 3 f_equal. unfold len. lia.
      * f_equal. lia.
      * f_equal. destruct (N.leb_spec (len o) (r - len b)), (N.leb_spec (len b + len o) r);
          auto; lia.
      * f_equal. lia.
    + apply N.leb_gt in Eb.
      rewrite wrap64_add, (emits_bad _ _ _ _ _ _ He). unfold filled.
      rewrite firstn_app, len_app.
      replace (N.to_nat r - length b)%nat with 0%nat by (unfold len in Eb; lia).
      rewrite firstn_O, app_nil_r.
      do 2 f_equal. f_equal.
      * f_equal. lia.
      * symmetry. apply negb_true_iff, N.leb_gt. lia.
      * f_equal. lia.
  - apply IHp; auto.
  - apply H; auto.
  - apply IHp; auto.
  - apply IHp; auto.
  - specialize (He []). discriminate.
Qed.

Section Full.
Variable E : env.
Hypothesis wf : wf_env any E.

Lemma to_room : forall f t v d r u, has_ty E t v -> (depth v < f)%nat ->
  serialize_to_stream E f t v
    {| o_data := d; o_room := Some r; o_bad := false; o_nbytes := wrap64 u |}
  = Ok (v, filled d (enc_root E t v) r u).
Proof.
  intros f t v d r u Ht Hd. unfold serialize_to_stream. rewrite (size_ok E wf) by auto.
  rewrite (emits_room _ _ _ _ _ _
    (pack_root any E wf MPacking (or_introl eq_refl) f t v Ht Hd)). reflexivity.
Qed.

Lemma to_bad : forall f t v d r u, has_ty E t v -> (depth v < f)%nat ->
  serialize_to_stream E f t v
    {| o_data := d; o_room := r; o_bad := true; o_nbytes := wrap64 u |}
  = Ok (v, {| o_data := d; o_room := r; o_bad := true;
              o_nbytes := wrap64 (u + len (enc_root E t v)) |}).
Proof.
  intros f t v d r u Ht Hd. unfold serialize_to_stream. rewrite (size_ok E wf) by auto.
  rewrite (emits_bad _ _ _ _ _ _
    (pack_root any E wf MPacking (or_introl eq_refl) f t v Ht Hd)). reflexivity.
Qed.

Lemma all_bad : forall f l d r u,
  Forall (fun p => has_ty E (fst p) (snd p) /\ (depth (snd p) < f)%nat) l ->
  write_all E f l {| o_data := d; o_room := r; o_bad := true; o_nbytes := wrap64 u |}
  = Ok {| o_data := d; o_room := r; o_bad := true; o_nbytes := wrap64 (u + len (enc_all E l)) |}.
Proof.
  intros f l. induction l as [|[t v] l IH]; intros d r u H; cbn [write_all].
  - unfold enc_all. cbn. now rewrite N.add_0_r.
  - inversion H as [|? ? [Ht Hd] Hl]; subst. cbn [fst snd] in *.
    rewrite to_bad by auto. rewrite IH by auto.
    unfold enc_all. cbn [map concat fst snd]. rewrite len_app.
    do 2 f_equal. f_equal. lia.
Qed.

Lemma all_room : forall f l d r u,
  Forall (fun p => has_ty E (fst p) (snd p) /\ (depth (snd p) < f)%nat) l ->
  write_all E f l {| o_data := d; o_room := Some r; o_bad := false; o_nbytes := wrap64 u |}
  = Ok (filled d (enc_all E l) r u).
Proof.
  intros f l. induction l as [|[t v] l IH]; intros d r u H; cbn [write_all].
  - unfold enc_all, filled. cbn [map concat]. rewrite firstn_nil, app_nil_r, len_nil, N.add_0_r, N.sub_0_r.
    destruct r; reflexivity.
  - inversion H as [|? ? [Ht Hd] Hl]; subst. cbn [fst snd] in *.
    rewrite to_room by auto. unfold filled at 1.
    unfold enc_all. cbn [map concat fst snd]. fold (enc_all E l).
    set (b := enc_root E t v) in *. set (o := enc_all E l) in *.
    destruct (len b <=? r) eqn:Eb; cbn [negb].
    + apply N.leb_le in Eb. rewrite IH by auto. fold o. unfold filled.
      rewrite firstn_app, <- app_assoc, len_app.
      rewrite (firstn_all2 (n := N.to_nat r) b) by (unfold len in Eb; lia).
      f_equal. f_equal.
      * do 3 f_equal. unfold len. lia.
      * f_equal. lia.
      * f_equal. destruct (N.leb_spec (len o) (r - len b)), (N.leb_spec (len b + len o) r);
          auto; lia.
      * f_equal. lia.
    + apply N.leb_gt in Eb. rewrite all_bad by auto. fold o. unfold filled.
      rewrite firstn_app, len_app.
      replace (N.to_nat r - length b)%nat with 0%nat by (unfold len in Eb; lia).
      rewrite firstn_O, app_nil_r.
      f_equal. f_equal.
      * f_equal. lia.
      * symmetry. apply negb_true_iff, N.leb_gt. lia.
      * f_equal. lia.
Qed.

(** Reading what a strict prefix of the bytes of a sequence holds. *)
Lemma read_cut : forall f l r u,
  Forall (fun p => has_ty E (fst p) (snd p) /\ constructible E (fst p) /\
                   (depth (snd p) < f)%nat) l ->
  r < len (enc_all E l) ->
  exists l1 t v l2 vs i, l = l1 ++ (t, v) :: l2 /\
    read_all E f (map fst l1)
      {| i_data := firstn (N.to_nat r) (enc_all E l); i_nbytes := wrap64 u |} = Ok (vs, i) /\
    Forall2 (fun p x => copy_of (snd p) x) l1 vs /\
    deserialize_from_stream E f t i = Err RtErr.
Proof.
  intros f l. induction l as [|[t v] l IH]; intros r u H Hr.
  - unfold enc_all in Hr. cbn in Hr. lia.
  - inversion H as [|? ? (Ht & Hc & Hd) Hl]; subst. cbn [fst snd] in *.
    unfold enc_all in *. cbn [map concat fst snd] in *. fold (enc_all E l) in *.
    rewrite len_app in Hr.
    destruct (N.leb_spec (len (enc_root E t v)) r) as [Hle|Hlt].
    + destruct (from_stream_ok E wf f t v Ht Hc Hd) as (x & Hx & Hs).
      destruct (IH (r - len (enc_root E t v)) (u + len (enc_root E t v)) Hl)
        as (l1 & t' & v' & l2 & vs & i & -> & Hra & Hf & He); [lia|].
      exists ((t, v) :: l1), t', v', l2, (x :: vs), i.
      split; [reflexivity|]. split; [|split; [constructor; auto|exact He]].
      rewrite firstn_app, (firstn_all2 (n := N.to_nat r) (enc_root E t v))
        by (unfold len in Hle; lia).
      cbn [map fst read_all]. rewrite Hs.
      replace (N.to_nat r - length (enc_root E t v))%nat
        with (N.to_nat (r - len (enc_root E t v))) by (unfold len; lia).
      rewrite Hra. reflexivity.
    + exists [], t, v, l, [], {| i_data := firstn (N.to_nat r) (enc_root E t v);
                                 i_nbytes := wrap64 u |}.
      split; [reflexivity|]. split; [|split; [constructor|]].
      * cbn [map read_all]. rewrite firstn_app.
        replace (N.to_nat r - length (enc_root E t v))%nat with 0%nat by (unfold len in Hlt; lia).
        rewrite firstn_O, app_nil_r. reflexivity.
      * apply (stream_prefix E wf f t v _ (skipn (N.to_nat r) (enc_root E t v)) u); auto.
        -- symmetry. apply firstn_skipn.
        -- intros Hn. apply (f_equal (@length _)) in Hn. rewrite skipn_length in Hn.
           cbn in Hn. unfold len in Hlt. lia.
Qed.
End Full.

(** ** C55: what a stream with limited room receives, and that its state tells *)
Theorem C55_full_stream : forall E f (l : list (ty * val)) d r whole,
  wf_env any E ->
  Forall (fun p => has_ty E (fst p) (snd p) /\ (depth (snd p) < f)%nat) l ->
  write_all E f l (out_stream []) = Ok whole ->
  exists o, write_all E f l (room_stream d r) = Ok o /\
    o_data o = d ++ firstn (N.to_nat r) (o_data whole) /\
    (o_bad o = true <-> r < len (o_data whole)).
Proof.
  intros E f l d r whole wf H Hw.
  pose proof (write_all_ok E wf f l [] 0 H) as Hw'. change (wrap64 0) with 0 in Hw'.
  unfold out_stream in Hw. rewrite Hw' in Hw. inversion Hw; subst whole. cbn [o_data app].
  pose proof (all_room E wf f l d r 0 H) as Hr. change (wrap64 0) with 0 in Hr.
  eexists. split; [exact Hr|]. unfold filled. cbn [o_data o_bad]. split; auto.
  rewrite negb_true_iff, N.leb_gt. tauto.
Qed.
Print Assumptions C55_full_stream.

(** ** C55: a stream that has failed is left as it is, and no call reports it *)
Theorem C55_failed_stream : forall E f (l : list (ty * val)) d r,
  wf_env any E ->
  Forall (fun p => has_ty E (fst p) (snd p) /\ (depth (snd p) < f)%nat) l ->
  exists o, write_all E f l (failed_stream d r) = Ok o /\ o_data o = d /\ o_bad o = true.
Proof.
  intros E f l d r wf H.
  pose proof (all_bad E wf f l d r 0 H) as Hr. change (wrap64 0) with 0 in Hr.
  eexists. split; [exact Hr|]. split; reflexivity.
Qed.
Print Assumptions C55_failed_stream.

(** ** C55: reading back.  If the stream did not fail everything is restored.  If it failed,
    the objects before the cut are restored and the next call throws. *)
Theorem C55_read_back : forall E f (l : list (ty * val)) r o,
  wf_env any E ->
  Forall (fun p => has_ty E (fst p) (snd p) /\ constructible E (fst p) /\
                   (depth (snd p) < f)%nat) l ->
  write_all E f l (room_stream [] r) = Ok o ->
  (o_bad o = false ->
     exists vs i, read_all E f (map fst l) (in_stream (o_data o)) = Ok (vs, i) /\
       Forall2 (fun p x => same (snd p) x) l vs /\ i_data i = []) /\
  (o_bad o = true ->
     exists l1 t v l2 vs i, l = l1 ++ (t, v) :: l2 /\
       read_all E f (map fst l1) (in_stream (o_data o)) = Ok (vs, i) /\
       Forall2 (fun p x => same (snd p) x) l1 vs /\
       deserialize_from_stream E f t i = Err RtErr).
Proof.
  intros E f l r o wf H Ho.
  assert (H' : Forall (fun p => has_ty E (fst p) (snd p) /\ (depth (snd p) < f)%nat) l)
    by (eapply Forall_impl; [|exact H]; cbn; tauto).
  pose proof (all_room E wf f l [] r 0 H') as Hr. change (wrap64 0) with 0 in Hr.
  unfold room_stream in Ho. rewrite Hr in Ho. inversion Ho; subst o. unfold filled.
  cbn [o_data o_bad app]. unfold in_stream. split; intros Hb.
  - apply negb_false_iff, N.leb_le in Hb.
    rewrite firstn_all2 by (unfold len in Hb; lia).
    destruct (read_all_ok E wf f l [] 0 H) as (vs & Hvs & Hra).
    change (wrap64 0) with 0 in Hra. rewrite app_nil_r in Hra.
    exists vs. eexists. split; [exact Hra|]. split; [|reflexivity].
    clear -Hvs. induction Hvs; constructor; auto. exact (sim_same _ _ _ H).
  - apply negb_true_iff, N.leb_gt in Hb.
    destruct (read_cut E wf f l r 0 H Hb) as (l1 & t & v & l2 & vs & i & Hl & Hra & Hf & He).
    change (wrap64 0) with 0 in Hra.
    exists l1, t, v, l2, vs, i. split; auto. split; auto. split; auto.
    clear -Hf. induction Hf; constructor; auto. exact (sim_same _ _ _ H).
Qed.
Print Assumptions C55_read_back.

(** Three objects written to a stream with room for the first and a half, and to one that
    failed before. *)
Definition three : list (ty * val) := [(TClass 0, v_node); (t_misc, v_misc); (TClass 0, v_node)].

Lemma three_ok : Forall (fun p => has_ty (ex true) (fst p) (snd p) /\
  constructible (ex true) (fst p) /\ (depth (snd p) < 12)%nat) three.
Proof.
  repeat (apply Forall_cons; [cbn [fst snd]; split; [|split];
    [first [apply v_node_ty | apply v_misc_ty]
    | vm_compute; discriminate | vm_compute; lia]|]); apply Forall_nil.
Qed.

Example C55_case :
  (exists o vs i, write_all (ex true) 12 three (room_stream [] 700) = Ok o /\
     o_bad o = true /\ len (o_data o) = 700 /\
     read_all (ex true) 12 [TClass 0] (in_stream (o_data o)) = Ok (vs, i) /\ length vs = 1%nat /\
     deserialize_from_stream (ex true) 12 t_misc i = Err RtErr) /\
  (exists o, write_all (ex true) 12 three (room_stream [] 10000) = Ok o /\ o_bad o = false) /\
  (exists o, write_all (ex true) 12 three (failed_stream [x01] None) = Ok o /\
     o_bad o = true /\ o_data o = [x01]).
Proof.
  split; [|split].
  - do 3 eexists. split; [vm_compute; reflexivity|].
    split; [reflexivity|]. split; [reflexivity|].
    split; [vm_compute; reflexivity|]. split; [reflexivity|]. vm_compute. reflexivity.
  - eexists. split; [vm_compute; reflexivity|]. reflexivity.
  - eexists. split; [vm_compute; reflexivity|]. split; reflexivity.
Qed.

Example C55_case_read : forall r o, write_all (ex true) 12 three (room_stream [] r) = Ok o ->
  o_bad o = true ->
  exists l1 t v l2 vs i, three = l1 ++ (t, v) :: l2 /\
    read_all (ex true) 12 (map fst l1) (in_stream (o_data o)) = Ok (vs, i) /\
    deserialize_from_stream (ex true) 12 t i = Err RtErr.
Proof.
  intros r o Ho Hb.
  destruct (C55_read_back (ex true) 12 three r o (ex_wf true any I) three_ok Ho) as (_ & H).
  destruct (H Hb) as (l1 & t & v & l2 & vs & i & H1 & H2 & _ & H3).
  exists l1, t, v, l2, vs, i. auto.
Qed.
