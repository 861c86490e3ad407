(** Property C73: the state of a stream after a call, and streams that throw. *)
From Coq Require Import List NArith Arith Bool Lia.
From Coq.Strings Require Import Byte.
From Verif Require Import Base Syntax Prog Serializers Traverse Spec ProgFacts EnvFacts ValFacts
  Fails Pack Unpack Api ApiFacts ApiInv Examples PropMemory PropStream PropTypes PropFull Views ViewSpec
  ViewFacts ViewRound KMap Members MembersSpec MembersFacts ObjectIO ObjectFacts PropViews PropMembers
  StreamState.
Import ListNotations.
Local Open Scope N_scope.

(** ** Specification *)

(** A stream that holds [d]. *)
Definition good_in (throws : bool) (d : bytes) : istate :=
  {| is_data := d; is_failed := false; is_throws := throws |}.
(** One that has failed. *)
Definition failed_in (throws : bool) (d : bytes) : istate :=
  {| is_data := d; is_failed := true; is_throws := throws |}.
(** How a call ends when the stream fails. *)
Definition no_more {A} (throws : bool) : ended A := Threw (if throws then Failure else Library RtErr).

(** A call [c] on a stream that holds [d] has one of two effects, whether or not the stream throws:
    it takes the leading bytes [used] and nothing else, and would do the same if other bytes
    followed them; or it takes everything and the stream has failed. *)
Definition takes_prefix {A} (c : istate -> ended A * istate) (d : bytes) : Prop :=
  (exists r used rest, d = used ++ rest /\
     forall throws after, c (good_in throws (used ++ after)) = (r, good_in throws after)) \/
  (forall throws, c (good_in throws d) = (no_more throws, failed_in throws [])).

(** ** Proofs *)

Lemma run_in_cases : forall A (p : prog A) vf d, takes_prefix (run_in p vf) d.
Proof.
  unfold takes_prefix. intros A p. induction p as [a|b k IH|n k IH|k IH|v k IH|e k IH|e]; intros vf d; cbn [run_in].
  - left. exists (Done a), [], d. auto.
  - destruct (split_at (length b) d) as [[x r]|] eqn:Hs.
    + apply split_at_inv in Hs. destruct Hs as (-> & Hx).
      assert (Hu : forall throws z, unpack_bytes b (good_in throws (x ++ z)) = (Done x, good_in throws z)).
      { intros throws z. unfold unpack_bytes, stream_read. cbn [is_failed good_in is_data is_throws].
        now rewrite (split_at_app _ x z _ Hx). }
      destruct (IH x vf r) as [(r0 & used & rest & -> & H)|H].
      * left. exists r0, (x ++ used), rest. split; [now rewrite app_assoc|].
        intros throws after. rewrite <- app_assoc, Hu. apply H.
      * right. intros throws. rewrite Hu. apply H.
    + right. intros throws. unfold unpack_bytes, stream_read. cbn [is_failed good_in is_data is_throws].
      rewrite Hs. unfold in_failure. cbn [fst snd is_throws]. destruct throws; reflexivity.
  - apply IH.
  - apply IH.
  - apply IH.
  - apply IH.
  - left. exists (Threw (Library e)), [], d. auto.
Qed.

Lemma run_in_plain : forall A (p : prog A) vf d u throws,
  match interp stream_unpacker p vf {| i_data := d; i_nbytes := u |} with
  | Ok (a, _, i) => run_in p vf (good_in throws d) = (Done a, good_in throws (i_data i))
  | Err e => fst (run_in p vf (good_in throws d)) = Threw (Library e) \/
      (throws = true /\ e = RtErr /\ fst (run_in p vf (good_in throws d)) = Threw Failure)
  end.
Proof.
  intros A p. induction p as [a|b k IH|n k IH|k IH|v k IH|e k IH|e]; intros vf d u throws; cbn [interp run_in].
  - reflexivity.
  - cbn [contig stream_unpacker i_data i_nbytes]. unfold unpack_bytes, stream_read.
    cbn [is_failed good_in is_data is_throws].
    destruct (split_at (length b) d) as [[x r]|]; [apply IH|].
    unfold in_failure. cbn [fst snd is_throws]. destruct throws; [right|left]; auto.
  - apply IH.
  - apply IH.
  - apply IH.
  - apply IH.
  - left. reflexivity.
Qed.

(** A program that reads before anything else. *)
Lemma run_in_failed : forall A (p : prog A) vf throws d b k,
  p = Contig b k -> run_in p vf (failed_in throws d) = (no_more throws, failed_in throws d).
Proof.
  intros A p vf throws d b k ->. cbn [run_in]. unfold unpack_bytes, stream_read, in_failure.
  cbn [is_failed failed_in is_data is_throws fst snd]. destruct throws; reflexivity.
Qed.

Lemma root_reads : forall E f t w, exists b k, with_root E MUnpacking (S f) t w = Contig b k.
Proof.
  intros E f t w. unfold with_root. destruct (chk E) eqn:Hc; unfold ser; cbn [with_]; unfold traverse; rewrite ?Hc;
    cbn [with_type_idx bind]; eauto.
Qed.
Lemma root_member_reads : forall E span K f k w, exists b c, root_member E span K f k MUnpacking w = Contig b c.
Proof.
  intros E span K f k w. unfold root_member, root_object, as_object.
  destruct (chk E); cbn [with_type_idx bind]; eauto.
Qed.

(** ** Reading *)

Theorem C73_reading : forall E f t w d, takes_prefix (read_object E f t w) d.
Proof. intros. apply run_in_cases. Qed.
Print Assumptions C73_reading.

Theorem C73_reading_new : forall E f t d, constructible E t -> takes_prefix (read_new_object E f t) d.
Proof.
  intros E f t d Hc. unfold constructible in Hc. unfold takes_prefix, read_new_object.
  destruct (recon E t) as [o|]; [|congruence]. apply run_in_cases.
Qed.
Print Assumptions C73_reading_new.

Theorem C73_reading_objects : forall E span K f k w d, takes_prefix (read_member E span K f k w) d.
Proof. intros. apply run_in_cases. Qed.
Print Assumptions C73_reading_objects.

(** [r], the result of a call on a stream that is not known after an exception, is what the call
    [c] on a stream with state gives; a stream that throws does so where the library would throw
    std::runtime_error for want of data. *)
Definition agrees {A} (throws : bool) (r : res (A * istream)) (c : ended A * istate) : Prop :=
  match r with
  | Ok (x, i) => c = (Done x, good_in throws (i_data i))
  | Err e => fst c = Threw (Library e) \/ (throws = true /\ e = RtErr /\ fst c = Threw Failure)
  end.

(** The result is the one of C01 to C72. *)
Theorem C73_same_result : forall E f t d throws,
  (forall w, agrees throws (deserialize_in_place_from_stream E f t (in_stream d) w)
                           (read_object E f t w (good_in throws d))) /\
  agrees throws (deserialize_from_stream E f t (in_stream d)) (read_new_object E f t (good_in throws d)) /\
  forall span K k w, agrees throws (member_from_stream E span K f k (in_stream d) w)
                                   (read_member E span K f k w (good_in throws d)).
Proof.
  intros E f t d throws.
  assert (H : forall w, agrees throws (deserialize_in_place_from_stream E f t (in_stream d) w)
                                      (read_object E f t w (good_in throws d))).
  { intros w. unfold deserialize_in_place_from_stream, read_object, in_stream, agrees.
    pose proof (run_in_plain _ (with_root E MUnpacking f t w) false d 0 throws) as H.
    destruct (interp stream_unpacker _ false _) as [[[x vf] i]|e]; exact H. }
  split; [exact H|]. split.
  - unfold deserialize_from_stream, read_new_object. destruct (recon E t) as [o|]; [apply H|].
    left. reflexivity.
  - intros span K k w. unfold member_from_stream, object_from_stream, read_member, in_stream, agrees.
    pose proof (run_in_plain _ (root_member E span K f k MUnpacking w) false d 0 throws) as Hm.
    destruct (interp stream_unpacker _ false _) as [[[x vf] i]|e]; exact Hm.
Qed.
Print Assumptions C73_same_result.

Theorem C73_failed_stream : forall E f t w throws d,
  read_object E (S f) t w (failed_in throws d) = (no_more throws, failed_in throws d) /\
  (constructible E t ->
     read_new_object E (S f) t (failed_in throws d) = (no_more throws, failed_in throws d)) /\
  forall span K k w', read_member E span K f k w' (failed_in throws d) = (no_more throws, failed_in throws d).
Proof.
  intros E f t w throws d.
  assert (H : forall w, read_object E (S f) t w (failed_in throws d) = (no_more throws, failed_in throws d)).
  { intros w0. destruct (root_reads E f t w0) as (b & k & Hk). eapply run_in_failed, Hk. }
  split; [apply H|]. split.
  - intros Hc. unfold constructible in Hc. unfold read_new_object. destruct (recon E t); [apply H|congruence].
  - intros span K k w'. destruct (root_member_reads E span K f k w') as (b & c & Hk). eapply run_in_failed, Hk.
Qed.
Print Assumptions C73_failed_stream.

(** Data that was cut short: the stream is empty and has failed. *)
Theorem C73_truncated : forall E f t v j l throws, wf_env any E -> has_ty E t v -> constructible E t ->
  (depth v < f)%nat -> enc_root E t v = j ++ l -> l <> [] ->
  read_new_object E f t (good_in throws j) = (no_more throws, failed_in throws []).
Proof.
  intros E f t v j l throws wf Ht Hc Hd Hj Hl.
  destruct (C73_reading_new E f t j Hc) as [(r & used & rest & -> & H)|H]; [|apply H]. exfalso.
  destruct (from_stream_ok E wf f t v Ht Hc Hd) as (x & _ & Hx). specialize (Hx [] 0).
  pose proof (stream_prefix E wf f t v (used ++ rest) l 0 Ht Hc Hd Hj Hl) as Hp.
  assert (Hs : forall d, match deserialize_from_stream E f t (in_stream d) with
    | Ok (x, i) => read_new_object E f t (good_in false d) = (Done x, good_in false (i_data i))
    | Err e => fst (read_new_object E f t (good_in false d)) = Threw (Library e)
    end).
  { intros d. destruct (C73_same_result E f t d false) as (_ & Hr & _). unfold agrees in Hr.
    destruct (deserialize_from_stream E f t (in_stream d)) as [[y i]|e]; auto.
    destruct Hr as [Hr|(Hr & _)]; [exact Hr|discriminate]. }
  change (wrap64 0) with 0 in *. unfold in_stream in Hs. rewrite app_nil_r in Hx.
  pose proof (Hs (enc_root E t v)) as H1. rewrite Hx in H1.
  pose proof (Hs (used ++ rest)) as H2. rewrite Hp in H2.
  rewrite H in H2. cbn [fst] in H2. rewrite Hj, <- app_assoc, H in H1. congruence.
Qed.
Print Assumptions C73_truncated.

(** An object of another type: the stream is good, and behind the number of the type. *)
Theorem C73_other_type : forall E ts t u f v d n0 v' o, registered E ts -> In t ts -> In u ts -> t <> u ->
  serialize_to_stream E f t v {| o_data := d; o_room := None; o_bad := false; o_nbytes := n0 |}
    = Ok (v', o) ->
  exists out, o_data o = d ++ out /\
  forall f' w after throws,
    read_object E (S f') u w (good_in throws (out ++ after)) =
      (Threw (Library (wrong_root_error E t u)), good_in throws (skipn 4 out ++ after)).
Proof.
  intros E ts t u f v d n0 v' o Hr Ht Hu Hne Hs.
  apply to_stream_inv in Hs. destruct Hs as (v1 & n & vf2 & out & _ & He & Ho).
  exists out. split; [exact Ho|]. intros f' w after throws.
  apply root_inv in He; [|now left]. destruct He as (body & ->).
  assert (Hb : tix E t < 2 ^ 32) by (eapply tix_bound; eauto).
  assert (Hx : tix E t <> tix E u) by (intros Hx; apply Hne; eapply tix_inj; eauto).
  pose proof (wrong_root E u (tix E t) f' w Hb Hx) as Hf.
  unfold root_frame. rewrite <- !app_assoc.
  assert (Hl : length (le 4 (tix E t)) = 4%nat) by apply le_length.
  rewrite skipn_app, Hl, skipn_all2 by lia. cbn [Nat.sub skipn app].
  set (rest := body ++ le 8 (wrap64 (sizeof E t)) ++ after). change [] with (@nil byte).
  replace ((body ++ le 8 (wrap64 (sizeof E t))) ++ after) with rest by (unfold rest; now rewrite <- app_assoc).
  destruct (root_reads E f' u w) as (b & k & Hk).
  assert (Hlb : length b = 4%nat /\ (exists e, k (le 4 (tix E t)) = Fail e)).
  { revert Hk. unfold with_root. destruct (chk E) eqn:Hc; unfold ser; cbn [with_]; unfold traverse; rewrite ?Hc;
      cbn [with_type_idx bind]; intros Hk; injection Hk as <- <-; (split; [reflexivity|]);
      rewrite unle_le by (change (256 ^ N.of_nat 4) with (2 ^ 32); exact Hb);
      (replace (tix E u =? tix E t) with false by (symmetry; apply N.eqb_neq; congruence));
      rewrite orb_true_r; cbn [bind]; eauto. }
  destruct Hlb as (Hlb & e & Hke).
  unfold read_object. specialize (Hf RtErr []). rewrite Hk in *.
  cbn [interp contig reader] in Hf. cbn [run_in].
  unfold unpack_bytes, stream_read. cbn [is_failed good_in is_data is_throws].
  rewrite (split_at_app _ (le 4 (tix E t)) rest) by congruence.
  rewrite (split_at_app _ (le 4 (tix E t)) []) in Hf by congruence.
  rewrite Hke in Hf |- *. cbn [interp] in Hf. cbn [run_in]. injection Hf as ->. reflexivity.
Qed.
Print Assumptions C73_other_type.

(** ** Writing *)

(** [out] offered to a stream that holds [d] and has room for [r] bytes. *)
Definition after_out {A} (throws : bool) (d out : bytes) (r : N) (a : A) : ended A * ostate :=
  if len out <=? r
  then (Done a, {| os_data := d ++ out; os_room := Some (r - len out); os_bad := false; os_throws := throws |})
  else (if throws then Threw Failure else Done a,
        {| os_data := d ++ firstn (N.to_nat r) out; os_room := Some 0; os_bad := true; os_throws := throws |}).

Definition room_out (throws : bool) (d : bytes) (r : N) : ostate :=
  {| os_data := d; os_room := Some r; os_bad := false; os_throws := throws |}.

Section Out.
Variable again : bool.

Lemma run_out_bad : forall A (p : prog A) vf a vf' out, emits p vf a vf' out -> forall d r,
  run_out again p vf {| os_data := d; os_room := r; os_bad := true; os_throws := false |} =
    (Done a, {| os_data := d; os_room := r; os_bad := true; os_throws := false |}).
Proof.
  intros A p. induction p as [a|b k IH|n k IH|k IH|v k IH|e k IH|e]; intros vf x vf' out He d r; cbn [run_out];
    try (eapply IH; exact He).
  - specialize (He []). cbn in He. inversion He; subst. reflexivity.
  - apply emits_inv_contig in He. destruct He as (o & -> & He). unfold stream_write. cbn [os_bad os_throws andb].
    eapply IH; eauto.
  - specialize (He []). discriminate.
Qed.

Lemma run_out_room : forall A (p : prog A) vf a vf' out, emits p vf a vf' out -> forall throws d r,
  run_out again p vf (room_out throws d r) = after_out throws d out r a.
Proof.
  intros A p. induction p as [a|b k IH|n k IH|k IH|v k IH|e k IH|e]; intros vf x vf' out He throws d r; cbn [run_out];
    try (eapply IH; exact He).
  - specialize (He []). cbn in He. inversion He; subst. unfold after_out, room_out. rewrite len_nil.
    destruct (N.leb_spec 0 r); [|lia]. now rewrite app_nil_r, N.sub_0_r.
  - apply emits_inv_contig in He. destruct He as (o & -> & He). unfold stream_write, room_out at 1.
    cbn [os_bad os_throws os_room os_data]. unfold after_out. rewrite len_app.
    cbn [os_bad os_throws os_room os_data room_out].
    destruct (N.leb_spec (len b) r) as [Hb|Hb].
    + fold (room_out throws (d ++ b) (r - len b)). rewrite (IH _ _ _ _ _ He). unfold after_out.
      destruct (N.leb_spec (len o) (r - len b)), (N.leb_spec (len b + len o) r); try lia.
      * do 2 f_equal; [now rewrite app_assoc|f_equal; lia].
      * do 2 f_equal. rewrite firstn_app, (firstn_all2 (n := N.to_nat r) b) by (unfold len in Hb; lia).
        rewrite <- app_assoc. do 3 f_equal. unfold len. lia.
    + destruct (N.leb_spec (len b + len o) r); [lia|].
      replace (firstn (N.to_nat r) (b ++ o)) with (firstn (N.to_nat r) b).
      2:{ rewrite firstn_app. replace (N.to_nat r - length b)%nat with 0%nat by (unfold len in Hb; lia).
          now rewrite firstn_O, app_nil_r. }
      destruct throws; [reflexivity|]. eapply run_out_bad; eauto.
  - specialize (He []). discriminate.
Qed.

Lemma call_out_room : forall A (ps pp : prog A) a out vf vf', emits ps false a vf out -> emits pp false a vf' out ->
  forall throws d r, call_out again ps pp (room_out throws d r) = after_out throws d out r a.
Proof.
  intros A ps pp a out vf vf' Hs Hp throws d r. unfold call_out.
  pose proof (emits_sizer _ _ _ _ _ _ Hs 0) as H. change (wrap64 0) with 0 in H. rewrite H.
  eapply run_out_room; eauto.
Qed.
Lemma call_out_bad : forall A (ps pp : prog A) a out vf vf', emits ps false a vf out -> emits pp false a vf' out ->
  forall d r, call_out again ps pp {| os_data := d; os_room := r; os_bad := true; os_throws := false |} =
    (Done a, {| os_data := d; os_room := r; os_bad := true; os_throws := false |}).
Proof.
  intros A ps pp a out vf vf' Hs Hp d r. unfold call_out.
  pose proof (emits_sizer _ _ _ _ _ _ Hs 0) as H. change (wrap64 0) with 0 in H. rewrite H.
  eapply run_out_bad; eauto.
Qed.
End Out.

(** The stream receives the leading bytes it has room for.  If these are not all, a stream that
    throws ends the call with its exception, and another one does not. *)
Theorem C73_writing : forall E again f (l : list (ty * val)) throws d r whole, wf_env any E ->
  Forall (fun p => has_ty E (fst p) (snd p) /\ (depth (snd p) < f)%nat) l ->
  write_all E f l (out_stream []) = Ok whole ->
  write_objects again E f l (room_out throws d r) = after_out throws d (o_data whole) r tt.
Proof.
  intros E again f l throws d r whole wf H Hw.
  pose proof (write_all_ok E wf f l [] 0 H) as Hw'. change (wrap64 0) with 0 in Hw'.
  unfold out_stream in Hw. rewrite Hw' in Hw. inversion Hw; subst whole. cbn [o_data app]. clear Hw Hw'.
  revert d r H. induction l as [|[t v] l IH]; intros d r H; cbn [write_objects].
  - unfold after_out, room_out, enc_all. cbn [map concat]. rewrite len_nil.
    destruct (N.leb_spec 0 r); [|lia]. now rewrite app_nil_r, N.sub_0_r.
  - inversion H as [|? ? [Ht Hd] Hl]; subst. cbn [fst snd] in *.
    pose proof (pack_root any E wf MSizing (or_intror eq_refl) f t v Ht Hd) as Hps.
    pose proof (pack_root any E wf MPacking (or_introl eq_refl) f t v Ht Hd) as Hpp.
    unfold write_object at 1. rewrite (call_out_room again _ _ _ _ _ _ _ Hps Hpp).
    change (enc_all E ((t, v) :: l)) with (enc_root E t v ++ enc_all E l).
    set (b := enc_root E t v) in *. set (o := enc_all E l) in *.
    unfold after_out. rewrite len_app. destruct (N.leb_spec (len b) r) as [Hb|Hb].
    + fold (room_out throws (d ++ b) (r - len b)). rewrite (IH _ _ Hl). unfold after_out.
      destruct (N.leb_spec (len o) (r - len b)), (N.leb_spec (len b + len o) r); try lia.
      * do 2 f_equal; [now rewrite app_assoc|f_equal; lia].
      * do 2 f_equal. rewrite firstn_app, (firstn_all2 (n := N.to_nat r) b) by (unfold len in Hb; lia).
        rewrite <- app_assoc. do 3 f_equal. unfold len. lia.
    + destruct (N.leb_spec (len b + len o) r); [lia|].
      replace (firstn (N.to_nat r) (b ++ o)) with (firstn (N.to_nat r) b).
      2:{ rewrite firstn_app. replace (N.to_nat r - length b)%nat with 0%nat by (unfold len in Hb; lia).
          now rewrite firstn_O, app_nil_r. }
      destruct throws; [reflexivity|]. clear - wf Hl.
      generalize (d ++ firstn (N.to_nat r) b). intros z.
      induction l as [|[t' v'] l IH]; cbn [write_objects]; [reflexivity|].
      inversion Hl as [|? ? [Ht Hd] Hl']; subst. cbn [fst snd] in *.
      unfold write_object at 1.
      rewrite (call_out_bad again _ _ _ _ _ _ _ (pack_root any E wf MSizing (or_intror eq_refl) f t' v' Ht Hd)
        (pack_root any E wf MPacking (or_introl eq_refl) f t' v' Ht Hd)). now apply IH.
Qed.
Print Assumptions C73_writing.

(** The same for objects that contain Kokkos views and maps. *)
Theorem C73_writing_objects : forall E again span K f k v throws d r v' whole, wf_env any E -> wf_span span ->
  span [] [] = 1 -> (2 < f)%nat -> (forall t, k <> KVal t) -> kty_ok E k -> kheld E span K f k v ->
  member_to_stream E span K f k v (out_stream []) = Ok (v', whole) ->
  write_member again E span K f k v (room_out throws d r) = after_out throws d (o_data whole) r v.
Proof.
  intros E again span K f k v throws d r v' whole wf Hsp H0 Hf Hn Ht Hh Hw.
  pose proof (fun m Hm => e_root_member E wf span H0 K f Hf m Hm k v (conj Hn (conj Ht Hh))) as He.
  assert (Ho : o_data whole = wmem E span k v).
  { unfold member_to_stream, object_to_stream, out_stream in Hw.
    pose proof (emits_sizer _ _ _ _ _ _ (He MSizing (or_intror eq_refl)) 0) as Hs.
    change (wrap64 0) with 0 in Hs. rewrite Hs in Hw.
    pose proof (emits_stream _ _ _ _ _ _ (He MPacking (or_introl eq_refl)) [] 0) as Hp.
    change (wrap64 0) with 0 in Hp. rewrite Hp in Hw. injection Hw as _ <-. reflexivity. }
  rewrite Ho. unfold write_member. eapply call_out_room; apply He; auto.
Qed.
Print Assumptions C73_writing_objects.

(** ** Cases *)

(** What the theorems on writing and on truncated data ask for can be had. *)
Example C73_hypotheses : wf_env any (ex true) /\
  Forall (fun p => has_ty (ex true) (fst p) (snd p) /\ (depth (snd p) < 12)%nat) three /\
  exists whole, write_all (ex true) 12 three (out_stream []) = Ok whole /\ 700 < len (o_data whole).
Proof.
  split; [exact (ex_wf true any I)|]. split.
  - eapply Forall_impl; [|exact three_ok]. cbn. tauto.
  - eexists. split; [vm_compute; reflexivity|]. vm_compute. reflexivity.
Qed.

(** One object, and half of the next: the first read is fine, the second one fails, and so does a
    third one that would have had enough data at the start. *)
Definition reads (s : istate) : list (ended val) * istate :=
  let (a, s1) := read_new_object (ex true) 12 (TClass 0) s in
  let (b, s2) := read_new_object (ex true) 12 t_misc s1 in
  let (c, s3) := read_new_object (ex true) 12 (TClass 0) s2 in
  ([a; b; c], s3).

Example C73_case_cut :
  exists d x, enc_root (ex true) (TClass 0) v_node ++ firstn 40 (enc_root (ex true) t_misc v_misc) = d /\
    reads (good_in false d) = ([Done x; Threw (Library RtErr); Threw (Library RtErr)], failed_in false []) /\
    reads (good_in true d) = ([Done x; Threw Failure; Threw Failure], failed_in true []).
Proof.
  eexists. eexists. split; [vm_compute; reflexivity|].
  split; vm_compute; reflexivity.
Qed.

(** An object of another type, followed by eight bytes: the stream can be used further. *)
Example C73_case_type : forall throws,
  let d := enc_root (ex true) t_misc v_misc in
  let (r, s) := read_new_object (ex true) 12 (TClass 0) (good_in throws (d ++ le 8 77)) in
  r = Threw (Library (wrong_root_error (ex true) t_misc (TClass 0))) /\
  s = good_in throws (skipn 4 d ++ le 8 77).
Proof. intros throws. destruct throws; vm_compute; split; reflexivity. Qed.

(** Three objects and room for 700 bytes; and more than enough room. *)
Example C73_case_full : forall again,
  fst (write_objects again (ex true) 12 three (room_out true [] 700)) = Threw Failure /\
  fst (write_objects again (ex true) 12 three (room_out false [] 700)) = Done tt /\
  fst (write_objects again (ex true) 12 three (room_out true [] 100000)) = Done tt /\
  len (os_data (snd (write_objects again (ex true) 12 three (room_out true [] 700)))) = 700 /\
  os_data (snd (write_objects again (ex true) 12 three (room_out true [] 700))) =
    os_data (snd (write_objects again (ex true) 12 three (room_out false [] 700))).
Proof. intros again. destruct again; vm_compute; repeat split; reflexivity. Qed.

(** An object with views, vectors of views and a pointer to a view. *)
Example C73_case_object : forall again throws d r, exists out,
  write_member again (ex true) ex_span ex_map 3 ex_owner ex_object (room_out throws d r) =
    after_out throws d out r ex_object /\ 100 < len out.
Proof.
  intros again throws d r.
  destruct (member_to_stream (ex true) ex_span ex_map 3 ex_owner ex_object (out_stream []))
    as [[v' whole]|e] eqn:Hw.
  2:{ exfalso. assert (Hx : match member_to_stream (ex true) ex_span ex_map 3 ex_owner ex_object (out_stream [])
        with Ok _ => true | Err _ => false end = true) by (vm_compute; reflexivity).
      rewrite Hw in Hx. discriminate. }
  exists (o_data whole). split.
  - eapply C73_writing_objects; [now apply ex_wf|apply ex_span_wf|reflexivity|lia|discriminate
      |apply ex_object_ok|apply ex_object_ok|exact Hw].
  - assert (Hx : match member_to_stream (ex true) ex_span ex_map 3 ex_owner ex_object (out_stream [])
        with Ok (_, o) => 100 <? len (o_data o) | Err _ => false end = true) by (vm_compute; reflexivity).
    rewrite Hw in Hx. now apply N.ltb_lt.
Qed.
