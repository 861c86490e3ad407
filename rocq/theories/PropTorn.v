(** Property C57: what is left behind when reading over an object fails with an exception. *)
From Coq Require Import List NArith Arith Bool Lia.
From Coq.Strings Require Import Byte.
From Verif Require Import Base Syntax Prog Serializers Traverse Spec ProgFacts EnvFacts ValFacts
  Api ApiFacts Examples PropMemory Robust RobustFacts PropRobust Torn TornSpec TornFacts TornCut.
Import ListNotations.
Local Open Scope N_scope.

(** The objects that were constructed and that nobody destroys. *)
Definition lost_of {H} (o : outcome H) : list (ty * val) :=
  match o with Cont _ _ => [] | Stop _ lost => lost end.

(** A strict prefix [d] of what is written for [v]. *)
Definition cut_short (E : env) (f : nat) (t : ty) (v : val) (d : bytes) : Prop :=
  exists o l, serialize_to_stream E f t v (out_stream []) = Ok (v, o) /\
    o_data o = d ++ l /\ l <> [].

Section Glue.
Variable E : env.
Hypothesis wf : wf_env any E.

Lemma stream_short : forall b s e, contig stream_unpacker b s = Err e ->
  length (short_stream s b) = length b.
Proof.
  intros b s e He. cbn [contig stream_unpacker] in He. unfold short_stream.
  destruct (split_at (length b) (i_data s)) as [[x r]|] eqn:Es; [discriminate|].
  assert (length (i_data s) < length b)%nat.
  { destruct (Nat.le_gt_cases (length b) (length (i_data s))) as [Hle|]; auto. exfalso.
    assert (Hx : split_at (length b) (firstn (length b) (i_data s) ++ skipn (length b) (i_data s))
                 = Some (firstn (length b) (i_data s), skipn (length b) (i_data s))).
    { apply split_at_app. rewrite firstn_length. lia. }
    rewrite firstn_skipn in Hx. congruence. }
  rewrite app_length, skipn_length. lia.
Qed.

Lemma stream_len : forall b s x s', contig stream_unpacker b s = Ok (x, s') -> length x = length b.
Proof.
  intros b s x s' H. destruct (su_contig _ _ _ H) as [Hx|(y & s2 & Hx & Hl)]; [discriminate|].
  inversion Hx; subst. exact Hl.
Qed.

Lemma mem_contig : forall b s x, contig unpacker b s = x ->
  x = Err UB \/ exists y s', x = Ok (y, s') /\ length y = length b.
Proof.
  intros b s x <-. cbn [contig unpacker].
  destruct (split_at (length b) (skipn (u_cur s) (u_buf s))) as [[y r]|] eqn:Es; [|now left].
  apply split_at_inv in Es. right. exists y. eexists. split; [reflexivity|apply Es].
Qed.
Lemma mem_bump : forall i b s e, contig unpacker b s = Err e -> bump i e = e.
Proof.
  intros i b s e He. destruct (mem_contig _ _ _ He) as [Hx|(? & ? & Hx & _)]; [|discriminate].
  now inversion Hx.
Qed.
Lemma mem_len : forall b s x s', contig unpacker b s = Ok (x, s') -> length x = length b.
Proof.
  intros b s x s' H. destruct (mem_contig _ _ _ H) as [Hx|(y & s2 & Hx & Hl)]; [discriminate|].
  inversion Hx; subst. exact Hl.
Qed.

Lemma stream_outcome : forall f t i w,
  match in_place_from_stream E f t i w with
  | (x, Cont _ i') => deserialize_in_place_from_stream E f t i w = Ok (x, i')
  | (_, Stop e _) => deserialize_in_place_from_stream E f t i w = Err e
  end.
Proof.
  intros f t i w. unfold in_place_from_stream, deserialize_in_place_from_stream.
  pose proof (agree_root E stream_unpacker short_stream su_count su_note su_bump f t w i) as Ha.
  destruct (torn_root E stream_unpacker short_stream f t w i) as [x [vf s|e lost]];
    cbn [agree] in Ha; now rewrite Ha.
Qed.

Lemma memory_outcome : forall f t mem off w,
  match in_place_from_memory E f t mem off w with
  | (x, Cont _ s) => deserialize_in_place E f t mem off w = Ok (x, N.of_nat (u_cur s - off))
  | (_, Stop e _) => deserialize_in_place E f t mem off w = Err e
  end.
Proof.
  intros f t mem off w. unfold in_place_from_memory, deserialize_in_place, unpack_memory.
  pose proof (agree_root E unpacker (fun _ old => old) (fun _ _ => eq_refl) (fun _ _ => eq_refl)
    mem_bump f t w {| u_buf := mem; u_cur := off; u_used := 0 |}) as Ha.
  destruct (torn_root E unpacker (fun _ old => old) f t w _) as [x [vf s|e lost]];
    cbn [agree] in Ha; now rewrite Ha.
Qed.

Section Types.
Variable T : ty -> Prop.
Hypothesis rd : readable E T.

Lemma prims_raw : forall ct t, and_prims T ct -> in_raw E ct t -> T ct.
Proof. intros ct t [H|(id & sz & ->)] Hr; [exact H|destruct Hr]. Qed.

Lemma stray_lost : forall lost, Forall (stray E (and_prims T)) lost ->
  Forall (fun p => valid E (fst p) (snd p) /\ exists ct, T ct /\ in_raw E ct (fst p)) lost.
Proof.
  intros lost H. eapply Forall_impl; [|exact H]. intros p (Hv & ct & Hct & Hr).
  split; auto. exists ct. split; auto. eapply prims_raw; eauto.
Qed.

Lemma stream_valid : forall f t i w, T t -> valid E t w ->
  valid E t (fst (in_place_from_stream E f t i w)) /\
  Forall (fun p => valid E (fst p) (snd p) /\ exists ct, T ct /\ in_raw E ct (fst p))
    (lost_of (snd (in_place_from_stream E f t i w))).
Proof.
  intros f t i w Ht Hw.
  destruct (keep_root E wf (and_prims T) (readable_prims _ _ rd)
    (fun id sz => or_intror (ex_intro _ id (ex_intro _ sz eq_refl)))
    stream_unpacker short_stream su_count su_note su_bump stream_len stream_short
    f t w i (or_introl Ht) Hw) as (H1 & H2).
  fold (in_place_from_stream E f t i w) in H1, H2. split; auto.
  destruct (snd (in_place_from_stream E f t i w)) as [vf s|e lost]; [constructor|].
  now apply stray_lost.
Qed.

Lemma memory_valid : forall f t mem off w, T t -> valid E t w ->
  valid E t (fst (in_place_from_memory E f t mem off w)) /\
  Forall (fun p => valid E (fst p) (snd p) /\ exists ct, T ct /\ in_raw E ct (fst p))
    (lost_of (snd (in_place_from_memory E f t mem off w))).
Proof.
  intros f t mem off w Ht Hw.
  destruct (keep_root E wf (and_prims T) (readable_prims _ _ rd)
    (fun id sz => or_intror (ex_intro _ id (ex_intro _ sz eq_refl)))
    unpacker (fun _ old => old) (fun _ _ => eq_refl) (fun _ _ => eq_refl) mem_bump mem_len
    (fun _ _ _ _ => eq_refl) f t w {| u_buf := mem; u_cur := off; u_used := 0 |} (or_introl Ht) Hw)
    as (H1 & H2).
  fold (in_place_from_memory E f t mem off w) in H1, H2. split; auto.
  destruct (snd (in_place_from_memory E f t mem off w)) as [vf s|e lost]; [constructor|].
  now apply stray_lost.
Qed.

Lemma nothing_lost : forall lost, (forall ct t, T ct -> ~ in_raw E ct t) ->
  Forall (fun p => valid E (fst p) (snd p) /\ exists ct, T ct /\ in_raw E ct (fst p)) lost -> lost = [].
Proof.
  intros lost Hn H. destruct H as [|p l (_ & ct & H1 & H2) _]; auto. destruct (Hn _ _ H1 H2).
Qed.

Lemma again : (forall t, T t -> replaced E t) ->
  forall f t i w v d u f', T t -> valid E t w -> has_ty E t v -> (depth v < f')%nat ->
  serialize_to_stream E f' t v (out_stream []) = Ok (v, d) ->
  exists y i', copy_of v y /\
    deserialize_in_place_from_stream E f' t {| i_data := o_data d; i_nbytes := wrap64 u |}
      (fst (in_place_from_stream E f t i w)) = Ok (y, i') /\ i_data i' = [].
Proof.
  intros Hrep f t i w v d u f' Ht Hw Hv Hd Hs.
  pose proof (to_stream_ok E wf f' t v [] 0 Hv Hd) as Ho. change (wrap64 0) with 0 in Ho.
  unfold out_stream in Hs. rewrite Ho in Hs. inversion Hs; subst d. cbn [o_data app].
  destruct (stream_valid f t i w Ht Hw) as (Hx & _).
  destruct (in_place_stream_ok E wf f' t v _ Hv
    (valid_target E wf T rd Hrep t v _ Ht Hv Hx) Hd) as (y & Hc & Hy).
  exists y. eexists. split; auto. specialize (Hy [] u). rewrite app_nil_r in Hy.
  split; [exact Hy|reflexivity].
Qed.
End Types.

Lemma cut_enc : forall f t v d, has_ty E t v -> (depth v < f)%nat -> cut_short E f t v d ->
  exists l, d ++ l = enc_root E t v /\ l <> [].
Proof.
  intros f t v d Ht Hd (o & l & Ho & Hl & Hn).
  pose proof (to_stream_ok E wf f t v [] 0 Ht Hd) as H. change (wrap64 0) with 0 in H.
  unfold out_stream in Ho. rewrite H in Ho. inversion Ho; subst o. cbn [o_data app] in Hl. eauto.
Qed.
Lemma at_in : forall d, at_ d (in_stream d).
Proof. intros d. exists 0. reflexivity. Qed.

Lemma left_class : forall f c k vs ws d, cls E c = Some k -> cvirt k = false ->
  has_ty E (TClass c) (VObj c [vs]) ->
  target (fun _ _ => True) E (TClass c) (VObj c [vs]) (VObj c [ws]) ->
  (depth (VObj c [vs]) < f)%nat -> cut_short E f (TClass c) (VObj c [vs]) d ->
  exists xs lost,
    in_place_from_stream E f (TClass c) (in_stream d) (VObj c [ws]) = (VObj c [xs], Stop RtErr lost) /\
    partly (cser k MUnpacking) vs ws xs.
Proof.
  intros f c k vs ws d Hk Hv Ht HT Hd Hc. destruct (cut_enc _ _ _ _ Ht Hd Hc) as (l & Hl & Hn).
  exact (root_class E wf f c k vs ws d _ l Hk Hv Ht HT Hd (at_in d) Hl Hn).
Qed.

Lemma left_tuple : forall f ts vs ws d, has_ty E (TTuple ts) (VSeq vs) ->
  target (fun _ _ => True) E (TTuple ts) (VSeq vs) (VSeq ws) ->
  (depth (VSeq vs) < f)%nat -> cut_short E f (TTuple ts) (VSeq vs) d ->
  exists xs lost,
    in_place_from_stream E f (TTuple ts) (in_stream d) (VSeq ws) = (VSeq xs, Stop RtErr lost) /\
    partly (seq 0 (length vs)) vs ws xs.
Proof.
  intros f ts vs ws d Ht HT Hd Hc. destruct (cut_enc _ _ _ _ Ht Hd Hc) as (l & Hl & Hn).
  exact (root_tuple E wf f ts vs ws d _ l Ht HT Hd (at_in d) Hl Hn).
Qed.

Lemma left_pair : forall f a b va vb wa wb d, has_ty E (TPair a b) (VSeq [va; vb]) ->
  target (fun _ _ => True) E (TPair a b) (VSeq [va; vb]) (VSeq [wa; wb]) ->
  (depth (VSeq [va; vb]) < f)%nat -> cut_short E f (TPair a b) (VSeq [va; vb]) d ->
  exists xs lost,
    in_place_from_stream E f (TPair a b) (in_stream d) (VSeq [wa; wb]) = (VSeq xs, Stop RtErr lost) /\
    partly [0; 1]%nat [va; vb] [wa; wb] xs.
Proof.
  intros f a b va vb wa wb d Ht HT Hd Hc. destruct (cut_enc _ _ _ _ Ht Hd Hc) as (l & Hl & Hn).
  exact (root_pair E wf f a b va vb wa wb d _ l Ht HT Hd (at_in d) Hl Hn).
Qed.

Lemma left_array : forall f n t vs ws d, has_ty E (TArray n t) (VSeq vs) ->
  target (fun _ _ => True) E (TArray n t) (VSeq vs) (VSeq ws) ->
  bytecopy E t = false -> is_virtual E t = false ->
  (depth (VSeq vs) < f)%nat -> cut_short E f (TArray n t) (VSeq vs) d ->
  exists xs lost,
    in_place_from_stream E f (TArray n t) (in_stream d) (VSeq ws) = (VSeq xs, Stop RtErr lost) /\
    partly (seq 0 (length vs)) vs ws xs.
Proof.
  intros f n t vs ws d Ht HT Hb Hv Hd Hc. destruct (cut_enc _ _ _ _ Ht Hd Hc) as (l & Hl & Hn).
  exact (root_array E wf f n t vs ws d _ l Ht HT Hb Hv Hd (at_in d) Hl Hn).
Qed.

Lemma left_at_once : forall f t v w d, at_once E t -> has_ty E t v ->
  target (fun _ _ => True) E t v w -> (depth v < f)%nat -> cut_short E f t v d ->
  exists x lost, in_place_from_stream E f t (in_stream d) w = (x, Stop RtErr lost) /\
    (x = w \/ copy_of v x).
Proof.
  intros f t v w d Ha Ht HT Hd Hc. destruct (cut_enc _ _ _ _ Ht Hd Hc) as (l & Hl & Hn).
  exact (root_at_once E wf f t v w d _ l Ha Ht HT Hd (at_in d) Hl Hn).
Qed.
End Glue.

(** The states below belong to the calls of the other properties: same result, same exception. *)
Theorem C57_outcome : forall E f t i w,
  match in_place_from_stream E f t i w with
  | (x, Cont _ i') => deserialize_in_place_from_stream E f t i w = Ok (x, i')
  | (_, Stop e _) => deserialize_in_place_from_stream E f t i w = Err e
  end.
Proof. exact stream_outcome. Qed.
Print Assumptions C57_outcome.

Theorem C57_outcome_memory : forall E f t mem off w,
  match in_place_from_memory E f t mem off w with
  | (x, Cont _ s) => deserialize_in_place E f t mem off w = Ok (x, N.of_nat (u_cur s - off))
  | (_, Stop e _) => deserialize_in_place E f t mem off w = Err e
  end.
Proof. exact memory_outcome. Qed.
Print Assumptions C57_outcome_memory.

(** Whatever the stream holds, the object is afterwards an object of its type: members and
    elements of their types, containers in order, sizes within capacities. *)
Theorem C57_valid : forall E, wf_env any E -> forall T, readable E T ->
  forall f t i w, T t -> valid E t w ->
  valid E t (fst (in_place_from_stream E f t i w)).
Proof. intros. now apply stream_valid with (T := T). Qed.
Print Assumptions C57_valid.

(** The same for a buffer. *)
Theorem C57_valid_memory : forall E, wf_env any E -> forall T, readable E T ->
  forall f t mem off w, T t -> valid E t w ->
  valid E t (fst (in_place_from_memory E f t mem off w)).
Proof. intros. now apply memory_valid with (T := T). Qed.
Print Assumptions C57_valid_memory.

(** A stream that ends too early: the members of an object, in the order its serialize function
    visits them. *)
Theorem C57_members : forall E, wf_env any E -> forall f c k vs ws d,
  cls E c = Some k -> cvirt k = false ->
  has_ty E (TClass c) (VObj c [vs]) ->
  target (fun _ _ => True) E (TClass c) (VObj c [vs]) (VObj c [ws]) ->
  (depth (VObj c [vs]) < f)%nat -> cut_short E f (TClass c) (VObj c [vs]) d ->
  exists xs lost,
    in_place_from_stream E f (TClass c) (in_stream d) (VObj c [ws]) = (VObj c [xs], Stop RtErr lost) /\
    partly (cser k MUnpacking) vs ws xs.
Proof. exact left_class. Qed.
Print Assumptions C57_members.

(** Tuples, pairs and arrays. *)
Theorem C57_tuple : forall E, wf_env any E -> forall f ts vs ws d, has_ty E (TTuple ts) (VSeq vs) ->
  target (fun _ _ => True) E (TTuple ts) (VSeq vs) (VSeq ws) ->
  (depth (VSeq vs) < f)%nat -> cut_short E f (TTuple ts) (VSeq vs) d ->
  exists xs lost,
    in_place_from_stream E f (TTuple ts) (in_stream d) (VSeq ws) = (VSeq xs, Stop RtErr lost) /\
    partly (seq 0 (length vs)) vs ws xs.
Proof. exact left_tuple. Qed.
Print Assumptions C57_tuple.

Theorem C57_pair : forall E, wf_env any E -> forall f a b va vb wa wb d,
  has_ty E (TPair a b) (VSeq [va; vb]) ->
  target (fun _ _ => True) E (TPair a b) (VSeq [va; vb]) (VSeq [wa; wb]) ->
  (depth (VSeq [va; vb]) < f)%nat -> cut_short E f (TPair a b) (VSeq [va; vb]) d ->
  exists xs lost,
    in_place_from_stream E f (TPair a b) (in_stream d) (VSeq [wa; wb]) = (VSeq xs, Stop RtErr lost) /\
    partly [0; 1]%nat [va; vb] [wa; wb] xs.
Proof. exact left_pair. Qed.
Print Assumptions C57_pair.

Theorem C57_array : forall E, wf_env any E -> forall f n t vs ws d, has_ty E (TArray n t) (VSeq vs) ->
  target (fun _ _ => True) E (TArray n t) (VSeq vs) (VSeq ws) ->
  bytecopy E t = false -> is_virtual E t = false ->
  (depth (VSeq vs) < f)%nat -> cut_short E f (TArray n t) (VSeq vs) d ->
  exists xs lost,
    in_place_from_stream E f (TArray n t) (in_stream d) (VSeq ws) = (VSeq xs, Stop RtErr lost) /\
    partly (seq 0 (length vs)) vs ws xs.
Proof. exact left_array. Qed.
Print Assumptions C57_array.

(** Optionals, variants, enumerations and durations: all or nothing. *)
Theorem C57_at_once : forall E, wf_env any E -> forall f t v w d, at_once E t -> has_ty E t v ->
  target (fun _ _ => True) E t v w -> (depth v < f)%nat -> cut_short E f t v d ->
  exists x lost, in_place_from_stream E f t (in_stream d) w = (x, Stop RtErr lost) /\
    (x = w \/ copy_of v x).
Proof. exact left_at_once. Qed.
Print Assumptions C57_at_once.

(** Reading again, from a complete stream, restores the object: whatever the first stream held
    and wherever the first call stopped. *)
Theorem C57_again : forall E, wf_env any E -> forall T, readable E T ->
  (forall t, T t -> replaced E t) ->
  forall f t i w v d u f', T t -> valid E t w -> has_ty E t v -> (depth v < f')%nat ->
  serialize_to_stream E f' t v (out_stream []) = Ok (v, d) ->
  exists y i', copy_of v y /\
    deserialize_in_place_from_stream E f' t {| i_data := o_data d; i_nbytes := wrap64 u |}
      (fst (in_place_from_stream E f t i w)) = Ok (y, i') /\ i_data i' = [].
Proof. exact again. Qed.
Print Assumptions C57_again.

(** The objects that are never destroyed are elements of containers whose elements are read
    outside the container. *)
Theorem C57_destroyed_partial : forall E, wf_env any E -> forall T, readable E T ->
  forall f t i w, T t -> valid E t w ->
  Forall (fun p => valid E (fst p) (snd p) /\ exists ct, T ct /\ in_raw E ct (fst p))
    (lost_of (snd (in_place_from_stream E f t i w))) /\
  ((forall ct t', T ct -> ~ in_raw E ct t') -> lost_of (snd (in_place_from_stream E f t i w)) = []).
Proof.
  intros E wf T rd f t i w Ht Hw. destruct (stream_valid E wf T rd f t i w Ht Hw) as (_ & H).
  split; auto. intros Hn. now apply nothing_lost with (E := E) (T := T).
Qed.
Print Assumptions C57_destroyed_partial.

Theorem C57_destroyed_memory_partial : forall E, wf_env any E -> forall T, readable E T ->
  forall f t mem off w, T t -> valid E t w ->
  Forall (fun p => valid E (fst p) (snd p) /\ exists ct, T ct /\ in_raw E ct (fst p))
    (lost_of (snd (in_place_from_memory E f t mem off w))) /\
  ((forall ct t', T ct -> ~ in_raw E ct t') ->
   lost_of (snd (in_place_from_memory E f t mem off w)) = []).
Proof.
  intros E wf T rd f t mem off w Ht Hw.
  destruct (memory_valid E wf T rd f t mem off w Ht Hw) as (_ & H).
  split; auto. intros Hn. now apply nothing_lost with (E := E) (T := T).
Qed.
Print Assumptions C57_destroyed_memory_partial.

(** ** Cases *)
Definition node_types : list ty :=
  [TClass 0; DBL; TVector TString; TString; TUnique (TClass 0)].
Definition in_node (t : ty) : Prop := In t node_types.

Lemma node_readable : readable pl in_node.
Proof.
  split.
  - intros t H. unfold in_node, node_types in *. eachtype H; cbn [parts];
      try exact I; try (classparts; fail); try (split; [ins|discriminate]).
    split; [intros _; split; [ins|discriminate]|].
    intros c d Hc Hin Hi. inversion Hc; subst.
    do 14 (destruct d as [|d]; [cbn in Hin; try (now destruct Hin); try (ins; fail);
        repeat (destruct Hin as [Hin|Hin]; [discriminate|]); now destruct Hin|]);
      now destruct Hin.
  - intros c k ls H Hk Hc Hb. unfold in_node, node_types in H.
    repeat (destruct H as [H|H]; [try discriminate; inversion H; subst; cbn in Hk; inversion Hk; subst;
      cbn in Hc; destruct Hc as [Hc|[Hc|Hc]]; try discriminate; inversion Hc; subst; objects|]).
    destruct H.
Qed.

Lemma node_replaced : forall t, in_node t -> replaced pl t.
Proof.
  intros t H. unfold in_node, node_types in H. eachtype H; try exact I; [left|]; reflexivity.
Qed.

Definition str (b : bytes) : val := VStr 15 b.
(** A node that was written, and one that it is read over. *)
Definition n_src : list val := [w8 1; VVec 2 [str [x61; x62]; str [x63]]; VOpt None].
Definition n_old : list val :=
  [w8 9; VVec 1 [str [x6f]]; VOpt (Some (VObj 0 [[w8 7; VVec 0 []; VOpt None]]))].

Definition node_bytes : bytes :=
  match serialize_to_stream pl 20 (TClass 0) (VObj 0 [n_src]) (out_stream []) with
  | Ok (_, o) => o_data o
  | Err _ => []
  end.

Lemma n_src_ty : has_ty pl (TClass 0) (VObj 0 [n_src]).
Proof. unfold pl. ht. Qed.
Lemma n_old_valid : valid pl (TClass 0) (VObj 0 [n_old]).
Proof. objects. Qed.
Lemma n_target : target (fun _ _ => True) pl (TClass 0) (VObj 0 [n_src]) (VObj 0 [n_old]).
Proof.
  apply (valid_target pl pl_wf _ node_readable node_replaced); [left; reflexivity|apply n_src_ty|].
  apply n_old_valid.
Qed.
Lemma node_cut : forall k, (k < 188)%nat ->
  cut_short pl 20 (TClass 0) (VObj 0 [n_src]) (firstn k node_bytes).
Proof.
  intros k Hk. eexists. exists (skipn k node_bytes). split; [vm_compute; reflexivity|].
  split; [symmetry; apply firstn_skipn|].
  intros Hn. apply (f_equal (@length _)) in Hn. rewrite skipn_length in Hn.
  replace (length node_bytes) with 188%nat in Hn by (vm_compute; reflexivity). cbn [length] in Hn. lia.
Qed.

(** After 120 of 188 bytes: the number has been read, of the two names the first one, the
    pointer is as it was. *)
Example C57_members_case :
  wf_env any pl /\ has_ty pl (TClass 0) (VObj 0 [n_src]) /\
  target (fun _ _ => True) pl (TClass 0) (VObj 0 [n_src]) (VObj 0 [n_old]) /\
  cut_short pl 20 (TClass 0) (VObj 0 [n_src]) (firstn 120 node_bytes) /\
  in_place_from_stream pl 20 (TClass 0) (in_stream (firstn 120 node_bytes)) (VObj 0 [n_old])
  = (VObj 0 [[w8 1; VVec 2 [str [x61; x62]; str []]; nth 2 n_old (VOpt None)]], Stop RtErr []).
Proof.
  split; [apply pl_wf|]. split; [apply n_src_ty|]. split; [apply n_target|].
  split; [apply node_cut; lia|]. vm_compute. reflexivity.
Qed.

(** Wherever the stream is cut, the next, complete one is read correctly. *)
Example C57_again_case : forall k,
  exists y i', copy_of (VObj 0 [n_src]) y /\
    deserialize_in_place_from_stream pl 20 (TClass 0) {| i_data := node_bytes; i_nbytes := wrap64 0 |}
      (fst (in_place_from_stream pl 20 (TClass 0) (in_stream (firstn k node_bytes)) (VObj 0 [n_old])))
    = Ok (y, i') /\ i_data i' = [].
Proof.
  intros k.
  destruct (serialize_to_stream pl 20 (TClass 0) (VObj 0 [n_src]) (out_stream [])) as [[v o]|e] eqn:Eo;
    [|vm_compute in Eo; discriminate].
  assert (Hn : node_bytes = o_data o) by (unfold node_bytes; now rewrite Eo). rewrite Hn.
  apply (C57_again pl pl_wf in_node node_readable node_replaced).
  - left. reflexivity.
  - apply n_old_valid.
  - apply n_src_ty.
  - vm_compute. lia.
  - rewrite Eo. f_equal. f_equal. vm_compute in Eo. now inversion Eo.
Qed.

(** Damaged bytes: whatever they are, the node stays a node and nothing is lost. *)
Example C57_valid_case : forall d f,
  valid pl (TClass 0) (fst (in_place_from_stream pl f (TClass 0) (in_stream d) (VObj 0 [n_old]))) /\
  lost_of (snd (in_place_from_stream pl f (TClass 0) (in_stream d) (VObj 0 [n_old]))) = [].
Proof.
  intros d f. split.
  - apply (C57_valid pl pl_wf in_node node_readable); [left; reflexivity|apply n_old_valid].
  - apply (C57_destroyed_partial pl pl_wf in_node node_readable);
      [left; reflexivity|apply n_old_valid|].
    intros ct t' H. unfold in_node, node_types in H. eachtype H; intros Hx; destruct Hx.
Qed.

(** Bytes of other values. *)
Definition bytes_of (t : ty) (v : val) : bytes :=
  match serialize_to_stream pl 20 t v (out_stream []) with Ok (_, o) => o_data o | Err _ => [] end.
Definition left_by (t : ty) (v w : val) (k : nat) : val * list (ty * val) :=
  let r := in_place_from_stream pl 20 t (in_stream (firstn k (bytes_of t v))) w in
  (fst r, lost_of (snd r)).

Lemma bytes_cut : forall t v k o, serialize_to_stream pl 20 t v (out_stream []) = Ok (v, o) ->
  (k < length (bytes_of t v))%nat -> cut_short pl 20 t v (firstn k (bytes_of t v)).
Proof.
  intros t v k o Ho Hk. unfold bytes_of in *. rewrite Ho in *.
  exists o, (skipn k (o_data o)). split; auto. split; [symmetry; apply firstn_skipn|].
  intros Hn. apply (f_equal (@length _)) in Hn. rewrite skipn_length in Hn. cbn in Hn. lia.
Qed.
Ltac cutting := eapply bytes_cut; [vm_compute; reflexivity|vm_compute; lia].

Example C57_tuple_case :
  let t := TTuple [OINT; TString] in let v := VSeq [w4 3; str [x61; x62]] in
  let w := VSeq [w4 9; str [x6f]] in
  has_ty pl t v /\ target (fun _ _ => True) pl t v w /\ cut_short pl 20 t v (firstn 40 (bytes_of t v)) /\
  left_by t v w 40 = (VSeq [w4 3; str [x6f]], []).
Proof.
  cbv zeta. split; [unfold pl; ht|]. split; [repeat (constructor; cbn)|].
  split; [cutting|]. vm_compute. reflexivity.
Qed.

(** A vector of which only the capacity could be read: reserved, and otherwise as it was; after the
    size it also has new elements. *)
Example C57_reserved_case :
  let t := TVector OINT in let v := VVec 5 [w4 3; w4 4] in let w := VVec 1 [w4 9] in
  has_ty pl t v /\ target (fun _ _ => True) pl t v w /\
  left_by t v w 20 = (w, []) /\ left_by t v w 30 = (VVec 5 [w4 9], []) /\
  left_by t v w 45 = (VVec 5 [w4 9; w4 0], []).
Proof.
  cbv zeta. split; [unfold pl; ht|].
  split; [constructor; [exact I|left; reflexivity|repeat (constructor; cbn)]|].
  split; [vm_compute; reflexivity|]. split; vm_compute; reflexivity.
Qed.

Example C57_pair_case :
  let t := TPair OINT TString in let v := VSeq [w4 3; str [x61; x62]] in
  let w := VSeq [w4 9; str [x6f]] in
  has_ty pl t v /\ target (fun _ _ => True) pl t v w /\ cut_short pl 20 t v (firstn 10 (bytes_of t v)) /\
  left_by t v w 10 = (VSeq [VB [x03; x00; x00; x00]; str [x6f]], []).
Proof.
  cbv zeta. split; [unfold pl; ht|]. split; [repeat (constructor; cbn)|].
  split; [cutting|]. vm_compute. reflexivity.
Qed.

Example C57_array_case :
  let t := TArray 2 TString in let v := VSeq [str [x61; x62]; str [x63]] in
  let w := VSeq [str [x6f]; str [x70]] in
  has_ty pl t v /\ target (fun _ _ => True) pl t v w /\ cut_short pl 20 t v (firstn 50 (bytes_of t v)) /\
  left_by t v w 50 = (VSeq [str [x61; x62]; str [x70]], []).
Proof.
  cbv zeta. split; [unfold pl; ht|]. split; [repeat (constructor; cbn)|].
  split; [cutting|]. vm_compute. reflexivity.
Qed.

(** An optional: nothing changes until all has been read; the copy under construction is lost. *)
Example C57_at_once_case :
  let t := TOptional TString in let v := VOpt (Some (str [x61; x62])) in
  let w := VOpt (Some (str [x6f])) in
  has_ty pl t v /\ target (fun _ _ => True) pl t v w /\ cut_short pl 20 t v (firstn 60 (bytes_of t v)) /\
  left_by t v w 60 = (w, [(TString, str [x61; x62])]).
Proof.
  cbv zeta. split; [unfold pl; ht|]. split; [repeat (constructor; cbn)|].
  split; [cutting|]. vm_compute. reflexivity.
Qed.

(** A pointer that was null owns the object that was being read; a pointee is read in place. *)
Example C57_pointer_case :
  let t := TUnique (TClass 0) in let v := VOpt (Some (VObj 0 [n_src])) in
  has_ty pl t v /\ cut_short pl 20 t v (firstn 60 (bytes_of t v)) /\
  left_by t v (VOpt None) 60 = (VOpt (Some (VObj 0 [[w8 1; VVec 0 []; VOpt None]])), []) /\
  left_by t v (VOpt (Some (VObj 0 [n_old]))) 60 = (VOpt (Some (VObj 0 [w8 1 :: tl n_old])), []) /\
  left_by t v (VOpt (Some (VObj 0 [n_old]))) 16 = (VOpt (Some (VObj 0 [n_old])), []).
Proof.
  cbv zeta. split; [unfold pl; ht|]. split; [cutting|].
  split; [vm_compute; reflexivity|]. split; vm_compute; reflexivity.
Qed.

(** From a buffer: the type of the second member does not match, the first has been read. *)
Example C57_memory_case :
  let b := upd node_bytes 25 x00 in
  in_place_from_memory pl 20 (TClass 0) b 0 (VObj 0 [n_old])
  = (VObj 0 [w8 1 :: tl n_old],
     Stop (SerErr 1 [WrongType (tix pl (TVector TString)) (unle (firstn 4 (skipn 24 b))) (tix pl (TVector TString));
                     Frame 1 (tix pl (TClass 0))]) []).
Proof. vm_compute. reflexivity. Qed.

(** "Every object that was constructed is destroyed" is false: a queue of vectors whose second
    element is incomplete.  The storage of that vector is lost. *)
Definition queue_types : list ty := [TQueue (TVector OINT); TVector OINT; OINT].
Lemma queue_readable : readable pl (fun t => In t queue_types).
Proof.
  split.
  - intros t H. unfold queue_types in *. eachtype H; cbn [parts]; try exact I; split; [ins|discriminate|ins|].
    discriminate.
  - intros c k ls H. unfold queue_types in H. repeat (destruct H as [H|H]; [discriminate|]). destruct H.
Qed.

Theorem C57_destroyed_refuted :
  exists E T t v w f d x cap l, wf_env any E /\ readable E T /\ T t /\
    has_ty E t v /\ target (fun _ _ => True) E t v w /\ cut_short E f t v d /\
    in_place_from_stream E f t (in_stream d) w = (x, Stop RtErr [(TVector OINT, VVec cap l)]) /\
    0 < cap /\ l <> [].
Proof.
  exists pl, (fun t => In t queue_types), (TQueue (TVector OINT)),
    (VSeq [VVec 1 [w4 5]; VVec 2 [w4 6; w4 7]]), (VSeq []), 20%nat,
    (firstn 150 (bytes_of (TQueue (TVector OINT)) (VSeq [VVec 1 [w4 5]; VVec 2 [w4 6; w4 7]]))).
  eexists _, 2, [w4 6; w4 7].
  split; [apply pl_wf|]. split; [apply queue_readable|]. split; [left; reflexivity|].
  split; [unfold pl; ht|]. split; [constructor|]. split; [cutting|].
  split; [vm_compute; reflexivity|]. split; [lia|discriminate].
Qed.
Print Assumptions C57_destroyed_refuted.
