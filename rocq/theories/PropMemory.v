(** Properties C01-C07, C16-C19, C21, C29, C34: round trips, sizes, buffers,
    streams, containers.

    Hypotheses shared by most theorems:
    - [wf_env any E]: user code keeps its side of the contract (Spec.v);
    - [has_ty E t v]: [v] is a value of the serializable type [t] (Spec.v);
    - [constructible E t]: [t] can be constructed before it is read into;
    - [depth v < f]: enough recursion fuel for the model (any larger amount);
    - [len (enc_root E t v) < two64]: the serialized form fits the address space. *)
From Coq Require Import List NArith Arith Bool Lia Permutation.
From Coq.Strings Require Import Byte.
From Verif Require Import Base Syntax Prog Serializers Traverse Spec ProgFacts EnvFacts ValFacts
  Pack Unpack Api ApiFacts Registry Examples.
Import ListNotations.
Local Open Scope N_scope.

(** deserialize<T>(serialize(v)->getBuffer()) returns [v']. *)
Definition round_trip (E : env) (f : nat) (t : ty) (v v' : val) : Prop :=
  exists s n, serialize E f t v None = Ok s /\ deserialize E f t (s_bytes s) 0 = Ok (v', n).

(** deserializeInPlace(serialize(v)->getBuffer(), &w) leaves [v'] in [w]. *)
Definition round_trip_onto (E : env) (f : nat) (t : ty) (v w v' : val) : Prop :=
  exists s n, serialize E f t v None = Ok s /\
              deserialize_in_place E f t (s_bytes s) 0 w = Ok (v', n).

(** An output stream without limit and an input stream. *)
Definition out_stream (d : bytes) : ostream :=
  {| o_data := d; o_room := None; o_bad := false; o_nbytes := 0 |}.
Definition in_stream (d : bytes) : istream := {| i_data := d; i_nbytes := 0 |}.

Section Glue.
Variable E : env.
Hypothesis wf : wf_env any E.

Lemma round_trip_copy : forall f t v, has_ty E t v -> constructible E t -> (depth v < f)%nat ->
  len (enc_root E t v) < two64 -> exists v', round_trip E f t v v' /\ copy_of v v'.
Proof.
  intros f t v Ht Hc Hd Hl. destruct (deserialize_ok E wf f t v Ht Hc Hd) as (x & Hx & H).
  exists x. split; auto. eexists. exists (len (enc_root E t v)).
  split; [apply serialize_managed; auto|]. cbn [s_bytes].
  specialize (H [] []). cbn [app length] in H. now rewrite app_nil_r in H.
Qed.

Lemma round_trip_onto_copy : forall f t v w, has_ty E t v -> target (fun _ _ => True) E t v w ->
  (depth v < f)%nat -> len (enc_root E t v) < two64 ->
  exists v', round_trip_onto E f t v w v' /\ copy_of v v'.
Proof.
  intros f t v w Ht Hw Hd Hl. destruct (in_place_ok E wf f t v w Ht Hw Hd) as (x & Hx & H).
  exists x. split; auto. eexists. exists (len (enc_root E t v)).
  split; [apply serialize_managed; auto|]. cbn [s_bytes].
  specialize (H [] []). cbn [app length] in H. now rewrite app_nil_r in H.
Qed.

Lemma round_trip_fun : forall f t v a b, round_trip E f t v a -> round_trip E f t v b -> a = b.
Proof.
  intros f t v a b (s & n & H1 & H2) (s' & n' & H3 & H4). rewrite H1 in H3. inversion H3; subst.
  rewrite H2 in H4. now inversion H4.
Qed.

Lemma prefix_of_other : forall f t v w j l, has_ty E t v -> has_ty E t w -> constructible E t ->
  (depth v < f)%nat -> (depth w < f)%nat -> enc_root E t w = j ++ l ->
  enc_root E t v = j -> l = [].
Proof.
  intros f t v w j l Hv Hw Hc Hdv Hdw Hj Hvj.
  destruct l as [|b l]; auto. exfalso.
  pose proof (memory_prefix E wf f t w j (b :: l) [] Hw Hc Hdw Hj ltac:(discriminate)) as HU.
  destruct (deserialize_ok E wf f t v Hv Hc Hdv) as (x & _ & H). specialize (H [] []).
  cbn [app length] in *. rewrite app_nil_r in H. subst j. congruence.
Qed.
End Glue.

(** Discharges the shared hypotheses for a value of Examples.v. *)
Ltac ex_case thm tylem :=
  match goal with
  | b : bool |- _ =>
    apply thm; [ apply ex_wf; exact I | apply tylem | destruct b; vm_compute; discriminate
               | vm_compute; lia | destruct b; vm_compute; reflexivity ]
  end.

(** ** C01 *)
Theorem C01_memory_round_trip : forall E f t v,
  wf_env any E -> has_ty E t v -> constructible E t -> (depth v < f)%nat ->
  len (enc_root E t v) < two64 ->
  exists s v' n, serialize E f t v None = Ok s /\
    deserialize E f t (s_bytes s) 0 = Ok (v', n) /\ same v v'.
Proof.
  intros E f t v wf Ht Hc Hd Hl.
  destruct (round_trip_copy E wf f t v Ht Hc Hd Hl) as (v' & (s & n & H1 & H2) & Hs).
  exists s, v', n. repeat split; auto. apply (sim_mono N.le); auto.
Qed.
Print Assumptions C01_memory_round_trip.

(** Recursive class, polymorphic pointees and a tuple of most container types, in
    both build modes. *)
Example C01_case : forall b,
  let E := ex b in
  (exists s v' n, serialize E 12 (TClass 0) v_node None = Ok s /\
     deserialize E 12 (TClass 0) (s_bytes s) 0 = Ok (v', n) /\ same v_node v') /\
  (exists s v' n, serialize E 12 t_shapes v_shapes None = Ok s /\
     deserialize E 12 t_shapes (s_bytes s) 0 = Ok (v', n) /\ same v_shapes v') /\
  (exists s v' n, serialize E 12 t_misc v_misc None = Ok s /\
     deserialize E 12 t_misc (s_bytes s) 0 = Ok (v', n) /\ same v_misc v').
Proof.
  intros b E. unfold E. split; [|split].
  - ex_case C01_memory_round_trip v_node_ty.
  - ex_case C01_memory_round_trip v_shapes_ty.
  - ex_case C01_memory_round_trip v_misc_ty.
Qed.

(** ** C02 *)
Theorem C02_size_exact : forall E f t v,
  wf_env any E -> has_ty E t v -> (depth v < f)%nat -> len (enc_root E t v) < two64 ->
  exists n s, get_size E f t v = Ok (v, n) /\
    serialize E f t v None = Ok s /\ s_size s = n /\ len (s_bytes s) = n /\ len (s_mem s) = n /\
    (* what the packer itself does, into any memory that is large enough *)
    forall before room, n <= len room ->
      exists m, interp packer (with_root E MPacking f t v) false
                  {| p_buf := before ++ room; p_cur := length before; p_used := 0 |} = Ok m /\
        p_used (snd m) = n /\ N.of_nat (p_cur (snd m)) = len before + n.
Proof.
  intros E f t v wf Ht Hd Hl. exists (len (enc_root E t v)). eexists.
  split; [apply size_len; auto|]. split; [apply serialize_managed; auto|].
  cbn [s_size s_bytes s_mem]. repeat (split; [reflexivity|]).
  intros before room Hr.
  assert (Hlen : (length (enc_root E t v) <= length room)%nat) by (unfold len in Hr; lia).
  pose proof (emits_packer _ _ _ _ _ _
    (pack_root any E wf MPacking (or_introl eq_refl) f t v Ht Hd)
    before (firstn (length (enc_root E t v)) room) (skipn (length (enc_root E t v)) room)
    (length before) 0) as H.
  rewrite firstn_skipn, firstn_length, Nat.min_l in H by exact Hlen.
  specialize (H eq_refl eq_refl). change (wrap64 0) with 0 in H.
  eexists. split; [exact H|]. cbn [snd p_used p_cur].
  rewrite N.add_0_l. unfold wrap64. rewrite N.mod_small by auto. split; auto.
  unfold len. lia.
Qed.
Print Assumptions C02_size_exact.

Example C02_case :
  get_size (ex true) 12 t_misc v_misc = Ok (v_misc, 1142) /\
  get_size (ex false) 12 t_misc v_misc = Ok (v_misc, 302).
Proof. split; vm_compute; reflexivity. Qed.

(** ** C03 *)
Theorem C03_stays_in_buffer : forall E f t v before old after,
  wf_env any E -> has_ty E t v -> (depth v < f)%nat -> len (enc_root E t v) < two64 ->
  get_size E f t v = Ok (v, len old) ->
  exists s, serialize E f t v
      (Some (fun _ => Some {| r_before := before; r_buf := old; r_after := after |})) = Ok s /\
    s_mem s = before ++ s_bytes s ++ after /\ length (s_bytes s) = length old /\
    (* every byte of the buffer is written: the outcome does not depend on what
       was there before *)
    forall old', length old' = length old ->
      exists s', serialize E f t v
        (Some (fun _ => Some {| r_before := before; r_buf := old'; r_after := after |})) = Ok s' /\
        s_bytes s' = s_bytes s.
Proof.
  intros E f t v before old after wf Ht Hd Hl Hs.
  rewrite size_len in Hs by auto. inversion Hs as [Ho]. apply Nat2N.inj in Ho.
  assert (G : forall o, length o = length old -> exists s,
    serialize E f t v (Some (fun _ => Some {| r_before := before; r_buf := o; r_after := after |})) = Ok s /\
    s_mem s = before ++ enc_root E t v ++ after /\ s_bytes s = enc_root E t v).
  { intros o Hlo. eexists. split.
    - apply (serialize_user E wf f t v _ before o [] after); auto; [lia|]. now rewrite app_nil_r.
    - split; reflexivity. }
  destruct (G old eq_refl) as (s & H1 & H2 & H3). exists s.
  repeat split; auto; try congruence.
  intros o Hlo. destruct (G o Hlo) as (s' & H1' & H2' & H3'). exists s'. split; auto. congruence.
Qed.
Print Assumptions C03_stays_in_buffer.

Example C03_case :
  exists s, serialize (ex true) 12 (TClass 0) v_node
      (Some (fun _ => Some {| r_before := [x2a; x2b]; r_buf := repeat xff 301; r_after := [x2c] |})) = Ok s /\
    firstn 2 (s_mem s) = [x2a; x2b] /\ skipn 303 (s_mem s) = [x2c].
Proof. eexists. split; [vm_compute; reflexivity|]. split; vm_compute; reflexivity. Qed.

(** ** C04 *)
Theorem C04_exact_consumption : forall E f t v,
  wf_env any E -> has_ty E t v -> constructible E t -> (depth v < f)%nat ->
  len (enc_root E t v) < two64 ->
  exists s v', serialize E f t v None = Ok s /\ same v v' /\
    forall before after,
      deserialize E f t (before ++ s_bytes s ++ after) (length before) = Ok (v', len (s_bytes s)).
Proof.
  intros E f t v wf Ht Hc Hd Hl.
  destruct (deserialize_ok E wf f t v Ht Hc Hd) as (x & Hx & H).
  eexists. exists x. split; [apply serialize_managed; auto|]. split; [|exact H].
  apply (sim_mono N.le); auto.
Qed.
Print Assumptions C04_exact_consumption.

Example C04_case : forall before after, exists s v',
  serialize (ex true) 12 t_shapes v_shapes None = Ok s /\ same v_shapes v' /\
  deserialize (ex true) 12 t_shapes (before ++ s_bytes s ++ after) (length before)
  = Ok (v', 737).
Proof.
  intros before after.
  destruct (C04_exact_consumption (ex true) 12 t_shapes v_shapes) as (s & v' & Hs & H & Hd);
    [ apply ex_wf; exact I | apply v_shapes_ty | vm_compute; discriminate | vm_compute; lia
    | vm_compute; reflexivity | ].
  exists s, v'. repeat split; auto. rewrite Hd.
  assert (Hl : len (s_bytes s) = 737) by (vm_compute in Hs; inversion Hs; vm_compute; reflexivity).
  now rewrite Hl.
Qed.

(** ** C05 *)
Theorem C05_stream_sequences : forall E f (l : list (ty * val)) after,
  wf_env any E ->
  Forall (fun p => has_ty E (fst p) (snd p) /\ constructible E (fst p) /\ (depth (snd p) < f)%nat) l ->
  exists o vs i,
    write_all E f l (out_stream []) = Ok o /\ o_bad o = false /\
    read_all E f (map fst l) (in_stream (o_data o ++ after)) = Ok (vs, i) /\
    Forall2 (fun p v' => same (snd p) v') l vs /\ i_data i = after.
Proof.
  intros E f l after wf H.
  pose proof (write_all_ok E wf f l [] 0) as Hw.
  destruct (read_all_ok E wf f l after 0 H) as (vs & Hvs & Hr).
  change (wrap64 0) with 0 in *.
  eexists. exists vs. eexists. split; [apply Hw|].
  - eapply Forall_impl; [|exact H]. cbn. tauto.
  - cbn [o_data o_bad app]. split; auto. split; [exact Hr|]. split; auto.
    clear -Hvs. induction Hvs; constructor; auto. apply (sim_mono N.le); auto.
Qed.
Print Assumptions C05_stream_sequences.

Example C05_case : forall after, exists o vs i,
  write_all (ex true) 12 [(TClass 0, v_node); (t_misc, v_misc); (t_shapes, v_shapes); (TClass 0, v_node)]
    (out_stream []) = Ok o /\ o_bad o = false /\
  read_all (ex true) 12 [TClass 0; t_misc; t_shapes; TClass 0] (in_stream (o_data o ++ after)) = Ok (vs, i) /\
  length vs = 4%nat /\ i_data i = after.
Proof.
  intros after.
  destruct (C05_stream_sequences (ex true) 12
    [(TClass 0, v_node); (t_misc, v_misc); (t_shapes, v_shapes); (TClass 0, v_node)] after)
    as (o & vs & i & H1 & H2 & H3 & H4 & H5).
  - apply ex_wf; exact I.
  - repeat (apply Forall_cons; [cbn [fst snd]; split; [|split];
      [first [apply v_node_ty | apply v_shapes_ty | apply v_misc_ty]
      | vm_compute; discriminate | vm_compute; lia]|]); apply Forall_nil.
  - exists o, vs, i. repeat split; auto.
    apply (f_equal (@length _)) in H5 || idtac.
    clear -H4. inversion H4 as [|? ? ? ? _ A]; subst. inversion A as [|? ? ? ? _ B]; subst.
    inversion B as [|? ? ? ? _ C]; subst. inversion C as [|? ? ? ? _ D]; subst.
    inversion D; subst. reflexivity.
Qed.

(** ** C06 *)
Theorem C06_truncated_stream : forall E f t v o k,
  wf_env any E -> has_ty E t v -> constructible E t -> (depth v < f)%nat ->
  serialize_to_stream E f t v (out_stream []) = Ok (v, o) ->
  (k < length (o_data o))%nat ->
  deserialize_from_stream E f t (in_stream (firstn k (o_data o))) = Err RtErr.
Proof.
  intros E f t v o k wf Ht Hc Hd Ho Hk.
  pose proof (to_stream_ok E wf f t v [] 0 Ht Hd) as H. change (wrap64 0) with 0 in H.
  unfold out_stream in Ho. rewrite H in Ho. inversion Ho; subst o. cbn [o_data app] in *.
  apply (stream_prefix E wf f t v _ (skipn k (enc_root E t v)) 0); auto.
  - symmetry. apply firstn_skipn.
  - intros Hn. apply (f_equal (@length _)) in Hn. rewrite skipn_length in Hn. cbn in Hn. lia.
Qed.
Print Assumptions C06_truncated_stream.

Example C06_case : exists o,
  serialize_to_stream (ex true) 12 t_shapes v_shapes (out_stream []) = Ok (v_shapes, o) /\
  length (o_data o) = 737%nat /\
  deserialize_from_stream (ex true) 12 t_shapes (in_stream (firstn 736 (o_data o))) = Err RtErr /\
  deserialize_from_stream (ex true) 12 t_shapes (in_stream (firstn 100 (o_data o))) = Err RtErr /\
  deserialize_from_stream (ex true) 12 t_shapes (in_stream []) = Err RtErr.
Proof. eexists. split; [vm_compute; reflexivity|]. repeat split; vm_compute; reflexivity. Qed.

(** ** C10 (bytes): see PropReadOnly.v *)

(** ** C16 *)
Theorem C16_vector : forall E f t cap l,
  wf_env any E -> has_ty E (TVector t) (VVec cap l) -> (depth (VVec cap l) < f)%nat ->
  len (enc_root E (TVector t) (VVec cap l)) < two64 ->
  exists cap' l', round_trip E f (TVector t) (VVec cap l) (VVec cap' l') /\
    cap <= cap' /\ length l' = length l /\
    forall i x, nth_error l i = Some x -> exists x', nth_error l' i = Some x' /\ same x x'.
Proof.
  intros E f t cap l wf Ht Hd Hl.
  destruct (round_trip_copy E wf f _ _ Ht ltac:(discriminate) Hd Hl) as (v' & Hr & Hc).
  inversion Hc as [|?|? c' ? l' Hcap Hf|? | | | | | |]; subst. exists c', l'. repeat split; auto.
  - symmetry. clear -Hf. induction Hf; cbn; auto.
  - clear -Hf. induction Hf; intros [|i] z Hz; cbn in *; try discriminate; auto.
    inversion Hz; subst. eexists. split; [reflexivity|]. apply (sim_mono N.le); auto.
Qed.
Print Assumptions C16_vector.

Theorem C16_vector_bool : forall E f cap l,
  wf_env any E -> has_ty E TVecBool (VVec cap l) -> (depth (VVec cap l) < f)%nat ->
  len (enc_root E TVecBool (VVec cap l)) < two64 ->
  exists cap', round_trip E f TVecBool (VVec cap l) (VVec cap' l) /\ cap <= cap'.
Proof.
  intros E f cap l wf Ht Hd Hl.
  destruct (round_trip_copy E wf f _ _ Ht ltac:(discriminate) Hd Hl) as (v' & Hr & Hc).
  inversion Hc as [| |? c' ? l' Hcap Hf| | | | | | |]; subst. exists c'. split; auto.
  replace l with l' at 2; auto.
  assert (Hb : Forall (fun v => v = VB [x00] \/ v = VB [x01]) l) by (inversion Ht; auto).
  clear -Hf Hb. induction Hf; auto. inversion Hb as [|? ? Hx Hr]; subst.
  f_equal; auto. destruct Hx as [->| ->]; inversion H; auto.
Qed.
Print Assumptions C16_vector_bool.

(** Arrays, lists, deques and queues. *)
Definition sequence_type (s t : ty) : Prop :=
  (exists n, s = TArray n t) \/ (exists dq, s = TList dq t) \/ s = TQueue t.

Theorem C16_sequence : forall E f s t l,
  wf_env any E -> sequence_type s t -> has_ty E s (VSeq l) -> constructible E s ->
  (depth (VSeq l) < f)%nat -> len (enc_root E s (VSeq l)) < two64 ->
  exists l', round_trip E f s (VSeq l) (VSeq l') /\ length l' = length l /\
    forall i x, nth_error l i = Some x -> exists x', nth_error l' i = Some x' /\ same x x'.
Proof.
  intros E f s t l wf Hs Ht Hco Hd Hl.
  destruct (round_trip_copy E wf f _ _ Ht Hco Hd Hl) as (v' & Hr & Hc).
  inversion Hc as [| | |? l' Hf| | | | | |]; subst. exists l'. repeat split; auto.
  - symmetry. clear -Hf. induction Hf; cbn; auto.
  - clear -Hf. induction Hf; intros [|i] z Hz; cbn in *; try discriminate; auto.
    inversion Hz; subst. eexists. split; [reflexivity|]. apply (sim_mono N.le); auto.
Qed.
Print Assumptions C16_sequence.

(** Copies whose string has only the capacity it needs. *)
Definition s_long' : val := VStr 15 [x68; x65; x6c; x6c; x6f].
Definition v_node' : val :=
  VObj 0 [[w8 77; VVec 4 [s_ab; s_long'];
           VOpt (Some (VObj 0 [[w8 78; VVec 0 []; VOpt None]]))]].

Example C16_case :
  round_trip (ex true) 12 (TVector DBL) (VVec 3 [w8 1; w8 2]) (VVec 3 [w8 1; w8 2]) /\
  round_trip (ex true) 12 TVecBool (VVec 64 [VB [x01]; VB [x00]]) (VVec 64 [VB [x01]; VB [x00]]) /\
  round_trip (ex false) 12 (TQueue OINT) (VSeq [w4 8; w4 7]) (VSeq [w4 8; w4 7]) /\
  round_trip (ex false) 12 (TList true (TClass 0)) (VSeq [v_node]) (VSeq [v_node']).
Proof.
  repeat split; (eexists; eexists; split; [vm_compute; reflexivity|vm_compute; reflexivity]).
Qed.

(** ** C17 *)
Theorem C17_ordered : forall E f multi mp t l,
  wf_env any E -> has_ty E (TAssoc (AOrd multi mp) t) (VSeq l) ->
  (depth (VSeq l) < f)%nat -> len (enc_root E (TAssoc (AOrd multi mp) t) (VSeq l)) < two64 ->
  exists l', round_trip E f (TAssoc (AOrd multi mp) t) (VSeq l) (VSeq l') /\
    Forall2 same l l'.
Proof.
  intros E f multi mp t l wf Ht Hd Hl.
  destruct (round_trip_copy E wf f _ _ Ht ltac:(discriminate) Hd Hl) as (v' & Hr & Hc).
  inversion Hc as [| | |? l' Hf| | | | | |]; subst. exists l'. split; auto.
  clear -Hf. induction Hf; constructor; auto. apply (sim_mono N.le); auto.
Qed.
Print Assumptions C17_ordered.

Theorem C17_unordered : forall E f multi mp t l,
  wf_env any E -> has_ty E (TAssoc (AHash multi mp) t) (VBag l) ->
  (depth (VBag l) < f)%nat -> len (enc_root E (TAssoc (AHash multi mp) t) (VBag l)) < two64 ->
  exists l1 l', round_trip E f (TAssoc (AHash multi mp) t) (VBag l) (VBag l') /\
    Forall2 same l l1 /\ Permutation l1 l'.
Proof.
  intros E f multi mp t l wf Ht Hd Hl.
  destruct (round_trip_copy E wf f _ _ Ht ltac:(discriminate) Hd Hl) as (v' & Hr & Hc).
  inversion Hc as [| | | |? l1 l' Hf Hp| | | | |]; subst. exists l1, l'. repeat split; auto.
  clear -Hf. induction Hf; constructor; auto. apply (sim_mono N.le); auto.
Qed.
Print Assumptions C17_unordered.

Example C17_case :
  (* multiset with equivalent keys; map from int to string; unordered multiset *)
  round_trip (ex true) 12 (TAssoc (AOrd true true) (TPair OINT TString))
    (VSeq [VSeq [w4 1; s_long]; VSeq [w4 1; s_ab]; VSeq [w4 2; s_ab]])
    (VSeq [VSeq [w4 1; s_long']; VSeq [w4 1; s_ab]; VSeq [w4 2; s_ab]]) /\
  round_trip (ex true) 12 (TAssoc (AHash true false) OINT) (VBag [w4 3; w4 1; w4 3]) (VBag [w4 3; w4 1; w4 3]) /\
  round_trip (ex true) 12 (TAssoc (AHash true false) OINT) (VBag [w4 3; w4 1; w4 2]) (VBag [w4 2; w4 1; w4 3]).
Proof.
  repeat split; (eexists; eexists; split; [vm_compute; reflexivity|vm_compute; reflexivity]).
Qed.

(** ** C18 *)
Theorem C18_optional : forall E f t o o',
  wf_env any E -> has_ty E (TOptional t) (VOpt o) ->
  (depth (VOpt o) < f)%nat -> len (enc_root E (TOptional t) (VOpt o)) < two64 ->
  (* whatever the target held *)
  exists r, round_trip_onto E f (TOptional t) (VOpt o) (VOpt o') (VOpt r) /\
    match o, r with
    | None, None => True
    | Some v, Some v' => same v v'
    | _, _ => False
    end.
Proof.
  intros E f t o o' wf Ht Hd Hl.
  destruct (round_trip_onto_copy E wf f _ _ (VOpt o') Ht (TgOptional _ E t (VOpt o) o') Hd Hl)
    as (v' & Hr & Hc).
  inversion Hc; subst; eexists; (split; [exact Hr|]); cbn; auto; apply (sim_mono N.le); auto.
Qed.
Print Assumptions C18_optional.

(** A unique_ptr over a target in any state; a non-null target is reused, so its
    pointee must then be a valid target (property C20), otherwise there is no
    condition. *)
Theorem C18_unique_ptr : forall E f t o o',
  wf_env any E -> has_ty E (TUnique t) (VOpt o) ->
  (depth (VOpt o) < f)%nat -> len (enc_root E (TUnique t) (VOpt o)) < two64 ->
  (forall v w, o = Some v -> o' = Some w ->
     target (fun _ _ => True) E (TUnique t) (VOpt o) (VOpt o')) ->
  exists r, round_trip_onto E f (TUnique t) (VOpt o) (VOpt o') (VOpt r) /\
    match o, r with
    | None, None => True
    | Some v, Some v' => same v v'
    | _, _ => False
    end.
Proof.
  intros E f t o o' wf Ht Hd Hl Hb.
  assert (HT : target (fun _ _ => True) E (TUnique t) (VOpt o) (VOpt o')).
  { destruct o as [v|]; [|apply TgReset]. destruct o' as [w|]; [eauto|apply TgNull]. }
  destruct (round_trip_onto_copy E wf f _ _ _ Ht HT Hd Hl) as (v' & Hr & Hc).
  inversion Hc; subst; eexists; (split; [exact Hr|]); cbn; auto; apply (sim_mono N.le); auto.
Qed.
Print Assumptions C18_unique_ptr.

Example C18_case :
  round_trip_onto (ex true) 12 (TUnique (TClass 0)) (VOpt None) (VOpt (Some v_node)) (VOpt None) /\
  round_trip_onto (ex true) 12 (TUnique (TClass 0)) (VOpt (Some v_node)) (VOpt None)
    (VOpt (Some v_node')) /\
  round_trip_onto (ex false) 12 (TOptional OINT) (VOpt None) (VOpt (Some (w4 1))) (VOpt None) /\
  round_trip_onto (ex false) 12 (TOptional OINT) (VOpt (Some (w4 1))) (VOpt None) (VOpt (Some (w4 1))).
Proof.
  repeat split; (eexists; eexists; split; [vm_compute; reflexivity|vm_compute; reflexivity]).
Qed.

(** ** C19: full statement minus valueless variants, which are refuted below. *)
Theorem C19_variant_partial : forall E f ts i v w,
  wf_env any E -> has_ty E (TVariant ts) (VVar i v) ->
  (depth (VVar i v) < f)%nat -> len (enc_root E (TVariant ts) (VVar i v)) < two64 ->
  (exists j x, w = VVar j x) \/ w = VVarNone ->
  exists v', round_trip_onto E f (TVariant ts) (VVar i v) w (VVar i v') /\ same v v'.
Proof.
  intros E f ts i v w wf Ht Hd Hl Hw.
  assert (HT : target (fun _ _ => True) E (TVariant ts) (VVar i v) w).
  { inversion Ht; subst. destruct Hw as [(j & x & ->)| ->]; constructor; auto. }
  destruct (round_trip_onto_copy E wf f _ _ _ Ht HT Hd Hl) as (v' & Hr & Hc).
  inversion Hc; subst; eexists; (split; [exact Hr|]); cbn; auto; apply (sim_mono N.le); auto.
Qed.
Print Assumptions C19_variant_partial.

(** A valueless variant comes back holding the default alternative of the target. *)
Theorem C19_valueless_refuted : exists b ts w,
  round_trip_onto (ex b) 12 (TVariant ts) VVarNone w w /\ ~ same VVarNone w.
Proof.
  exists true, [OINT; TString], (VVar 1 s_ab). split.
  - eexists; eexists; split; [vm_compute; reflexivity|vm_compute; reflexivity].
  - intros H. inversion H.
Qed.
Print Assumptions C19_valueless_refuted.

Example C19_case :
  round_trip_onto (ex true) 12 (TVariant [OINT; TString]) (VVar 1 s_ab) (VVar 0 (w4 3)) (VVar 1 s_ab) /\
  round_trip_onto (ex true) 12 (TVariant [OINT; TString]) (VVar 1 s_ab) VVarNone (VVar 1 s_ab).
Proof.
  repeat split; (eexists; eexists; split; [vm_compute; reflexivity|vm_compute; reflexivity]).
Qed.

(** ** C21 *)
Theorem C21_polymorphic_pointer : forall E f c d ls,
  wf_env any E -> has_ty E (TUnique (TClass c)) (VOpt (Some (VObj d ls))) ->
  (depth (VOpt (Some (VObj d ls))) < f)%nat ->
  len (enc_root E (TUnique (TClass c)) (VOpt (Some (VObj d ls)))) < two64 ->
  exists ls', round_trip E f (TUnique (TClass c)) (VOpt (Some (VObj d ls)))
                (VOpt (Some (VObj d ls'))) /\
    length ls = length ls' /\ Forall2 (Forall2 same) ls ls'.
Proof.
  intros E f c d ls wf Ht Hd Hl.
  destruct (round_trip_copy E wf f _ _ Ht ltac:(discriminate) Hd Hl) as (v' & Hr & Hc).
  inversion Hc as [| | | | | |? w Hw| | |]; subst.
  inversion Hw as [| | | | | | | | |? ? ls' Hls]; subst. exists ls'. repeat split; auto.
  - clear -Hls. induction Hls; cbn; auto.
  - clear -Hls. induction Hls as [|x y l l' H _ IH]; constructor; auto.
    clear -H. induction H; constructor; auto. apply (sim_mono N.le); auto.
Qed.
Print Assumptions C21_polymorphic_pointer.

(** A Ring (Ring : Circle : Shape) behind a Shape pointer, both build modes. *)
Example C21_case : forall b,
  round_trip (ex b) 12 (TUnique (TClass 1)) (VOpt (Some v_ring))
    (VOpt (Some (VObj 3 [[w4 1; s_ab]; [w8 2; VSeq [VSeq [w4 5; s_long']; VSeq [w4 9; s_ab]]];
                         [VOpt (Some (w4 3))]]))).
Proof.
  intros b. destruct b.
  - eexists. eexists. split; [vm_compute; reflexivity|vm_compute; reflexivity].
  - eexists. eexists. split; [vm_compute; reflexivity|vm_compute; reflexivity].
Qed.

(** ** C29 *)
Theorem C29_user_buffer : forall E f t v g n,
  wf_env any E -> has_ty E t v -> (depth v < f)%nat -> len (enc_root E t v) < two64 ->
  get_size E f t v = Ok (v, n) ->
  (forall r, g n = Some r -> n <= len (r_buf r)) ->
  exists s own, serialize E f t v (Some g) = Ok s /\ serialize E f t v None = Ok own /\
    s_calls s = [n] /\ s_size s = n /\ s_bytes s = s_bytes own /\
    (* memory of the library is freed with the buffer *)
    release own = [HFree false] /\
    match g n with
    | Some r =>
      (* the caller's memory is filled and nothing else is touched or freed *)
      s_managed s = false /\ release s = [] /\
      s_mem s = r_before r ++ s_bytes own ++ skipn (N.to_nat n) (r_buf r) ++ r_after r
    | None => s_managed s = true /\ release s = [HFree false] /\ s_mem s = s_mem own
    end.
Proof.
  intros E f t v g n wf Ht Hd Hl Hn Hg. rewrite size_len in Hn by auto. inversion Hn; subst n.
  destruct (g (len (enc_root E t v))) as [r|] eqn:Er.
  - specialize (Hg r eq_refl). destruct r as [bf bu af]. cbn [r_buf r_before r_after] in *.
    eexists. eexists. split.
    + apply (serialize_user E wf f t v g bf (firstn (length (enc_root E t v)) bu)
               (skipn (length (enc_root E t v)) bu) af); auto.
      * rewrite firstn_length. unfold len in Hg. lia.
      * now rewrite firstn_skipn.
    + split; [apply serialize_managed; auto|]. cbn. repeat split; auto.
      now rewrite len_nat.
  - eexists. eexists. split; [apply serialize_null; auto|].
    split; [apply serialize_managed; auto|]. cbn. repeat split; auto.
Qed.
Print Assumptions C29_user_buffer.

Example C29_case : exists s own,
  serialize (ex true) 12 (TClass 0) v_node
    (Some (fun n => if n =? 301 then
       Some {| r_before := [x2a]; r_buf := repeat xff 307; r_after := [x2b] |} else None)) = Ok s /\
  serialize (ex true) 12 (TClass 0) v_node (Some (fun _ => None)) = Ok own /\
  s_calls s = [301] /\ s_bytes s = s_bytes own /\ s_managed s = false /\ s_managed own = true /\
  s_mem s = [x2a] ++ s_bytes own ++ repeat xff 6 ++ [x2b].
Proof.
  eexists. eexists. split; [vm_compute; reflexivity|]. split; [vm_compute; reflexivity|].
  repeat split; vm_compute; reflexivity.
Qed.

(** ** C34 *)
Theorem C34_injective : forall E f t v w s s',
  wf_env any E -> has_ty E t v -> has_ty E t w -> constructible E t ->
  (depth v < f)%nat -> (depth w < f)%nat ->
  len (enc_root E t v) < two64 -> len (enc_root E t w) < two64 ->
  serialize E f t v None = Ok s -> serialize E f t w None = Ok s' ->
  s_bytes s = s_bytes s' -> same v w.
Proof.
  intros E f t v w s s' wf Hv Hw Hc Hdv Hdw Hlv Hlw Hs Hs' Hb.
  destruct (round_trip_copy E wf f t v Hv Hc Hdv Hlv) as (a & (sa & na & A1 & A2) & Ca).
  destruct (round_trip_copy E wf f t w Hw Hc Hdw Hlw) as (b & (sb & nb & B1 & B2) & Cb).
  rewrite Hs in A1. inversion A1; subst sa. rewrite Hs' in B1. inversion B1; subst sb.
  rewrite Hb, B2 in A2. inversion A2; subst.
  apply same_trans with a.
  - apply (sim_mono N.le); auto.
  - apply same_sym. apply (sim_mono N.le); auto.
Qed.
Print Assumptions C34_injective.

Theorem C34_prefix_free : forall E f t v w s s' l,
  wf_env any E -> has_ty E t v -> has_ty E t w -> constructible E t ->
  (depth v < f)%nat -> (depth w < f)%nat ->
  len (enc_root E t v) < two64 -> len (enc_root E t w) < two64 ->
  serialize E f t v None = Ok s -> serialize E f t w None = Ok s' ->
  s_bytes s' = s_bytes s ++ l -> l = [].
Proof.
  intros E f t v w s s' l wf Hv Hw Hc Hdv Hdw Hlv Hlw Hs Hs' Hb.
  rewrite serialize_managed in Hs, Hs' by auto. inversion Hs; inversion Hs'; subst.
  cbn [s_bytes] in Hb.
  exact (prefix_of_other E wf f t v w _ l Hv Hw Hc Hdv Hdw Hb eq_refl).
Qed.
Print Assumptions C34_prefix_free.

(** The two theorems have different objects to talk about: a shorter and a longer
    vector, neither of whose encodings is a prefix of the other's. *)
Example C34_case : exists s s',
  serialize (ex true) 12 (TVector DBL) (VVec 3 [w8 1]) None = Ok s /\
  serialize (ex true) 12 (TVector DBL) (VVec 3 [w8 1; w8 2]) None = Ok s' /\
  length (s_bytes s) = 72%nat /\ length (s_bytes s') = 80%nat /\
  firstn 72 (s_bytes s') <> s_bytes s.
Proof.
  eexists. eexists. split; [vm_compute; reflexivity|]. split; [vm_compute; reflexivity|].
  repeat split; try (vm_compute; reflexivity). vm_compute. discriminate.
Qed.
