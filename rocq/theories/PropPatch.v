(** Property C79: one plain value and its bytes in the data.

    [hole] and [fill] (Patch.v): an object with a place left open for the bytes of one
    arithmetic value, enum, duration, byte-copied object or part of a string. *)
From Coq Require Import List NArith Arith Bool Lia.
From Coq.Strings Require Import Byte.
From Verif Require Import Base Syntax Prog Serializers Traverse Spec ProgFacts EnvFacts ValFacts
  Pack Unpack Api ApiFacts Registry Examples PropMemory Patch.
Import ListNotations.
Local Open Scope N_scope.

(** The data [d] is what is written of [v], to memory and to a stream, and [v] is what
    is read from it: into a new object, into any object that may be overwritten, and
    from a stream. *)
Definition stands_for (E : env) (f : nat) (t : ty) (d : bytes) (v : val) : Prop :=
  (exists s, serialize E f t v None = Ok s /\ s_bytes s = d) /\
  (exists o, serialize_to_stream E f t v (out_stream []) = Ok (v, o) /\ o_data o = d) /\
  (exists v' n, deserialize E f t d 0 = Ok (v', n) /\ copy_of v v') /\
  (forall w, target (fun _ _ => True) E t v w ->
     exists v' n, deserialize_in_place E f t d 0 w = Ok (v', n) /\ copy_of v v') /\
  (exists v' i, deserialize_from_stream E f t (in_stream d) = Ok (v', i) /\ copy_of v v').

Lemma stands_enc : forall E f t v, wf_env any E -> has_ty E t v -> constructible E t ->
  (depth v < f)%nat -> len (enc_root E t v) < two64 -> stands_for E f t (enc_root E t v) v.
Proof.
  intros E f t v wf Ht Hc Hd Hl. split; [|split; [|split; [|split]]].
  - eexists. split; [apply serialize_managed; auto|]. reflexivity.
  - eexists. split; [apply (to_stream_ok E wf f t v [] 0 Ht Hd)|]. reflexivity.
  - destruct (deserialize_ok E wf f t v Ht Hc Hd) as (x & Hx & H). specialize (H [] []).
    cbn [app length] in H. rewrite app_nil_r in H. eauto.
  - intros w Hw. destruct (in_place_ok E wf f t v w Ht Hw Hd) as (x & Hx & H). specialize (H [] []).
    cbn [app length] in H. rewrite app_nil_r in H. eauto.
  - destruct (from_stream_ok E wf f t v Ht Hc Hd) as (x & Hx & H). specialize (H [] 0).
    rewrite app_nil_r in H. eauto.
Qed.

Lemma around_root : forall E h b0 t, has_ty E t (fill h b0) ->
  around (length b0) (fun b => enc_root E t (fill h b)).
Proof.
  intros E h b0 t Ht. pose proof (around_encb E h b0 t (HoldsTy _ _ _ Ht)) as H.
  unfold enc_root, enc. destruct (chk E) eqn:Hchk.
  - now apply around_framed.
  - now apply around_l, around_r.
Qed.

(** ** C79 *)
(** The bytes of the value are at a place of the data that does not depend on the
    value, and neither does the rest of the data. *)
Theorem C79_patch : forall E f t h b0,
  wf_env any E -> has_ty E t (fill h b0) -> constructible E t -> (depth (fill h b0) < f)%nat ->
  len (enc_root E t (fill h b0)) < two64 ->
  exists p q, stands_for E f t (p ++ b0 ++ q) (fill h b0) /\
    forall b, length b = length b0 -> has_ty E t (fill h b) ->
      stands_for E f t (p ++ b ++ q) (fill h b).
Proof.
  intros E f t h b0 wf Ht Hc Hd Hl. destruct (around_root E h b0 t Ht) as (p & q & H).
  exists p, q.
  assert (HS : forall b, length b = length b0 -> has_ty E t (fill h b) ->
            stands_for E f t (p ++ b ++ q) (fill h b)).
  { intros b Hb Htb. rewrite <- (H b Hb). apply stands_enc; auto.
    - rewrite (depth_fill h b b0). auto.
    - rewrite (H b Hb). rewrite (H b0 eq_refl) in Hl. unfold len in *.
      rewrite !app_length in *. now rewrite Hb. }
  split; auto.
Qed.
Print Assumptions C79_patch.

(** Outside of sets, maps and vectors of bools any bytes will do: they are read as
    the value, and no error is reported. *)
Theorem C79_any_bytes : forall E f t h b0,
  wf_env any E -> has_ty E t (fill h b0) -> constructible E t -> (depth (fill h b0) < f)%nat ->
  len (enc_root E t (fill h b0)) < two64 -> free E t h = true ->
  exists p q, stands_for E f t (p ++ b0 ++ q) (fill h b0) /\
    forall b, length b = length b0 -> stands_for E f t (p ++ b ++ q) (fill h b).
Proof.
  intros E f t h b0 wf Ht Hc Hd Hl Hf.
  destruct (C79_patch E f t h b0 wf Ht Hc Hd Hl) as (p & q & H0 & H). exists p, q.
  split; auto. intros b Hb. apply H; auto. eapply fill_ty; eauto.
Qed.
Print Assumptions C79_any_bytes.

(** The radius of the ring among the shapes: behind a pointer to the base class, in the
    second of the three classes of the object. *)
Definition radius : hole :=
  HVec 8 [] (HSome (HObj 3 [[w4 1; s_ab]] [] HHere
    [VSeq [VSeq [w4 5; s_long]; VSeq [w4 9; s_ab]]] [[VOpt (Some (w4 3))]]))
    [VOpt None; VOpt (Some v_box); VOpt (Some v_shape)].
(** The second and third characters of a string in the vector of a node. *)
Definition letters : hole :=
  HObj 0 [] [w8 77] (HVec 4 [s_ab] (HStr 40 [x68] [x6c; x6f]) [])
    [VOpt (Some (VObj 0 [[w8 78; VVec 0 []; VOpt None]]))] [].
(** The mapped value of the first entry of the map in the ring. *)
Definition mapped : hole :=
  HVec 8 [] (HSome (HObj 3 [[w4 1; s_ab]] [w8 2]
    (HSeq [] (HSeq [w4 5] (HStr 40 [] []) []) [VSeq [w4 9; s_ab]]) [] [[VOpt (Some (w4 3))]]))
    [VOpt None; VOpt (Some v_box); VOpt (Some v_shape)].

Lemma radius_is : fill radius (le 8 2) = v_shapes. Proof. reflexivity. Qed.
Lemma letters_is : fill letters [x65; x6c] = v_node. Proof. reflexivity. Qed.
Lemma mapped_is : fill mapped [x68; x65; x6c; x6c; x6f] = v_shapes. Proof. reflexivity. Qed.

Example C79_case_radius : forall c,
  exists p q, stands_for (ex c) 12 t_shapes (p ++ le 8 2 ++ q) v_shapes /\
    forall b, length b = 8%nat -> stands_for (ex c) 12 t_shapes (p ++ b ++ q) (fill radius b).
Proof.
  intros c. rewrite <- radius_is. apply (C79_any_bytes (ex c) 12 t_shapes radius (le 8 2)).
  - apply ex_wf. exact I.
  - rewrite radius_is. apply v_shapes_ty.
  - destruct c; vm_compute; discriminate.
  - vm_compute. lia.
  - destruct c; vm_compute; reflexivity.
  - destruct c; vm_compute; reflexivity.
Qed.

Example C79_case_letters : forall c,
  exists p q, stands_for (ex c) 12 (TClass 0) (p ++ [x65; x6c] ++ q) v_node /\
    forall b, length b = 2%nat -> stands_for (ex c) 12 (TClass 0) (p ++ b ++ q) (fill letters b).
Proof.
  intros c. rewrite <- letters_is. apply (C79_any_bytes (ex c) 12 (TClass 0) letters [x65; x6c]).
  - apply ex_wf. exact I.
  - rewrite letters_is. apply v_node_ty.
  - destruct c; vm_compute; discriminate.
  - vm_compute. lia.
  - destruct c; vm_compute; reflexivity.
  - destruct c; vm_compute; reflexivity.
Qed.

Example C79_case_mapped : forall c,
  exists p q, stands_for (ex c) 12 t_shapes (p ++ [x68; x65; x6c; x6c; x6f] ++ q) v_shapes /\
    stands_for (ex c) 12 t_shapes (p ++ [x77; x6f; x72; x6c; x64] ++ q)
      (fill mapped [x77; x6f; x72; x6c; x64]).
Proof.
  intros c. rewrite <- mapped_is.
  destruct (C79_patch (ex c) 12 t_shapes mapped [x68; x65; x6c; x6c; x6f]) as (p & q & H0 & H).
  - apply ex_wf. exact I.
  - rewrite mapped_is. apply v_shapes_ty.
  - destruct c; vm_compute; discriminate.
  - vm_compute. lia.
  - destruct c; vm_compute; reflexivity.
  - exists p, q. split; auto. apply H; [reflexivity|]. destruct c; ht.
Qed.

(** Inside a set other bytes may be those of no set: with the bytes of one element
    written over those of another the set has fewer elements, so that the object that
    is read is not the one with the changed element. *)
Example C79_keys :
  let E := ex false in let t := TAssoc (AOrd false false) OINT in
  let p := le 4 (tix E t) ++ le 8 2 in let q := le 4 2 ++ le 8 (wrap64 (sizeof E t)) in
  (exists s, serialize E 12 t (fill (HSeq [] HHere [w4 2]) (le 4 1)) None = Ok s /\
     s_bytes s = p ++ le 4 1 ++ q) /\
  exists n, deserialize E 12 t (p ++ le 4 2 ++ q) 0 = Ok (VSeq [w4 2], n).
Proof. split; eexists; [split|]; vm_compute; reflexivity. Qed.
