(** Property C80: parts of objects in the data of the whole.

    [ctx], [plug] and [part_type] (Parts.v): an object with a place left open for a part
    of it, and the type of that place. *)
From Coq Require Import List NArith Arith Bool Lia.
From Coq.Strings Require Import Byte.
From Verif Require Import Base Syntax Prog Serializers Traverse Spec ProgFacts EnvFacts ValFacts
  Pack Unpack Api ApiFacts Registry Examples PropMemory Patch PropPatch Parts.
Import ListNotations.
Local Open Scope N_scope.

(** Serialized data without the identifier of the type at its beginning (4 bytes) and
    the size of the object at its end (8 bytes). *)
Definition contents (d : bytes) : bytes := firstn (length d - 12) (skipn 4 d).

Lemma contents_root : forall E t v, contents (enc_root E t v) = encb E t v.
Proof.
  intros E t v. assert (H : enc_root E t v = le 4 (tix E t) ++ encb E t v ++ le 8 (wrap64 (sizeof E t))).
  { unfold enc_root, enc, framed. destruct (chk E); auto. now rewrite N.mul_1_r. }
  unfold contents. rewrite H.
  replace (length (le 4 (tix E t) ++ encb E t v ++ le 8 (wrap64 (sizeof E t))) - 12)%nat
    with (length (encb E t v)) by (rewrite !app_length, !le_length; lia).
  rewrite (skipn_app 4). rewrite skipn_all2 by now rewrite le_length.
  rewrite le_length, Nat.sub_diag. cbn [skipn app].
  rewrite firstn_app, Nat.sub_diag, firstn_all. cbn [firstn]. apply app_nil_r.
Qed.

Lemma root_len : forall E t v, length (enc_root E t v) = (12 + length (encb E t v))%nat.
Proof.
  intros E t v. unfold enc_root, enc, framed. destruct (chk E); rewrite !app_length, !le_length; lia.
Qed.

Lemma fold_mid : forall l x r n, (depth x <= fold_right (fun x n => Nat.max (depth x) n) n (l ++ x :: r))%nat.
Proof. induction l; intros x r n; cbn; [lia|]. specialize (IHl x r n). lia. Qed.

Lemma fold_mid2 : forall u fs w n, (fold_right (fun x n => Nat.max (depth x) n) 1 fs <=
  fold_right (fun fs n => Nat.max (fold_right (fun x n => Nat.max (depth x) n) 1 fs) n) n (u ++ fs :: w))%nat.
Proof. induction u; intros fs w n; cbn; [lia|]. specialize (IHu fs w n). lia. Qed.

Lemma depth_plug : forall c x, (depth x <= depth (plug c x))%nat.
Proof.
  induction c; intros x; cbn [plug depth]; auto;
    try (specialize (IHc x); pose proof (fold_mid before (plug c x) after 1); lia);
    try (specialize (IHc x); lia).
  specialize (IHc x). pose proof (fold_mid before (plug c x) after 1).
  pose proof (fold_mid2 above (before ++ plug c x :: after) below 1). lia.
Qed.

Section Glue.
Variable E : env.

Lemma part_has_ty : forall c t o t' o' x, has_ty E t (plug c x) ->
  part_type E o t c = Some (t', o') -> has_ty E t' x.
Proof.
  intros c t o t' o' x Ht Hp. apply (part_ty E t' o' c t o x); auto; [now apply HoldsTy|].
  destruct c; cbn in *; auto.
Qed.

Lemma within_contents : forall c t t' o x0, has_ty E t (plug c x0) ->
  part_type E true t c = Some (t', o) -> within (encb E t') (fun x => encb E t (plug c x)).
Proof.
  intros c t t' o x0 Ht Hp.
  assert (HC : exists o2, part_type E false t c = Some (t', o2)).
  { destruct c; cbn [part_type] in *; eauto. inversion Hp; subst. eauto. }
  destruct HC as (o2 & HC).
  apply (within_trans _ _ (data_of E o2 t')).
  - apply (within_data E _ _ _ (fun x => x)). apply within_id.
  - apply (within_part E t' o2 c t false x0); auto. now apply HoldsTy.
Qed.

Lemma part_len : forall c t t' o x, has_ty E t (plug c x) -> part_type E true t c = Some (t', o) ->
  len (enc_root E t' x) <= len (enc_root E t (plug c x)).
Proof.
  intros c t t' o x Ht Hp. destruct (within_contents c t t' o x Ht Hp) as (p & q & H).
  unfold len. rewrite !root_len, H, !app_length. lia.
Qed.
End Glue.

(** ** C80 *)
(** The contents of the part are the same bytes by themselves and in the data of the
    whole, at a place that does not depend on the part; neither does the rest. *)
Theorem C80_part : forall E f t c x0 t' o,
  wf_env any E -> has_ty E t (plug c x0) -> constructible E t ->
  part_type E true t c = Some (t', o) ->
  exists p q, forall x,
    has_ty E t (plug c x) -> (depth (plug c x) < f)%nat -> len (enc_root E t (plug c x)) < two64 ->
    exists s, serialize E f t' x None = Ok s /\
      stands_for E f t (p ++ contents (s_bytes s) ++ q) (plug c x).
Proof.
  intros E f t c x0 t' o wf Ht0 Hc Hp.
  destruct (within_contents E c t t' o x0 Ht0 Hp) as (p & q & H).
  exists (le 4 (tix E t) ++ p), (q ++ le 8 (wrap64 (sizeof E t))). intros x Ht Hd Hl.
  pose proof (part_has_ty E _ _ _ _ _ _ Ht Hp) as Htx.
  pose proof (part_len E _ _ _ _ _ Ht Hp) as Hle.
  pose proof (depth_plug c x) as Hdx.
  eexists. split; [apply serialize_managed; auto; lia|]. cbn [s_bytes]. rewrite contents_root.
  replace ((le 4 (tix E t) ++ p) ++ encb E t' x ++ q ++ le 8 (wrap64 (sizeof E t)))
    with (enc_root E t (plug c x)); [now apply stands_enc|].
  unfold enc_root, enc, framed. rewrite H. destruct (chk E); rewrite ?N.mul_1_r, <- !app_assoc; auto.
Qed.
Print Assumptions C80_part.

(** With error checking a part that is written by itself is in the data of the whole
    as it is in its own, and can be read from there by itself. *)
Theorem C80_read : forall E f t c x0 t',
  wf_env any E -> chk E = true -> has_ty E t (plug c x0) -> constructible E t ->
  part_type E true t c = Some (t', true) -> constructible E t' ->
  exists p q, forall x,
    has_ty E t (plug c x) -> (depth (plug c x) < f)%nat -> len (enc_root E t (plug c x)) < two64 ->
    exists s, serialize E f t' x None = Ok s /\
      stands_for E f t (p ++ s_bytes s ++ q) (plug c x) /\
      (exists v n, deserialize E f t' (p ++ s_bytes s ++ q) (length p) = Ok (v, n) /\ copy_of x v) /\
      forall w, target (fun _ _ => True) E t' x w ->
        exists v n, deserialize_in_place E f t' (p ++ s_bytes s ++ q) (length p) w = Ok (v, n) /\
          copy_of x v.
Proof.
  intros E f t c x0 t' wf Hchk Ht0 Hc Hp Hc'.
  destruct (within_part E t' true c t true x0 (HoldsTy _ _ _ Ht0) Hp) as (p & q & H).
  cbn [data_of] in H. exists p, q. intros x Ht Hd Hl.
  pose proof (part_has_ty E _ _ _ _ _ _ Ht Hp) as Htx.
  pose proof (part_len E _ _ _ _ _ Ht Hp) as Hle.
  pose proof (depth_plug c x) as Hdx.
  assert (HR : forall t v, enc_root E t v = enc E t v) by (intros; unfold enc_root; now rewrite Hchk).
  eexists. split; [apply serialize_managed; auto; lia|]. cbn [s_bytes]. split; [|split].
  - rewrite HR, <- H, <- HR. now apply stands_enc.
  - destruct (deserialize_ok E wf f t' x Htx Hc' ltac:(lia)) as (v & Hv & HD). eauto.
  - intros w Hw. destruct (in_place_ok E wf f t' x w Htx Hw ltac:(lia)) as (v & Hv & HD). eauto.
Qed.
Print Assumptions C80_read.

(** The second node of a list of nodes. *)
Definition next : ctx :=
  CObj 0 [] [w8 77; VVec 4 [s_ab; s_long]] (CSome CHere) [] [].
Lemma next_is : plug next (VObj 0 [[w8 78; VVec 0 []; VOpt None]]) = v_node.
Proof. reflexivity. Qed.
Example C80_case_next :
  exists p q, forall x, has_ty (ex true) (TClass 0) (plug next x) -> (depth (plug next x) < 30)%nat ->
    len (enc_root (ex true) (TClass 0) (plug next x)) < two64 ->
    exists s, serialize (ex true) 30 (TClass 0) x None = Ok s /\
      stands_for (ex true) 30 (TClass 0) (p ++ s_bytes s ++ q) (plug next x) /\
      (exists v n, deserialize (ex true) 30 (TClass 0) (p ++ s_bytes s ++ q) (length p) = Ok (v, n) /\
         copy_of x v) /\
      forall w, target (fun _ _ => True) (ex true) (TClass 0) x w ->
        exists v n, deserialize_in_place (ex true) 30 (TClass 0) (p ++ s_bytes s ++ q) (length p) w =
          Ok (v, n) /\ copy_of x v.
Proof.
  eapply (C80_read (ex true) 30 (TClass 0) next); [apply ex_wf; exact I|reflexivity| |vm_compute; discriminate|
    reflexivity|vm_compute; discriminate].
  rewrite next_is. apply v_node_ty.
Qed.
(** The map of the ring among the shapes, and a string in the vector of the node: parts
    of a polymorphic object and of an array. *)
Definition ring_map : ctx :=
  CVec 8 [] (CSome (CObj 3 [[w4 1; s_ab]] [w8 2] CHere [] [[VOpt (Some (w4 3))]]))
    [VOpt None; VOpt (Some v_box); VOpt (Some v_shape)].
Lemma ring_map_is : plug ring_map (VSeq [VSeq [w4 5; s_long]; VSeq [w4 9; s_ab]]) = v_shapes.
Proof. reflexivity. Qed.
Example C80_case_map : forall b,
  part_type (ex b) true t_shapes ring_map = Some (TAssoc (AOrd false true) (TPair OINT TString), true) /\
  exists p q, forall x, has_ty (ex b) t_shapes (plug ring_map x) -> (depth (plug ring_map x) < 30)%nat ->
    len (enc_root (ex b) t_shapes (plug ring_map x)) < two64 ->
    exists s, serialize (ex b) 30 (TAssoc (AOrd false true) (TPair OINT TString)) x None = Ok s /\
      stands_for (ex b) 30 t_shapes (p ++ contents (s_bytes s) ++ q) (plug ring_map x).
Proof.
  intros b. split; [destruct b; reflexivity|].
  eapply (C80_part (ex b) 30 t_shapes ring_map); [apply ex_wf; exact I| |destruct b; vm_compute; discriminate|
    destruct b; reflexivity].
  rewrite ring_map_is. apply v_shapes_ty.
Qed.
Definition word : ctx :=
  CObj 0 [] [w8 77] (CVec 4 [s_ab] CHere []) [VOpt (Some (VObj 0 [[w8 78; VVec 0 []; VOpt None]]))] [].
Example C80_case_word : forall b,
  plug word s_long = v_node /\ part_type (ex b) true (TClass 0) word = Some (TString, false).
Proof. intros b. split; [|destruct b]; reflexivity. Qed.

(** Without error checking the part cannot be read by itself: the identifier of its
    type is missing. *)
Example C80_unchecked :
  let E := ex false in
  exists s s' e, serialize E 12 (TClass 0) v_node None = Ok s /\
    serialize E 12 (TClass 0) (VObj 0 [[w8 78; VVec 0 []; VOpt None]]) None = Ok s' /\
    let p := firstn (length (s_bytes s) - 8 - length (contents (s_bytes s'))) (s_bytes s) in
    s_bytes s = p ++ contents (s_bytes s') ++ skipn (length (s_bytes s) - 8) (s_bytes s) /\
    deserialize E 12 (TClass 0) (s_bytes s) (length p) = Err e /\ e <> UB.
Proof.
  eexists; eexists; eexists. split; [vm_compute; reflexivity|]. split; [vm_compute; reflexivity|].
  split; [vm_compute; reflexivity|]. split; [vm_compute; reflexivity|]. discriminate.
Qed.
