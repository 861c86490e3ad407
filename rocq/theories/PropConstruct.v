(** Construction precedence (C28). *)
From Coq Require Import List NArith Arith Bool Lia.
From Coq.Strings Require Import Byte.
From Verif Require Import Base Syntax Prog Serializers Traverse Spec Layout ProgFacts EnvFacts
  ValFacts Fails Pack Unpack Api ApiFacts ApiInv LayoutFacts Registry RegistryFacts Examples PropMemory Construct.
Import ListNotations.
Local Open Scope N_scope.

(** The mechanisms a type asks for, in the order of the documentation
    (reconstructor.h:81-89): the tagged constructor if there is one, otherwise a
    reconstruct function, otherwise the default constructor. *)
Inductive preferred (f : features) : mech -> Prop :=
| PrTag : f_tag f = true -> preferred f Tagged
| PrIntrusive : f_tag f = false -> f_intrusive f = true -> preferred f Intrusive
| PrNonIntrusive : f_tag f = false -> f_nonintrusive f = true -> preferred f NonIntrusive
| PrSpecialized : f_tag f = false -> f_specialized f = true -> preferred f Specialized
| PrDefault : f_tag f = false -> f_intrusive f = false -> f_nonintrusive f = false ->
    f_specialized f = false -> f_default f = true -> preferred f Default.

Definition only (f : features) (m : mech) : Prop :=
  preferred f m /\ forall m', preferred f m' -> m' = m.

(** Exactly one mechanism runs, once, and its object is returned; a type without
    any, or with two reconstruct functions, is rejected by the compiler. *)
Theorem C28_precedence : forall f,
  (forall m, only f m -> construct_type f = Does [m] Object) /\
  ((forall m, ~ only f m) -> construct_type f = IllFormed) /\
  (construct_type f = IllFormed -> forall m, ~ only f m).
Proof.
  intros f. split; [|split].
  - intros m (Hp & Hq).
    assert (Hd : forall m', m' <> m -> ~ preferred f m') by (intros m' Hn H; now apply Hn, Hq).
    assert (Hb : ~ preferred f Intrusive \/ m = Intrusive) by (destruct m; auto; left; apply Hd; discriminate).
    assert (Hc : ~ preferred f NonIntrusive \/ m = NonIntrusive) by (destruct m; auto; left; apply Hd; discriminate).
    assert (Hs : ~ preferred f Specialized \/ m = Specialized) by (destruct m; auto; left; apply Hd; discriminate).
    clear Hq Hd. destruct f as [[] [] [] [] e []]; inversion Hp; subst; try reflexivity; try discriminate;
      exfalso; intuition (try discriminate); auto using PrIntrusive, PrNonIntrusive, PrSpecialized.
  - intros H. destruct f as [[] b c d e g].
    + exfalso. apply (H Tagged). split; [now constructor|]. intros m' Hm. now inversion Hm.
    + destruct b, c, d, g; try reflexivity; exfalso;
      first [ apply (H Intrusive); split; [now constructor|intros m' Hm; now inversion Hm]
            | apply (H NonIntrusive); split; [now constructor|intros m' Hm; now inversion Hm]
            | apply (H Specialized); split; [now constructor|intros m' Hm; now inversion Hm]
            | apply (H Default); split; [now constructor|intros m' Hm; now inversion Hm] ].
  - intros H m (Hp & Hq).
    assert (Hd : forall m', m' <> m -> ~ preferred f m') by (intros m' Hn H'; now apply Hn, Hq).
    assert (Hb : ~ preferred f Intrusive \/ m = Intrusive) by (destruct m; auto; left; apply Hd; discriminate).
    assert (Hc : ~ preferred f NonIntrusive \/ m = NonIntrusive) by (destruct m; auto; left; apply Hd; discriminate).
    assert (Hs : ~ preferred f Specialized \/ m = Specialized) by (destruct m; auto; left; apply Hd; discriminate).
    clear Hq Hd. destruct f as [[] [] [] [] e []]; inversion Hp; subst; try discriminate;
      intuition (try discriminate); auto using PrIntrusive, PrNonIntrusive, PrSpecialized.
Qed.
Print Assumptions C28_precedence.

(** Where failure is allowed (constructors of registered polymorphic classes) the
    same mechanism is chosen; a class without any aborts the process.
    Missing from the full statement: programs compiled with NDEBUG, for which it is
    false (C28_release_refuted). *)
Theorem C28_allow_fail_partial : forall f,
  (forall m, only f m -> (f_default f = true -> f_expr f = true) ->
     construct_allow_fail true f = Does [m] Object) /\
  (f_expr f = false -> (forall m, ~ preferred f m) ->
     construct_allow_fail true f = Does [] Abort) /\
  (forall ms r, construct_allow_fail true f = Does ms r ->
     (exists m, preferred f m /\ ms = [m] /\ r = Object) \/
     ((forall m, preferred f m -> m = Default) /\ ms = [] /\ r = Abort)).
Proof.
  intros f. split; [|split].
  - intros m Ho Hx. destruct (C28_precedence f) as (H & _ & _). specialize (H m Ho).
    unfold construct_allow_fail. rewrite H. destruct Ho as (Hp & _).
    assert (f_constructible f = true) as ->; [|reflexivity].
    unfold f_constructible, f_reconstruct.
    destruct Hp as [Ht|_ Hi|_ Hn|_ Hs|_ _ _ _ Hd];
      [rewrite Ht|rewrite Hi|rewrite Hn|rewrite Hs|rewrite (Hx Hd)];
      now rewrite ?orb_true_r.
  - intros Hx Hn.
    assert (f_tag f = false) as Ht.
    { destruct (f_tag f) eqn:H; auto. exfalso. apply (Hn Tagged). now constructor. }
    assert (f_reconstruct f = false) as Hr.
    { unfold f_reconstruct. destruct (f_nonintrusive f) eqn:H1.
      { exfalso. apply (Hn NonIntrusive). now constructor. }
      destruct (f_intrusive f) eqn:H2.
      { exfalso. apply (Hn Intrusive). now constructor. }
      destruct (f_specialized f) eqn:H3; auto.
      exfalso. apply (Hn Specialized). now constructor. }
    unfold construct_allow_fail, f_constructible. now rewrite Hx, Ht, Hr.
  - intros ms r H. destruct f as [[] [] [] [] [] []]; cbn in H; inversion H; subst;
    first [ left; eexists; split; [constructor; reflexivity|split; reflexivity]
          | right; split; [intros m Hm; now inversion Hm|split; reflexivity] ].
Qed.
Print Assumptions C28_allow_fail_partial.

(** [f] describes the class [k] of the program table; [built_by k m]: the members
    of the object that mechanism [m] of [k] builds. *)
Definition describes (k : class) (f : features) : Prop :=
  (f_tag f = true <-> ctag k <> None) /\
  (f_reconstruct f = true <-> crecon k <> None) /\
  (f_default f = true <-> cdefault k <> None).
Definition built_by (k : class) (m : mech) : option (list (list val)) :=
  match m with
  | Tagged => ctag k
  | Intrusive | NonIntrusive | Specialized => crecon k
  | Default => cdefault k
  end.

(** The object that deserialization starts from is the one built by that
    mechanism. *)
Theorem C28_object : forall E c k f, cls E c = Some k -> cbyte k = false -> describes k f ->
  (forall m, only f m -> exists ls, built_by k m = Some ls /\ recon E (TClass c) = Some (VObj c ls)) /\
  ((forall m, ~ preferred f m) -> recon E (TClass c) = None).
Proof.
  intros E c k f Hk Hb (H1 & H2 & H3). cbn [recon]. rewrite Hk, Hb. cbn [andb].
  unfold f_reconstruct in H2. split.
  - intros m (Hp & _).
    destruct Hp as [Ht|Ht Hr|Ht Hr|Ht Hr|Ht Hr1 Hr2 Hr3 Hd]; cbn [built_by].
    + destruct (ctag k) as [x|]; [exists x; split; reflexivity|]. exfalso. now apply H1.
    + destruct (ctag k) as [x|].
      { exfalso. rewrite Ht in H1. now assert (false = true) by (apply H1; discriminate). }
      destruct (crecon k) as [x|]; [exists x; split; reflexivity|].
      exfalso. apply H2; [|reflexivity]. rewrite Hr. now rewrite ?orb_true_r.
    + destruct (ctag k) as [x|].
      { exfalso. rewrite Ht in H1. now assert (false = true) by (apply H1; discriminate). }
      destruct (crecon k) as [x|]; [exists x; split; reflexivity|].
      exfalso. apply H2; [|reflexivity]. rewrite Hr. now rewrite ?orb_true_r.
    + destruct (ctag k) as [x|].
      { exfalso. rewrite Ht in H1. now assert (false = true) by (apply H1; discriminate). }
      destruct (crecon k) as [x|]; [exists x; split; reflexivity|].
      exfalso. apply H2; [|reflexivity]. rewrite Hr. now rewrite ?orb_true_r.
    + destruct (ctag k) as [x|].
      { exfalso. rewrite Ht in H1. now assert (false = true) by (apply H1; discriminate). }
      rewrite Hr1, Hr2, Hr3 in H2. destruct (crecon k) as [x|].
      { exfalso. now assert (false = true) by (apply H2; discriminate). }
      destruct (cdefault k) as [x|]; [exists x; split; reflexivity|]. exfalso. now apply H3.
  - intros Hn. destruct (ctag k) as [x|].
    { exfalso. apply (Hn Tagged). constructor. now apply H1. }
    destruct (f_tag f) eqn:Ht; [exfalso; now apply H1|].
    destruct (crecon k) as [x|].
    { exfalso. assert (H : f_nonintrusive f || f_intrusive f || f_specialized f = true)
        by (apply H2; discriminate).
      destruct (f_nonintrusive f) eqn:E1; [apply (Hn NonIntrusive); now constructor|].
      destruct (f_intrusive f) eqn:E2; [apply (Hn Intrusive); now constructor|].
      destruct (f_specialized f) eqn:E3; [apply (Hn Specialized); now constructor|]. discriminate. }
    destruct (cdefault k) as [x|]; [|reflexivity]. exfalso.
    assert (Hr : f_nonintrusive f || f_intrusive f || f_specialized f = false).
    { destruct (f_nonintrusive f || f_intrusive f || f_specialized f); auto.
      exfalso. now apply H2. }
    apply orb_false_elim in Hr. destruct Hr as (Hr & Hr3).
    apply orb_false_elim in Hr. destruct Hr as (Hr1 & Hr2).
    apply (Hn Default). constructor; auto. apply H3. discriminate.
Qed.
Print Assumptions C28_object.

(** A pointer to a class without a constructor is read: the process aborts before
    anything else is read; compiled with NDEBUG a null pointer is dereferenced. *)
Theorem C28_pointer : forall E f c d i, wf_env any E -> is_virtual E (TClass c) = true ->
  obj_idx E d = Some i -> N.of_nat i < 2 ^ 31 -> root E d = root E c ->
  recon E (TClass d) = None -> (2 <= f)%nat ->
  let t := TUnique (TClass c) in
  let header := le 4 (tix E t) ++ wbool E false ++ wint E (N.of_nat i) in
  (forall ls, exists rest, enc_root E t (VOpt (Some (VObj d ls))) = header ++ rest) /\
  forall before garbage,
    deserialize E f t (before ++ header ++ garbage) (length before)
    = Err (if asserts E then AssertErr else UB) /\
    deserialize_from_stream E f t (in_stream (header ++ garbage))
    = Err (if asserts E then AssertErr else UB).
Proof.
  intros E f c d i wf Hv Hi Hi31 Hrd Hn Hf t header. split.
  { intros ls. eexists. rewrite enc_root_frame. unfold root_frame, t.
    rewrite (encb_unique_dyn E c d ls i Hv Hi). unfold header. now rewrite <- !app_assoc. }
  set (x := if asserts E then AssertErr else UB).
  assert (Hfl : fails (with_root E MUnpacking f t (VOpt None)) false header x).
  { destruct f as [|f]; [lia|].
    assert (Hf1 : (1 <= f)%nat) by lia.
    pose proof (proj1 (unpack_all any E wf (fun _ _ => True) N.le ltac:(auto)
      ltac:(intros; lia) f)) as Hrec.
    assert (Hx : x = if chk E then bump (tix E t) x else x).
    { unfold x. destruct (chk E), (asserts E); reflexivity. }
    rewrite Hx. eapply fails_root; [exact wf|]. unfold ap. cbn [bytecopy is_virtual t mapP].
    apply fails_bind_l. cbn [apply_elem]. unfold ser_unique. cbn [is_footprinting].
    eapply fails_bind_r; [eapply u_bool; eauto|]. cbn beta iota.
    apply fails_bind_l. unfold reconstruct_pointed. rewrite Hv.
    eapply fails_eq; [|apply app_nil_r].
    eapply fails_bind_r with (a := N.of_nat i) (vf' := false).
    { unfold ser_virtual_type. cbn [is_unpacking is_footprinting bind].
      eapply reads_eq; [|apply app_nil_r].
      eapply reads_bind; [eapply u_int; eauto; lia|apply reads_ret]. }
    cbn [is_unpacking]. apply fails_bind_l. unfold construct_concrete.
    rewrite Nat2N.id, <- Hrd.
    assert (Hnth : nth_error (oreg E (root E d)) i = Some d) by (now apply index_of_nth).
    rewrite Hnth, Hn. apply fails_note. unfold x. destruct (asserts E); apply fails_fail. }
  intros before garbage. split.
  - exact (in_place_fails E f t _ _ _ Hfl before garbage).
  - exact (in_place_stream_fails E f t _ _ _ Hfl garbage 0).
Qed.
Print Assumptions C28_pointer.

(** Compiled with NDEBUG: a class that cannot be constructed, in the default
    configuration of the library, leads to a null dereference. *)
Theorem C28_release_refuted :
  (exists f, construct_allow_fail false f = Does [] Null) /\
  exists s, serialize (ex_release true) 12 (TUnique (TClass 1))
      (VOpt (Some (VObj 13 [[w4 8; s_ab]; [w8 5]]))) None = Ok s /\
    deserialize (ex_release true) 12 (TUnique (TClass 1)) (s_bytes s) 0 = Err UB.
Proof.
  split.
  - exists {| f_tag := false; f_intrusive := false; f_nonintrusive := false;
      f_specialized := false; f_expr := false; f_default := false |}. reflexivity.
  - eexists. split; [vm_compute; reflexivity|vm_compute; reflexivity].
Qed.
Print Assumptions C28_release_refuted.

(** All mechanisms at once; a reconstruct function and a default constructor; two
    reconstruct functions. *)
Example C28_mechanisms :
  construct_type {| f_tag := true; f_intrusive := true; f_nonintrusive := true;
    f_specialized := true; f_expr := true; f_default := true |} = Does [Tagged] Object /\
  construct_type {| f_tag := false; f_intrusive := false; f_nonintrusive := true;
    f_specialized := false; f_expr := true; f_default := true |} = Does [NonIntrusive] Object /\
  construct_type {| f_tag := false; f_intrusive := true; f_nonintrusive := true;
    f_specialized := false; f_expr := true; f_default := true |} = IllFormed.
Proof. repeat split; reflexivity. Qed.

(** Ring has a reconstruct function only, Circle a tagged and a default
    constructor, Husk nothing. *)
Example C28_case : forall b,
  recon (ex b) (TClass 2) = option_map (VObj 2) (ctag cCircle) /\
  recon (ex b) (TClass 3) = option_map (VObj 3) (crecon cRing) /\
  exists s, serialize (ex b) 12 (TUnique (TClass 1))
      (VOpt (Some (VObj 13 [[w4 8; s_ab]; [w8 5]]))) None = Ok s /\
    deserialize (ex b) 12 (TUnique (TClass 1)) (s_bytes s) 0 = Err AssertErr.
Proof.
  intros b. split; [reflexivity|]. split; [reflexivity|].
  destruct b; (eexists; split; [vm_compute; reflexivity|vm_compute; reflexivity]).
Qed.
