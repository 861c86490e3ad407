(** Which mechanism serializes an object (C53). *)
From Coq Require Import List NArith Arith Bool Lia.
From Coq.Strings Require Import Byte.
From Verif Require Import Base Syntax Prog Serializers Traverse Examples SelectFacts.
From Verif Require Import Select.
Import ListNotations.
Local Open Scope nat_scope.

(** The ways to serialize an object that a type offers to a serializer: a
    byte-copyable type is copied, whatever else it offers; a footprinter falls back
    to sizeof for types that offer nothing. *)
Inductive way := ByBytes | ByMember | ByFree | ByEnum | BySizeof.
Definition copyable (q : traits) : Prop :=
  q_marker q = true \/ q_arith q = true \/ q_special q = true.
Inductive offers (q : traits) (m : mode) : way -> Prop :=
| OfBytes : copyable q -> offers q m ByBytes
| OfMember : ~ copyable q -> q_member q m = true -> offers q m ByMember
| OfFree : ~ copyable q -> q_free q m = true -> offers q m ByFree
| OfEnum : ~ copyable q -> q_enum q = true -> offers q m ByEnum
| OfSizeof : ~ copyable q -> m = MFootprinting -> q_member q m = false ->
    q_free q m = false -> q_enum q = false -> offers q m BySizeof.
Definition only_way (q : traits) (m : mode) (w : way) : Prop :=
  offers q m w /\ forall w', offers q m w' -> w' = w.

(** An enumeration has no member functions. *)
Definition plain_enum (q : traits) : Prop :=
  q_enum q = true -> forall m, q_member q m = false /\ q_parent q m = false /\ q_this q m = false.

(** The calls for [n] objects: each object in turn, its split functions after its
    serialize function. *)
Definition calls_for (q : traits) (m : mode) (w : way) (n : nat) : list call :=
  match w with
  | ByBytes => [Copy n]
  | BySizeof => [Sizeof n]
  | ByMember =>
    flat_map (fun i => Member i ::
      if q_parent q m && q_this q m then [Parent i; This i] else []) (seq 0 n)
  | ByFree => map Free (seq 0 n)
  | ByEnum => map Enum (seq 0 n)
  end.
Definition polymorphic (q : traits) : Prop :=
  q_base q = true /\ q_dynser q = true /\ q_dynidx q = true.

Lemma for_each_flat : forall body n i, for_each body i n = flat_map body (seq i n).
Proof. intros body n. induction n; intros i; cbn; [reflexivity|now rewrite IHn]. Qed.

Lemma flat_map_single : forall A B (f : A -> B) l, flat_map (fun x => [f x]) l = map f l.
Proof. intros A B f l. induction l; cbn; [reflexivity|now rewrite IHl]. Qed.

Lemma copyable_b : forall q, copyable q <-> q_bytes q = true.
Proof.
  intros q. unfold copyable, q_bytes. rewrite !orb_true_iff. tauto.
Qed.

Lemma polymorphic_b : forall q, polymorphic q <-> q_virtual q = true.
Proof.
  intros q. unfold polymorphic, q_virtual. rewrite !andb_true_iff. tauto.
Qed.

Lemma resolve_two : forall A b (x y : option A), resolve [(b, x); (negb b, y)] = if b then x else y.
Proof. intros A [] x y; reflexivity. Qed.

(** The static part: what applyStatic resolves to. *)
Lemma static_one : forall q m, plain_enum q -> q_bytes q = false ->
  (forall w, only_way q m w -> exists f, apply_static q m = Some f /\ forall n, f n = calls_for q m w n) /\
  ((forall w, ~ only_way q m w) -> apply_static q m = None).
Proof.
  intros q m Hp Hb.
  assert (Hnc : ~ copyable q) by (rewrite copyable_b; congruence).
  assert (Helm : q_enum q = false -> apply_elm q m =
    Some (if q_parent q m && q_this q m then (fun i => [Parent i; This i]) else (fun _ => []))).
  { intros He. unfold apply_elm, q_split. rewrite He.
    destruct (q_parent q m && q_this q m); reflexivity. }
  unfold apply_static, q_traversable. rewrite Hb.
  destruct (q_enum q) eqn:He.
  - destruct (Hp He m) as (Hm & Hpa & Hth). rewrite Hm.
    assert (Hel : apply_elm q m = Some (fun i => [Enum i])).
    { unfold apply_elm, q_split. rewrite He, Hpa. reflexivity. }
    rewrite Hel. rewrite ?andb_false_r.
    destruct (q_free q m) eqn:Hf; cbn [resolve filter fst].
    + split; auto. intros w (_ & Hq). exfalso.
      pose proof (Hq _ (OfFree q m Hnc Hf)). pose proof (Hq _ (OfEnum q m Hnc He)). congruence.
    + split.
      * intros w (Ho & _). eexists. split; [reflexivity|]. intros n.
        inversion Ho; subst; try congruence; try contradiction.
        rewrite for_each_flat. apply flat_map_single.
      * intros H. exfalso. apply (H ByEnum). split; [now constructor|].
        intros w' Hw. inversion Hw; subst; congruence || contradiction.
  - rewrite Helm by auto. destruct (q_member q m) eqn:Hm; destruct (q_free q m) eqn:Hf;
      cbn [orb negb andb]; rewrite ?andb_false_r; cbn [resolve filter fst].
    + split; auto. intros w (_ & Hq). exfalso.
      pose proof (Hq _ (OfFree q m Hnc Hf)). pose proof (Hq _ (OfMember q m Hnc Hm)). congruence.
    + split.
      * intros w (Ho & _). eexists. split; [reflexivity|]. intros n.
        inversion Ho; subst; try congruence; try contradiction.
        rewrite for_each_flat. cbn [calls_for].
        destruct (q_parent q m && q_this q m); reflexivity.
      * intros H. exfalso. apply (H ByMember). split; [now constructor|].
        intros w' Hw. inversion Hw; subst; congruence || contradiction.
    + split.
      * intros w (Ho & _). eexists. split; [reflexivity|]. intros n.
        inversion Ho; subst; try congruence; try contradiction.
        rewrite for_each_flat. apply flat_map_single.
      * intros H. exfalso. apply (H ByFree). split; [now constructor|].
        intros w' Hw. inversion Hw; subst; congruence || contradiction.
    + destruct (is_footprinting m) eqn:Ef; cbn [andb filter fst].
      * assert (m = MFootprinting) by (destruct m; (reflexivity || discriminate)). subst m. split.
        -- intros w (Ho & _). eexists. split; [reflexivity|]. intros n.
           inversion Ho; subst; try congruence; try contradiction. reflexivity.
        -- intros H. exfalso. apply (H BySizeof). split; [now constructor|].
           intros w' Hw. inversion Hw; subst; congruence || contradiction.
      * split; auto. intros w (Ho & _). exfalso.
        inversion Ho; subst; try congruence; try contradiction. discriminate.
Qed.

(** A type that offers exactly one way is serialized that way, object by object;
    one that offers none or several is rejected by the compiler.  The objects of a
    polymorphic class go through the virtual functions unless the flag is set. *)
Theorem C53_one_mechanism : forall q m, plain_enum q ->
  (forall w, only_way q m w -> exists f, dispatch q m = Some f /\
     (forall n flag, w = ByBytes \/ ~ polymorphic q -> f n flag = (calls_for q m w n, flag)) /\
     (forall n, w <> ByBytes -> polymorphic q ->
        f n true = (calls_for q m w n, false) /\ f n false = ([Dynamic 0], false))) /\
  (dispatch q m = None <-> forall w, ~ only_way q m w).
Proof.
  intros q m Hp.
  assert (H1 : forall w, only_way q m w -> exists f, dispatch q m = Some f /\
     (forall n flag, w = ByBytes \/ ~ polymorphic q -> f n flag = (calls_for q m w n, flag)) /\
     (forall n, w <> ByBytes -> polymorphic q ->
        f n true = (calls_for q m w n, false) /\ f n false = ([Dynamic 0], false))).
  { intros w Hw. unfold dispatch. rewrite resolve_two. destruct (q_bytes q) eqn:Hb.
    - eexists. split; [reflexivity|].
      assert (w = ByBytes). { symmetry. apply (proj2 Hw). constructor. now apply copyable_b. }
      subst w. split; [reflexivity|congruence].
    - destruct (proj1 (static_one q m Hp Hb) w Hw) as (f & Hf & Hn).
      assert (Hnb : w <> ByBytes).
      { intros ->. destruct Hw as (Ho & _). inversion Ho; subst.
        match goal with H : copyable q |- _ => apply copyable_b in H; congruence end. }
      unfold apply. rewrite resolve_two, Hf. destruct (q_virtual q) eqn:Hv.
      + eexists. split; [reflexivity|]. split.
        * intros n flag [?|Hnp]; [congruence|]. exfalso. apply Hnp. now apply polymorphic_b.
        * intros n _ _. now rewrite Hn.
      + eexists. split; [reflexivity|]. split.
        * intros n flag _. now rewrite Hn.
        * intros n _ Hpo. apply polymorphic_b in Hpo. congruence. }
  split; [exact H1|]. split.
  - intros Hd w Hw. destruct (H1 w Hw) as (f & Hf & _). congruence.
  - intros Hno. unfold dispatch. rewrite resolve_two. destruct (q_bytes q) eqn:Hb.
    + exfalso. apply (Hno ByBytes). apply copyable_b in Hb. split; [now constructor|].
      intros w' Hw. inversion Hw; subst; auto; contradiction.
    + unfold apply. rewrite resolve_two, (proj2 (static_one q m Hp Hb) Hno).
      now destruct (q_virtual q).
Qed.
Print Assumptions C53_one_mechanism.

(** Serializers that detect the same functions use the same mechanism; only a
    footprinter accepts more types than the others, those without any function. *)
Theorem C53_same_in_all_modes : forall q m m', plain_enum q ->
  q_member q m = q_member q m' -> q_free q m = q_free q m' ->
  q_parent q m = q_parent q m' -> q_this q m = q_this q m' ->
  m <> MFootprinting ->
  forall f, dispatch q m = Some f ->
  exists f', dispatch q m' = Some f' /\ forall n flag, f n flag = f' n flag.
Proof.
  intros q m m' Hp Em Ef Ep Et Hm f Hf.
  exists f. split; [|auto].
  unfold dispatch in *. rewrite resolve_two in *. destruct (q_bytes q) eqn:Hb; [exact Hf|].
  unfold apply in *. rewrite resolve_two in *.
  assert (Hs : apply_static q m = None \/ apply_static q m' = apply_static q m).
  { unfold apply_static, apply_elm, q_traversable, q_split. rewrite <- Em, <- Ef, <- Ep, <- Et, Hb.
    assert (is_footprinting m = false) as -> by (destruct m; congruence || reflexivity).
    destruct (is_footprinting m'); [|now right]. cbn [andb].
    destruct (q_member q m), (q_free q m), (q_enum q), (q_parent q m && q_this q m); cbn; auto. }
  destruct Hs as [Hs|Hs].
  - rewrite Hs in Hf. destruct (q_virtual q); discriminate.
  - now rewrite Hs.
Qed.
Print Assumptions C53_same_in_all_modes.

(** The traversal of the model does what is selected, for every type, every
    non-empty array and every serializer that sums what it counts and does not notice the
    flag of the first count. *)
Theorem C53_traversal : forall E m rec H t vs vf s,
  (forall a b s, count H b (count H a s) = count H (a + b)%N s) ->
  (forall u s, note H (EvFirst u) s = s) -> vs <> [] ->
  interp H (selected E m rec t vs) vf s = interp H (ap E m rec t vs) vf s.
Proof. exact select_ap. Qed.
Print Assumptions C53_traversal.

(** A serialize function that a class declares itself may never be called: a
    byte-copy marker inherited from a base class wins. *)
Theorem C53_own_function_refuted : exists l d r,
  l = d :: r /\ d_serialize d = true /\ d_marker d = None /\
  forall m, exists f, dispatch (class_traits l) m = Some f /\
    forall n flag i, ~ In (Member i) (fst (f n flag)).
Proof.
  exists [ {| d_marker := None; d_serialize := true |}; {| d_marker := Some true; d_serialize := false |} ].
  eexists. eexists. repeat split.
  intros m. eexists. split; [reflexivity|]. cbn. intros n flag i [H|[]]. discriminate.
Qed.
Print Assumptions C53_own_function_refuted.

(** Missing from the full statement: classes that inherit a byte-copy marker, for
    which it is false (C53_own_function_refuted).
    The own function is called if the class says itself that it is not byte-copyable, or no base
    class says that it is. *)
Theorem C53_own_function_partial : forall d r m,
  d_serialize d = true ->
  d_marker d = Some false \/ (d_marker d = None /\ Forall (fun b => d_marker b <> Some true) r) ->
  exists f, dispatch (class_traits (d :: r)) m = Some f /\
    forall n flag, f n flag = (map Member (seq 0 n), flag).
Proof.
  intros d r m Hs Hm.
  assert (Hl : q_marker (class_traits (d :: r)) = false).
  { cbn [class_traits q_marker lookup]. destruct Hm as [->|(-> & Hr)]; [reflexivity|].
    induction Hr as [|b r Hb Hr IH]; cbn [lookup]; [reflexivity|].
    destruct (d_marker b) as [[]|]; [congruence|reflexivity|exact IH]. }
  assert (Hp : plain_enum (class_traits (d :: r))) by (intros H; discriminate H).
  assert (Hb : ~ copyable (class_traits (d :: r))).
  { unfold copyable. rewrite Hl. cbn. intuition discriminate. }
  destruct (proj1 (C53_one_mechanism _ m Hp) ByMember) as (f & Hf & Hn & _).
  { split.
    - constructor; auto. cbn. now rewrite Hs.
    - intros w' Hw. inversion Hw; subst; auto; try contradiction; try discriminate.
      cbn in *. rewrite Hs in *. discriminate. }
  exists f. split; [exact Hf|]. intros n flag. rewrite Hn.
  - cbn [calls_for class_traits q_parent q_this andb]. reflexivity.
  - right. unfold polymorphic. cbn. intuition discriminate.
Qed.
Print Assumptions C53_own_function_partial.

(** Only the split functions are not enough to be serialized. *)
Theorem C53_split_alone : forall q m, plain_enum q -> ~ copyable q -> q_member q m = false ->
  q_free q m = false -> q_enum q = false -> m <> MFootprinting -> dispatch q m = None.
Proof.
  intros q m Hp Hc Hm Hf He Hn. apply (proj2 (C53_one_mechanism q m Hp)).
  intros w (Ho & _). inversion Ho; subst; congruence || contradiction.
Qed.
Print Assumptions C53_split_alone.

(** A class with serialize and the split functions, the same with a free function as
    well, and one with nothing but the split functions. *)
Definition q_ex (mem free : bool) : traits := {|
  q_marker := false; q_arith := false; q_special := false; q_enum := false;
  q_member := fun _ => mem; q_free := fun _ => free;
  q_parent := fun _ => true; q_this := fun _ => true;
  q_base := false; q_dynser := false; q_dynidx := false |}.

Example C53_case :
  plain_enum (q_ex true false) /\ only_way (q_ex true false) MPacking ByMember /\
  (exists f, dispatch (q_ex true false) MPacking = Some f /\
     f 2 false = ([Member 0; Parent 0; This 0; Member 1; Parent 1; This 1], false)) /\
  dispatch (q_ex true true) MPacking = None /\
  dispatch (q_ex false false) MPacking = None /\
  (exists f, dispatch (q_ex false false) MFootprinting = Some f /\ f 2 false = ([Sizeof 2], false)).
Proof.
  split; [intros H; discriminate H|]. split.
  { split.
    - constructor; auto. unfold copyable. cbn. intuition discriminate.
    - intros w Hw. inversion Hw; subst; auto; try discriminate.
      unfold copyable in *. cbn in *. intuition discriminate. }
  split; [eexists; split; reflexivity|].
  split; [reflexivity|]. split; [reflexivity|]. eexists. split; reflexivity.
Qed.

(** An array of two polymorphic objects and an array of three opaque ones. *)
Example C53_traversal_case : forall b,
  (exists f, dispatch (traits_of (ex b) (TClass 1)) MPacking = Some f /\
     f 2 false = ([Dynamic 0], false) /\ f 2 true = ([Member 0; Member 1], false)) /\
  dispatch (traits_of (ex b) (TOpaque 9 24)) MSizing = None /\
  interp footprinter (selected (ex b) MFootprinting (fun _ _ => Fail NoFuel) (TOpaque 9 24)
     [VB []; VB []; VB []]) false 100%N = Ok ([VB []; VB []; VB []], false, 172%N) /\
  interp footprinter (ap (ex b) MFootprinting (fun _ _ => Fail NoFuel) (TOpaque 9 24)
     [VB []; VB []; VB []]) false 100%N = Ok ([VB []; VB []; VB []], false, 172%N) /\
  (forall a c s, count footprinter c (count footprinter a s) = count footprinter (a + c)%N s) /\
  (forall u s, note footprinter (EvFirst u) s = s).
Proof.
  intros b. split; [eexists; repeat split; destruct b; reflexivity|].
  split; [reflexivity|]. split; [destruct b; vm_compute; reflexivity|].
  split; [destruct b; vm_compute; reflexivity|].
  split; [|reflexivity].
  intros a c s. cbn. unfold wrap64. rewrite N.add_mod_idemp_l by discriminate. f_equal. lia.
Qed.
