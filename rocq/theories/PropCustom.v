(** C69: traversals by serializers of the user's own. *)
From Coq Require Import List NArith Arith Bool Lia.
From Coq.Strings Require Import Byte.
From Verif Require Import Base Syntax Prog Serializers Traverse Api Streams Custom Spec
  ValFacts EnvFacts ProgFacts ApiFacts Examples Pack Conc PropVirtual PropStream PropBuilds.
Import ListNotations.
Local Open Scope N_scope.

(** ** Specification *)

(** The bytes of the calls of contiguousBytes, one call after the other, until one throws. *)
Fixpoint feed {S} (step : bytes -> S -> res S) (calls : list bytes) (s : S) : res S :=
  match calls with
  | [] => Ok s
  | b :: r => match step b s with Ok s' => feed step r s' | Err e => Err e end
  end.

(** The object without any record of types and sizes: what a build without error checking
    writes for it, between the type number and the size of the root object. *)
Definition unrecorded (E : env) (t : ty) (v : val) : bytes := encb (build E false (tix E)) t v.

(** The user's serialize functions visit in mode None what they visit when packing. *)
Definition mode_none (E : env) : Prop :=
  forall c k, cls E c = Some k -> cser k MNone = cser k MPacking.

(** ** A program that succeeds whenever another one does, with the same result *)

Definition below {A} (p q : prog A) : Prop :=
  forall H vf s r, interp H p vf s = Ok r -> interp H q vf s = Ok r.

Lemma below_refl : forall A (p : prog A), below p p.
Proof. unfold below. auto. Qed.
Lemma below_bind : forall A B (p q : prog A) (f g : A -> prog B),
  below p q -> (forall a, below (f a) (g a)) -> below (bind p f) (bind q g).
Proof.
  intros A B p q f g Hp Hf H vf s r. rewrite !interp_bind.
  destruct (interp H p vf s) as [[[a vf'] s']|e] eqn:Ep; [|discriminate].
  rewrite (Hp _ _ _ _ Ep). apply Hf.
Qed.
Lemma below_mapP : forall A B (f g : A -> prog B) l,
  (forall x, below (f x) (g x)) -> below (mapP f l) (mapP g l).
Proof.
  intros A B f g l Hf. induction l as [|x l IH]; cbn [mapP]; [apply below_refl|].
  apply below_bind; auto. intros y. apply below_bind; auto. intros ys. apply below_refl.
Qed.
Lemma below_foldP : forall A B (f g : B -> A -> prog B) l,
  (forall acc x, below (f acc x) (g acc x)) -> forall acc, below (foldP f l acc) (foldP g l acc).
Proof.
  intros A B f g l Hf. induction l as [|x l IH]; intros acc; cbn [foldP]; [apply below_refl|].
  apply below_bind; auto.
Qed.
Lemma below_count : forall A n (p q : prog A), below p q -> below (Count n p) (Count n q).
Proof. intros A n p q Hp H vf s r. cbn [interp]. apply Hp. Qed.
Lemma below_note : forall A e (p q : prog A), below p q -> below (Note e p) (Note e q).
Proof. intros A n p q Hp H vf s r. cbn [interp]. apply Hp. Qed.
Lemma below_setv : forall A v (p q : prog A), below p q -> below (SetV v p) (SetV v q).
Proof. intros A n p q Hp H vf s r. cbn [interp]. apply Hp. Qed.
Lemma below_getv : forall A (p q : bool -> prog A), (forall v, below (p v) (q v)) -> below (GetV p) (GetV q).
Proof. intros A p q Hp H vf s r. cbn [interp]. apply Hp. Qed.
Lemma below_catch : forall A i (p q : prog A), below p q -> below p (catch i q).
Proof.
  intros A i p q Hp H vf s r Hr. apply Hp in Hr. clear Hp. revert vf s Hr.
  induction q; intros vf s Hr; cbn [catch interp] in *; auto; try discriminate.
  destruct (contig H b s) as [[b' s']|]; auto.
Qed.

(** ** Mode None in either build does what packing does without error checking *)
Section None.
Variable E : env.
Local Notation E0 := (build E false (tix E)).
Hypothesis Hnone : mode_none E.

Section Rec.
Variables rec0 rec : ty -> list val -> prog (list val).
Hypothesis Hrec : forall t vs, below (rec0 t vs) (rec t vs).

Lemma n_ser : forall t v, below (ser rec0 t v) (ser rec t v).
Proof. intros t v. unfold ser. apply below_bind; auto. intros vs. apply below_refl. Qed.
Lemma n_word : forall id sz n, below (ser_word rec0 id sz n) (ser_word rec id sz n).
Proof. intros. unfold ser_word. apply below_bind; [apply n_ser|]. intros v. apply below_refl. Qed.
Lemma n_bool : forall b, below (ser_bool rec0 b) (ser_bool rec b).
Proof. intros. unfold ser_bool. apply below_bind; [apply n_word|]. intros v. apply below_refl. Qed.
Lemma n_array : forall t vs, below (ser_array rec0 t vs) (ser_array rec t vs).
Proof. intros t vs. unfold ser_array. destruct vs; auto. apply below_refl. Qed.

Ltac go := repeat first
  [ apply below_refl | apply n_ser | apply n_word | apply n_bool | apply n_array
  | apply below_mapP; intros | apply below_foldP; intros | apply below_count | apply below_note
  | apply below_setv | apply below_bind; [|intros] | progress cbn [is_unpacking is_footprinting] ].

Lemma n_tuple : forall ts l, below (ser_tuple rec0 ts l) (ser_tuple rec ts l).
Proof. induction ts as [|t ts IH]; destruct l; cbn [ser_tuple]; go. apply IH. Qed.
Lemma n_entry : forall ts v i cur, below (ser_entry E0 MPacking rec0 ts v i cur) (ser_entry E MNone rec ts v i cur).
Proof.
  induction ts as [|t ts IH]; intros v i cur; cbn [ser_entry is_unpacking]; go.
  destruct (i =? N.of_nat cur); auto. destruct v; go. destruct (Nat.eqb i0 cur); go.
Qed.
Lemma n_idx : forall v, dyn_type_idx E0 v = dyn_type_idx E v.
Proof. intros v. destruct v; auto. cbn [dyn_type_idx cls build]. now rewrite obj_idx_build. Qed.
Lemma n_virtual_type : forall o, below (ser_virtual_type E0 MPacking rec0 o) (ser_virtual_type E MNone rec o).
Proof.
  intros o. unfold ser_virtual_type. cbn [is_unpacking is_footprinting asserts build].
  destruct o; go. all: rewrite n_idx; go.
Qed.
Lemma n_pointed : forall t o, below (reconstruct_pointed E0 MPacking rec0 t o) (reconstruct_pointed E MNone rec t o).
Proof.
  intros t o. unfold reconstruct_pointed. cbn [is_unpacking].
  destruct t; go. change (is_virtual E0 (TClass c)) with (is_virtual E (TClass c)).
  destruct (is_virtual E (TClass c)); [|go]. apply below_bind; [apply n_virtual_type|]. intros. apply below_refl.
Qed.
Lemma n_static : forall c v, below (apply_static E0 MPacking rec0 c v) (apply_static E MNone rec c v).
Proof.
  intros c v. unfold apply_static. destruct v; go. cbn [cls build]. rewrite level_build.
  destruct (cls E c) as [k|] eqn:Hk; go. rewrite (Hnone c k Hk).
  destruct (nth_error ls (level E c)); go. unfold ser_members. go.
  destruct (nth_error (cfields k) x); go. destruct (nth_error acc x); go.
Qed.
Lemma n_dyn : forall v, below (dyn_serialize E0 rec0 v) (dyn_serialize E rec v).
Proof.
  intros v. unfold dyn_serialize. destruct v; go. rewrite chain_build.
  change (is_virtual E0 (TClass c)) with (is_virtual E (TClass c)).
  destruct (is_virtual E (TClass c)); go.
Qed.

Lemma n_elem : forall t v, below (apply_elem E0 MPacking rec0 t v) (apply_elem E MNone rec t v).
Proof.
  intros t v. unfold apply_elem. destruct t, v; try apply below_refl; try apply n_static.
  all: try (unfold ser_underlying, ser_string, ser_vector, ser_vecbool, ser_vector_meta, ser_stdarray,
    ser_list, ser_assoc, ser_container_size, ser_container_elems, ser_queue, ser_adaptor, ser_optional,
    ser_variant, ser_unique, ser_followed; cbn [is_unpacking is_footprinting]; go).
  all: try (match goal with |- below (match ?x with _ => _ end) _ => destruct x end; go).
  all: try apply n_entry; try apply n_tuple; try apply n_pointed.
  all: repeat (match goal with |- below (match ?x with _ => _ end) _ => destruct x end; try apply below_refl).
  all: unfold ser_pair; go.
Qed.

Lemma n_ap : forall t vs, below (ap E0 MPacking rec0 t vs) (ap E MNone rec t vs).
Proof.
  intros t vs. unfold ap. rewrite bytecopy_build. change (is_virtual E0 t) with (is_virtual E t).
  destruct (bytecopy E t).
  { rewrite (map_ext _ _ (obj_bytes_build E false (tix E) t)).
    destruct (opt_all (map (obj_bytes E t) vs)); [|apply below_refl].
    intros H vf s r. cbn [interp]. destruct (contig H (concat l) s) as [[b s']|]; auto.
    now rewrite unflatten_build. }
  destruct (is_virtual E t).
  - apply below_getv. intros d. destruct d; [apply below_setv, below_mapP; intros; apply n_elem|].
    destruct vs; [apply below_refl|]. apply below_bind; [apply n_dyn|]. intros. apply below_refl.
  - apply below_mapP. intros; apply n_elem.
Qed.
End Rec.

Lemma n_with : forall f t vs, below (with_ E0 MPacking f t vs) (with_ E MNone f t vs).
Proof.
  induction f as [|f IH]; intros t vs; [apply below_refl|]. cbn [with_]. unfold traverse. cbn [chk build].
  destruct (chk E); [|now apply n_ap]. cbn [with_type_idx with_mem_used bind].
  intros H vf s r Hr. rewrite interp_bind.
  rewrite (below_catch _ (tix E t) _ _ (n_ap _ _ IH t vs) _ _ _ _ Hr). destruct r as [[? ?] ?]. reflexivity.
Qed.

Lemma n_root : forall f t v, below (ser (with_ E0 MPacking f) t v) (with_root E MNone f t v).
Proof.
  intros f t v. unfold with_root. destruct (chk E); [apply n_ser; apply n_with|].
  cbn [with_type_idx with_mem_used bind]. intros H vf s r Hr. rewrite interp_bind.
  rewrite (n_ser _ _ (n_with f) t v _ _ _ _ Hr). destruct r as [[? ?] ?]. reflexivity.
Qed.
End None.

(** A program that a read-only collector sees the bytes [out] of hands the same bytes to every
    visitor. *)
Lemma visits : forall A (p : prog A) vf s0 a vf' s1,
  interp collector p vf s0 = Ok (a, vf', s1) ->
  exists calls, s1 = s0 ++ concat calls /\
  forall S (step : bytes -> S -> res S) s, interp (visitor step) p vf s =
    match feed step calls s with Ok s' => Ok (a, vf', s') | Err e => Err e end.
Proof.
  intros A p. induction p; intros vf s0 a0 vf' s1 Hi; cbn [interp] in Hi; try discriminate;
    try (destruct (H _ _ _ _ _ _ Hi) as (calls & Hc & Hv); exists calls; split; [exact Hc|exact Hv]);
    try (destruct (IHp _ _ _ _ _ Hi) as (calls & Hc & Hv); exists calls; split; [exact Hc|exact Hv]).
  - inversion Hi; subst. exists []. split; [now rewrite app_nil_r|]. reflexivity.
  - destruct (H _ _ _ _ _ _ Hi) as (calls & Hc & Hv). exists (b :: calls). cbn [concat collector contig] in *.
    split; [now rewrite app_assoc|]. intros S step s. cbn [interp visitor contig feed].
    destruct (step b s) as [s'|e]; [apply Hv|reflexivity].
Qed.

Lemma visitor_honest : forall S (step : bytes -> S -> res S), honest (visitor step).
Proof.
  intros S step b s y s' H. cbn [visitor contig] in H. destruct (step b s); inversion H; reflexivity.
Qed.

Lemma none_root : forall E f t v, wf_env any E -> mode_none E -> has_ty E t v -> (depth v < f)%nat ->
  exists calls, concat calls = unrecorded E t v /\
  forall S (step : bytes -> S -> res S) s, interp (visitor step) (with_root E MNone f t v) false s =
    match feed step calls s with Ok s' => Ok (v, false, s') | Err e => Err e end.
Proof.
  intros E f t v wf Hm Ht Hd. set (E0 := build E false (tix E)).
  assert (wf0 : wf_env any E0) by (apply wf_build; [exact wf|]; apply (wf_tix any E wf)).
  assert (Ht0 : has_ty E0 t v) by exact (has_ty_build E false (tix E) f v Hd t Ht).
  assert (He : emits (ser (with_ E0 MPacking f) t v) false v false (enc E0 t v)).
  { eapply (p_ser E0 _ f); [apply (pack_all any E0 wf0 MPacking (or_introl eq_refl) f)|now constructor|exact Hd]. }
  destruct (visits _ (with_root E MNone f t v) false [] v false (enc E0 t v)) as (calls & Hc & Hv).
  { apply (n_root E Hm f t v). exact (He []). }
  exists calls. split; [symmetry; exact Hc|exact Hv].
Qed.

(** ** C69 *)

(** A serializer of the user's own, in either build, is handed exactly the bytes of the object,
    in order and without any record of types and sizes, until it throws, and the object is left
    as it is.  What it is handed does not depend on the serializer. *)
Theorem C69_custom_traversal : forall E f t v,
  wf_env any E -> no_bytewise_virtual E -> no_hierarchy E -> mode_none E ->
  has_ty E t v -> (depth v < f)%nat ->
  exists calls, concat calls = unrecorded E t v /\
  forall S (step : bytes -> S -> res S) s, custom_traverse E step f t v s =
    match feed step calls s with Ok s' => Ok (v, s') | Err e => Err e end.
Proof.
  intros E f t v wf nobv nh Hm Ht Hd. destruct (none_root E f t v wf Hm Ht Hd) as (calls & Hc & Hv).
  exists calls. split; [exact Hc|]. intros S step s. unfold custom_traverse.
  pose proof (via_same E false (visitor step) MNone f t v s wf nobv nh (visitor_honest S step)) as Hs.
  cbn [via] in Hs. rewrite Hs, Hv.
  destruct (feed step calls s); reflexivity.
Qed.
Print Assumptions C69_custom_traversal.

(** A serializer that adds up the numbers of bytes. *)
Definition adds (b : bytes) (n : N) : res N := Ok (n + len b).
Lemma feed_adds : forall calls n, feed adds calls n = Ok (n + len (concat calls)).
Proof.
  induction calls as [|b r IH]; intros n; cbn [feed adds concat]; [unfold len; cbn; f_equal; lia|].
  rewrite IH. f_equal. unfold len. rewrite app_length. lia.
Qed.

(** The bytes are those that serialize writes, in a build without error checking, between the
    type number and the size of the root object; the serializer that adds up arrives at the size
    that getSize returns there, less the twelve bytes of these two. *)
Theorem C69_same_data : forall E f t v,
  wf_env any E -> no_bytewise_virtual E -> no_hierarchy E -> mode_none E ->
  has_ty E t v -> (depth v < f)%nat -> len (unrecorded E t v) + 12 < two64 ->
  let E0 := build E false (tix E) in
  (exists s, serialize E0 f t v None = Ok s /\
   s_bytes s = le 4 (tix E t) ++ unrecorded E t v ++ le 8 (wrap64 (sizeof E t))) /\
  exists n, custom_traverse E adds f t v 0 = Ok (v, n) /\ get_size E0 f t v = Ok (v, n + 12).
Proof.
  intros E f t v wf nobv nh Hm Ht Hd Hn E0.
  assert (wf0 : wf_env any E0) by (apply wf_build; [exact wf|]; apply (wf_tix any E wf)).
  assert (Ht0 : has_ty E0 t v) by exact (has_ty_build E false (tix E) f v Hd t Ht).
  assert (Hl : len (enc_root E0 t v) = len (unrecorded E t v) + 12).
  { unfold enc_root. cbn [chk E0 build]. unfold len, unrecorded. fold E0. rewrite !app_length, !le_length. lia. }
  split.
  - eexists. split; [apply (serialize_managed E0 wf0); auto; lia|]. reflexivity.
  - destruct (C69_custom_traversal E f t v wf nobv nh Hm Ht Hd) as (calls & Hc & Hv).
    exists (len (unrecorded E t v)). rewrite Hv, feed_adds, Hc. split; [reflexivity|].
    rewrite (size_len E0 wf0), Hl; auto; lia.
Qed.
Print Assumptions C69_same_data.

(** In all programs: the call does this unless it comes to an object of a class derived from a
    polymorphic class; then it fails an assertion, or calls an empty function. *)
Theorem C69_hierarchies : forall E f t v,
  wf_env any E -> mode_none E -> has_ty E t v -> (depth v < f)%nat ->
  exists calls, concat calls = unrecorded E t v /\
  forall S (step : bytes -> S -> res S) s, custom_traverse E step f t v s =
    if existsb (derived_event E) (trace (visitor step) _ (with_root E MNone f t v) false s)
    then Err (if asserts E then AssertErr else CallErr)
    else match feed step calls s with Ok s' => Ok (v, s') | Err e => Err e end.
Proof.
  intros E f t v wf Hm Ht Hd. destruct (none_root E f t v wf Hm Ht Hd) as (calls & Hc & Hv).
  exists calls. split; [exact Hc|]. intros S step s. unfold custom_traverse.
  rewrite interp_unlisted, Hv. unfold missing. destruct (existsb _ _); [reflexivity|].
  destruct (feed step calls s); reflexivity.
Qed.
Print Assumptions C69_hierarchies.

(** That happens: a vector of pointers to polymorphic objects. *)
Theorem C69_hierarchies_fail : exists E f t v, wf_env any E /\ mode_none E /\ has_ty E t v /\
  (depth v < f)%nat /\ custom_traverse E adds f t v 0 = Err AssertErr.
Proof.
  exists (ex true), 12%nat, t_shapes, v_shapes. split; [apply ex_wf; exact I|]. split; [|split; [|split]].
  - intros c k Hk. do 14 (destruct c as [|c]; [injection Hk as <-; reflexivity|]). discriminate.
  - apply v_shapes_ty.
  - vm_compute. lia.
  - vm_compute. reflexivity.
Qed.
Print Assumptions C69_hierarchies_fail.

(** ** The object of tests/unit/test_traversal.cc:55-100 *)

(** struct TestObject2 { std::vector<float> vec1; } *)
Definition cTest2 : class := {|
  csize := 24; cvirt := false; cbyte := false; cparent := None;
  cfields := [TVector (TPrim 7 4)]; cser := fun _ => [0]%nat;
  ctag := None; crecon := None; cdefault := Some [[VVec 0 []]] |}.
(** struct TestObject { int a, b; std::vector<int> vec1; std::vector<double> vec2; TestObject2 obj2; } *)
Definition cTest : class := {|
  csize := 80; cvirt := false; cbyte := false; cparent := None;
  cfields := [OINT; OINT; TVector OINT; TVector DBL; TClass 0]; cser := fun _ => [0; 1; 2; 3; 4]%nat;
  ctag := None; crecon := None;
  cdefault := Some [[w4 29; w4 36; VVec 0 []; VVec 0 []; VObj 0 [[VVec 0 []]]]] |}.
Definition test_env (checking : bool) : env := {| asserts := true; movec := fun _ => true;
  cls := fun c => match c with O => Some cTest2 | S O => Some cTest | _ => None end;
  szof := szof (ex checking); tix := tix (ex checking); chk := checking;
  defc := fun _ => true; copyc := fun _ => true;
  less := less (ex checking); keq := keq (ex checking); hplace := hplace (ex checking);
  oreg := fun _ => [] |}.
Definition v_test : val := VObj 1 [[w4 29; w4 36;
  VVec 16 (map (fun i => w4 (N.of_nat i)) (seq 0 10));
  VVec 16 (map (fun i => w8 (N.of_nat (i * 29))) (seq 0 10));
  VObj 0 [[VVec 100 (repeat (w4 0) 100)]]]].

Lemma test_wf : forall b, wf_env any (test_env b).
Proof.
  intros b. pose proof (ex_wf b any I) as W.
  assert (V : forall t c, fresh any (test_env b) (TVector t) (VVec c []))
    by (intros; constructor; [exact I|now left|constructor]).
  assert (O : fresh any (test_env b) (TClass 0) (VObj 0 [[VVec 0 []]])).
  { eapply FrClass; [reflexivity|reflexivity|]. cbn. constructor; [|constructor]. eexists. split; [reflexivity|].
    cbn. constructor; [apply V|constructor]. }
  split.
  - intros c k p H Hp. destruct c as [|[|c]]; inversion H; subst; discriminate.
  - intros c k ls H Hl. destruct c as [|[|c]]; inversion H; subst; cbn in Hl;
      (destruct Hl as [Hl|[Hl|Hl]]; inversion Hl; subst; clear Hl);
      (constructor; [|constructor]); eexists; (split; [reflexivity|]); cbn [cfields cTest cTest2].
    + constructor; [apply V|constructor].
    + constructor; [now constructor|]. constructor; [now constructor|].
      constructor; [apply V|]. constructor; [apply V|]. constructor; [exact O|constructor].
  - apply (wf_tix any (ex b) W).
  - apply (wf_less any (ex b) W).
  - apply (wf_keq any (ex b) W).
  - apply (wf_hplace any (ex b) W).
  - intros. constructor.
  - exact I.
Qed.

Lemma test_ty : forall b, has_ty (test_env b) (TClass 1) v_test.
Proof.
  intros b.
  assert (V : forall id sz c l, len l <= c -> c < two64 -> Forall (fun v => exists x, v = VB x /\ length x = sz) l ->
    has_ty (test_env b) (TVector (TPrim id sz)) (VVec c l)).
  { intros id sz c l Hl Hc Hf. apply HtVector; [exact Hl|exact Hc|vm_compute; discriminate|discriminate|].
    eapply Forall_impl; [|exact Hf]. intros v (x & -> & Hx). now constructor. }
  assert (M : forall A (f : A -> val) sz l, (forall a, exists x, f a = VB x /\ length x = sz) ->
    Forall (fun v => exists x, v = VB x /\ length x = sz) (map f l)).
  { intros A f sz l Hf. apply Forall_forall. intros v Hv. apply in_map_iff in Hv.
    destruct Hv as (a & <- & _). apply Hf. }
  assert (W : forall k, k = cTest \/ k = cTest2 -> wf_class k).
  { intros k [->| ->]; (split; [reflexivity|reflexivity| |]); cbn.
    - repeat constructor; cbn; intuition discriminate.
    - intros i. split; [intros Hi; intuition lia|]. intros Hi.
      do 5 (destruct i as [|i]; [tauto|]). lia.
    - repeat constructor; cbn; intuition discriminate.
    - intros i. split; [intros Hi; intuition lia|]. intros Hi. destruct i; [tauto|lia]. }
  assert (O : has_ty (test_env b) (TClass 0) (VObj 0 [[VVec 100 (repeat (w4 0) 100)]])).
  { constructor; [discriminate|]. cbn [chain chain_n cls test_env cparent cTest2].
    constructor; [|constructor]. exists cTest2. repeat split; auto.
    all: try apply W; auto. constructor; [|constructor]. apply V; [vm_compute; discriminate|reflexivity|].
    apply Forall_forall. intros v Hv. apply repeat_spec in Hv. subst v. eexists. split; reflexivity. }
  constructor; [discriminate|]. cbn [chain chain_n cls test_env cparent cTest].
  constructor; [|constructor]. exists cTest. split; [reflexivity|]. split; [reflexivity|]. split; [apply W; auto|].
  cbn [cfields cTest].
  constructor; [now constructor|]. constructor; [now constructor|].
  constructor; [apply V; [vm_compute; discriminate|reflexivity|]; apply M; intros a; eexists; split; [reflexivity|apply le_length]|].
  constructor; [apply V; [vm_compute; discriminate|reflexivity|]; apply M; intros a; eexists; split; [reflexivity|apply le_length]|].
  constructor; [exact O|constructor].
Qed.

(** Both builds: the number of bytes that tests/unit/test_traversal.cc:154-169 expects. *)
Example C69_case : forall b, wf_env any (test_env b) /\ no_bytewise_virtual (test_env b) /\
  no_hierarchy (test_env b) /\ mode_none (test_env b) /\ has_ty (test_env b) (TClass 1) v_test /\
  (depth v_test < 12)%nat /\
  custom_traverse (test_env b) adds 12 (TClass 1) v_test 0 =
    Ok (v_test, 10 * 4 + 10 * 8 + 4 + 4 + 100 * 4 + 2 * 3 * 8) /\
  get_size (build (test_env b) false (tix (test_env b))) 12 (TClass 1) v_test = Ok (v_test, 588).
Proof.
  intros b. split; [apply test_wf|]. split; [|split; [|split; [|split; [|split; [|split]]]]].
  - intros c k Hk Hb. destruct c as [|[|c]]; inversion Hk; subst; discriminate.
  - intros c Hv. destruct c as [|[|c]]; discriminate.
  - intros c k Hk. destruct c as [|[|c]]; inversion Hk; subst; reflexivity.
  - apply test_ty.
  - vm_compute. lia.
  - destruct b; vm_compute; reflexivity.
  - destruct b; vm_compute; reflexivity.
Qed.

(** A serializer that throws at the first call with more than 100 bytes has seen what comes
    before it, in either build. *)
Definition wary (b : bytes) (l : list bytes) : res (list bytes) :=
  if 100 <? len b then Err RtErr else Ok (l ++ [b]).
Example C69_throws : forall b,
  custom_traverse (test_env b) wary 12 (TClass 1) v_test [] = Err RtErr /\
  (exists l, custom_traverse (test_env b) wary 12 (TVector OINT) (VVec 3 [w4 1; w4 2]) [] = Ok (VVec 3 [w4 1; w4 2], l) /\
   l = [le 8 3; le 8 2; le 4 1 ++ le 4 2]).
Proof. intros b. destruct b; (split; [vm_compute; reflexivity|]); (eexists; split; [vm_compute; reflexivity|reflexivity]). Qed.
