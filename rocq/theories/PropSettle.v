(** Properties C20 and C35: what repeated restores do when constructors reserve
    capacity. *)
From Coq Require Import List NArith Arith Bool Lia.
From Coq.Strings Require Import Byte.
From Verif Require Import Base Syntax Prog Serializers Traverse Spec ProgFacts EnvFacts ValFacts
  Pack Unpack Api ApiFacts ApiInv Examples Stable PropMemory PropLaws Land LandFacts SettleFacts.
Import ListNotations.
Local Open Scope N_scope.

(** Constructors reserve a capacity that fits into a 64-bit word. *)
Definition word_cap (c : N) : Prop := c < two64.

Lemma word_any : forall E, wf_env word_cap E -> wf_env any E.
Proof. intros E. apply wf_env_mono. intros; exact I. Qed.

(** Capacities only grow, and stay below 2^64. *)
Definition grown (c c' : N) : Prop := c <= c' /\ (c < two64 -> c' < two64).

(** Reading the bytes of [v] into [w]. *)
Lemma onto_land : forall E f t v w, wf_env any E -> has_ty E t v -> no_bags v ->
  target Cno E t v w -> (depth v < f)%nat -> len (enc_root E t v) < two64 ->
  exists x, land E t v w = Some x /\ round_trip_onto E f t v w x.
Proof.
  intros E f t v w wf Ht Hn HT Hd Hl.
  destruct (land_root E wf f t v w Ht Hn HT Hd) as (x & Hx & Hr).
  exists x. split; auto.
  eexists. exists (len (enc_root E t v)).
  split; [apply serialize_managed; auto|]. cbn [s_bytes].
  unfold deserialize_in_place, unpack_memory.
  pose proof (reads_unpacker _ _ _ _ _ _ Hr [] [] 0) as H.
  change (wrap64 0) with 0 in H. cbn [app length] in H. rewrite app_nil_r in H.
  rewrite H. cbn [u_cur]. do 2 f_equal. unfold len. f_equal. lia.
Qed.

Lemma trip_onto : forall E f t v o x, recon E t = Some o ->
  round_trip_onto E f t v o x -> round_trip E f t v x.
Proof.
  intros E f t v o x Hr (s & n & Hs & Hd). exists s, n. split; auto.
  unfold deserialize, deserialize_in_place in *. now rewrite Hr.
Qed.

(** The first restart may enlarge capacities; every later one reproduces the
    object, capacities included, so the bytes never change again.  Their number
    does not even change the first time. *)
Theorem C35_settles : forall E f t v,
  wf_env word_cap E -> has_ty E t v -> constructible E t -> no_bags v ->
  (depth v < f)%nat -> len (enc_root E t v) < two64 ->
  exists x s0 s1,
    serialize E f t v None = Ok s0 /\ serialize E f t x None = Ok s1 /\
    copy_of v x /\ s_size s1 = s_size s0 /\
    forall n, restarts E f t (S n) v x /\ forall w, restarts E f t (S n) v w -> w = x.
Proof.
  intros E f t v wf Ht Hc Hb Hd Hl.
  pose proof (word_any E wf) as wfa. unfold constructible in Hc.
  destruct (recon E t) as [o|] eqn:Er; [|congruence].
  set (Cw := fun c w : N => w < two64).
  assert (HFC : forall c w, word_cap w -> Cw c w) by (unfold word_cap, Cw; auto).
  assert (HCR : forall c w, Cw c w -> grown c (N.max w c)) by (unfold Cw, grown; intros; lia).
  assert (HTw : target Cw E t v o) by (eapply (recon_tgt word_cap E wf Cw HFC); eauto).
  destruct (unpack_root word_cap E wf Cw grown HFC HCR f t v o Ht HTw Hd) as (x' & Hsim & Hr').
  assert (HT : forall u, has_ty E t u -> target Cno E t u o)
    by (intros; eapply (recon_tgt any E wfa Cno Cno_any); eauto).
  destruct (land_root E wfa f t v o Ht Hb (HT v Ht) Hd) as (x & Hx & Hr).
  assert (x' = x).
  { pose proof (reads_unpacker _ _ _ _ _ _ Hr [] [] 0) as H1.
    pose proof (reads_unpacker _ _ _ _ _ _ Hr' [] [] 0) as H2.
    rewrite H1 in H2. now inversion H2. }
  subst x'. clear Hr Hr'.
  assert (HG : forall a b, grown a b -> a <= b /\ (a < two64 -> b < two64)) by (unfold grown; auto).
  assert (Hbx : no_bags x) by (eapply no_bags_sim; eauto).
  assert (Htx : has_ty E t x) by (eapply (has_ty_grown word_cap E grown); eauto).
  assert (Hdx : (depth x < f)%nat) by (rewrite <- (depth_sim grown v x); auto).
  pose proof (enc_root_len_sim E grown v x t Hsim Hb) as Hlen.
  assert (Hlx : len (enc_root E t x) < two64) by (rewrite <- Hlen; auto).
  destruct (onto_land E f t v o wfa Ht Hb (HT v Ht) Hd Hl) as (x1 & Hx1 & Hrt).
  assert (x1 = x) by congruence. subst x1.
  destruct (onto_land E f t x o wfa Htx Hbx (HT x Htx) Hdx Hlx) as (x2 & Hx2 & Hrt2).
  rewrite (land_again E v t o x Hx) in Hx2. inversion Hx2; subst x2.
  apply (trip_onto E f t v o x Er) in Hrt. apply (trip_onto E f t x o x Er) in Hrt2.
  exists x. eexists. eexists.
  split; [apply serialize_managed; auto|]. split; [apply serialize_managed; auto|].
  cbn [s_size]. split; [|split; [auto|]].
  { eapply sim_mono; [|exact Hsim]. unfold grown. tauto. }
  assert (Hstay : forall n, restarts E f t n x x /\ forall w, restarts E f t n x w -> w = x).
  { induction n as [|n (IH1 & IH2)].
    - split; [constructor|]. intros w Hw. now inversion Hw.
    - split; [econstructor; eauto|]. intros w Hw. inversion Hw as [|? ? v1 ? Hv1 Hw1]; subst.
      rewrite (round_trip_fun E f t x v1 x Hv1 Hrt2) in Hw1. auto. }
  intros n. destruct (Hstay n) as (H1 & H2). split; [econstructor; eauto|].
  intros w Hw. inversion Hw as [|? ? v1 ? Hv1 Hw1]; subst.
  rewrite (round_trip_fun E f t v v1 x Hv1 Hrt) in Hw1. auto.
Qed.
Print Assumptions C35_settles.

Lemma eager_word : forall b, wf_env word_cap (eager_env b).
Proof.
  intros b. pose proof (ex_wf b word_cap ltac:(unfold word_cap; reflexivity)) as W. split.
  - intros c k p H Hp. destruct c; inversion H; subst; discriminate.
  - intros c k ls H Hl. destruct c; inversion H; subst. cbn in Hl.
    destruct Hl as [Hl|[Hl|Hl]]; inversion Hl; subst.
    cbn. constructor; [|constructor]. eexists. split; [reflexivity|].
    cbn. constructor; [|constructor]. constructor; [reflexivity|now left|constructor].
  - apply (wf_tix word_cap (ex b) W).
  - apply (wf_less word_cap (ex b) W).
  - apply (wf_keq word_cap (ex b) W).
  - apply (wf_hplace word_cap (ex b) W).
  - intros. constructor.
  - reflexivity.
Qed.

(** The object of [C35_refuted], whose first restart does change the bytes. *)
Example C35_settles_case : forall b, exists x s0 s1,
  serialize (eager_env b) 12 (TClass 0) v_eager None = Ok s0 /\
  serialize (eager_env b) 12 (TClass 0) x None = Ok s1 /\
  copy_of v_eager x /\ s_size s1 = s_size s0 /\
  forall n, restarts (eager_env b) 12 (TClass 0) (S n) v_eager x /\
    forall w, restarts (eager_env b) 12 (TClass 0) (S n) v_eager w -> w = x.
Proof.
  intros b. apply C35_settles.
  - apply eager_word.
  - ht.
  - destruct b; vm_compute; discriminate.
  - vm_compute. tauto.
  - vm_compute. lia.
  - destruct b; vm_compute; reflexivity.
Qed.

(** ** C20 *)

(** Restoring a checkpoint into an object twice is the same as restoring it
    once: the second time nothing changes, capacities included.  [x] has to be a
    suitable target again, that is, it holds no queue, map, set or container of
    move-only elements that is not empty (for those see [C20_queue_appends] and
    the other laws). *)
Theorem C20_twice : forall E f t v w x,
  wf_env any E -> has_ty E t v -> no_bags v -> target (fun _ _ => True) E t v w ->
  (depth v < f)%nat -> len (enc_root E t v) < two64 ->
  round_trip_onto E f t v w x -> target (fun _ _ => True) E t v x ->
  round_trip_onto E f t v x x.
Proof.
  intros E f t v w x wf Ht Hb HT Hd Hl Hrt HTx.
  destruct (onto_land E f t v w wf Ht Hb HT Hd Hl) as (x1 & Hx1 & (s & n & Hs & Hr)).
  assert (x1 = x).
  { destruct Hrt as (s' & n' & Hs' & Hr'). rewrite Hs in Hs'. inversion Hs'; subst.
    rewrite Hr in Hr'. now inversion Hr'. }
  subst x1.
  destruct (onto_land E f t v x wf Ht Hb HTx Hd Hl) as (x2 & Hx2 & Hrt2).
  rewrite (land_twice E v t w x Hx1) in Hx2. inversion Hx2; subst x2. exact Hrt2.
Qed.
Print Assumptions C20_twice.

(** The object of [C20_case]: what it holds after one restore ... *)
Definition x_node : val :=
  VObj 0 [[w8 77; VVec 9 [VStr 40 [x61; x62]; s_long];
           VOpt (Some (VObj 0 [[w8 78; VVec 2 []; VOpt None]]))]].

Ltac node_target :=
  apply TgClass; [reflexivity|]; cbn; constructor; [|constructor];
  eexists; split; [reflexivity|]; split; [reflexivity|]; cbn;
  constructor; [now constructor|]; constructor;
  [constructor; [exact I|left; reflexivity|cbn; repeat constructor]|].

(** ... is what it holds after the second one. *)
Example C20_twice_case : forall b,
  round_trip_onto (ex b) 12 (TClass 0) v_node w_node x_node /\
  round_trip_onto (ex b) 12 (TClass 0) v_node x_node x_node.
Proof.
  intros b.
  assert (H : round_trip_onto (ex b) 12 (TClass 0) v_node w_node x_node).
  { destruct b; eexists; eexists; (split; [vm_compute; reflexivity|vm_compute; reflexivity]). }
  split; [exact H|]. apply C20_twice with (w := w_node).
  - apply ex_wf. exact I.
  - apply v_node_ty.
  - vm_compute. tauto.
  - node_target. constructor; [|constructor]. apply TgUnique; [reflexivity|].
    node_target. constructor; [|constructor]. apply TgReset.
  - vm_compute. lia.
  - destruct b; vm_compute; reflexivity.
  - exact H.
  - node_target. constructor; [|constructor]. apply TgUnique; [reflexivity|].
    node_target. constructor; [|constructor]. apply TgReset.
Qed.
