(** C05 on streams of any type. *)
From Coq Require Import List NArith Arith Bool Lia.
From Coq.Strings Require Import Byte.
From Verif Require Import Base Syntax Prog Serializers Traverse Spec ProgFacts EnvFacts Closure Api
  ApiFacts Registry RegistryFacts Examples Streams Conc ConcFacts PropMemory PropVirtual PropConc PropLaws.
Import ListNotations.

(** ** The registries without a link *)

Lemma unlisted_bind : forall E A B (p : prog A) (f : A -> prog B),
  peq (unlisted E (bind p f)) (bind (unlisted E p) (fun a => unlisted E (f a))).
Proof.
  intros E A B p f H. induction p; intros vf s; cbn [bind unlisted interp]; auto.
  - destruct (contig H b s) as [[b' s']|]; auto.
  - destruct e; cbn [interp bind]; auto. destruct (derived E c); cbn [interp bind]; auto.
Qed.

Section Unlinked.
Variable E : env.
Variable F : N -> Prop.
Hypothesis wf : wf_env F E.
Variable o : oregs.
Variable ss : list nat.
Variable s : nat.
Variable rec : ty -> list val -> prog (list val).
Local Notation rec' := (fun t vs => unlisted E (rec t vs)).
Local Notation body := (fun v c => Note (EvRegistry c) (SetV true (ser rec (TClass c) v))).

Lemma unlisted_ser : forall t v, peq (unlisted E (ser rec t v)) (ser rec' t v).
Proof.
  intros t v H vf st. unfold ser. rewrite unlisted_bind, !interp_bind.
  destruct (interp H (unlisted E (rec t [v])) vf st) as [[[l vf'] st']|]; auto.
  destruct l as [|x [|]]; reflexivity.
Qed.

Lemma not_found : forall r c i, sinv (root E) r -> sr_idx r c s = None ->
  sr_idx r (root E c) s = Some i -> get_base_idx (asserts E) r c i = Err (missing E).
Proof.
  intros r c i Hi Hc Hr. unfold get_base_idx.
  destruct (find_base i (sr_reg r c)) as [e|] eqn:Ef; [exfalso|reflexivity].
  assert (G : exists k, nth_error (sr_reg r c) k = Some e /\ se_base e = Some i).
  { clear -Ef. induction (sr_reg r c) as [|x l IH]; cbn in Ef; [discriminate|].
    destruct (se_base x) as [j|] eqn:Ex; [destruct (Nat.eqb_spec j i) as [->|]|].
    - inversion Ef; subst. exists 0%nat. auto.
    - destruct (IH Ef) as (k & Hk). exists (S k). exact Hk.
    - destruct (IH Ef) as (k & Hk). exists (S k). exact Hk. }
  destruct G as (k & Hk & Hb).
  destruct (si_base _ _ Hi _ _ _ _ Hk Hb) as (s' & Hf & Hs').
  destruct (si_fun _ _ Hi _ _ _ Hk) as (s'' & Hf' & Hs'').
  rewrite Hf in Hf'. inversion Hf'; subst s''.
  destruct (si_idx _ _ Hi _ _ _ Hs') as (y & Hy & Hyf).
  destruct (si_idx _ _ Hi _ _ _ Hr) as (z & Hz & Hzf).
  rewrite Hy in Hz. inversion Hz; subst z. rewrite Hyf in Hzf. inversion Hzf; subst s'. congruence.
Qed.

Lemma unlisted_fold_app : forall l1 l2 v, peq (unlisted E (foldP body (l1 ++ l2) v))
  (bind (unlisted E (foldP body l1 v)) (fun v' => unlisted E (foldP body l2 v'))).
Proof.
  induction l1 as [|x l1 IH]; intros l2 v H vf st; [reflexivity|].
  cbn [app foldP]. rewrite interp_bind, unlisted_bind, interp_bind.
  rewrite unlisted_bind, (interp_bind H _ _ (unlisted E (body v x))).
  destruct (interp H (unlisted E (body v x)) vf st) as [[[a vf'] st']|]; auto.
  now rewrite IH, interp_bind.
Qed.

Lemma unlinked_dyn : forall n c, (c < n)%nat -> forall ex v r i,
  (exists k, cls E c = Some k) -> sinv (root E) r ->
  (forall c', In c' (chain E c) -> derived E c' = true -> sr_idx r c' s = None) ->
  sr_idx r (root E c) s = Some i ->
  (ex = None \/ exists j, ex = Some j /\ or_idx o c = Some j) ->
  (forall c', In c' (chain E c) -> or_idx o c' <> None) ->
  exists r', sinv (root E) r' /\ sr_idx r' = sr_idx r /\
   peq (dyn_ser E o ss s rec' n c i ex v r)
     (bind (unlisted E (foldP body (chain E c) v)) (fun v' => Ret (v', r'))).
Proof.
  induction n as [|n IH]; intros c Hcn ex v r i (k & Hk) Hinv Hreg Hi Hex Hobj; [lia|].
  cbn [dyn_ser]. rewrite Hk.
  set (r1 := link_all (root E) ss r c).
  assert (Hinv1 : sinv (root E) r1) by (now apply link_all_inv).
  assert (Hidx1 : sr_idx r1 = sr_idx r) by apply link_all_idx.
  assert (Hass : peq (assert_idx E o c ex) (Ret tt)).
  { unfold assert_idx. destruct Hex as [->|(j & -> & Hj)]; [apply peq_refl|].
    rewrite Hj, Nat.eqb_refl. apply peq_refl. }
  pose proof (chain_eq _ _ wf c) as Hch. rewrite Hk in Hch.
  destruct (cparent k) as [p|] eqn:Hp.
  - destruct (wf_parent _ _ wf c k p Hk Hp) as (Hpc & _ & kp & Hkp & _).
    assert (Hroot : root E p = root E c).
    { apply (root_in_chain _ _ wf). rewrite Hch. apply in_or_app. left.
      apply (chain_self _ _ wf). eapply chain_nonempty; eauto. }
    destruct (IH p) with (ex := or_idx o p) (v := v) (r := r1) (i := i)
      as (r2 & Hinv2 & Hidx2 & Hpeq); auto.
    + lia.
    + eauto.
    + intros c' Hin. rewrite Hidx1. apply Hreg. rewrite Hch. apply in_or_app. now left.
    + now rewrite Hidx1, Hroot.
    + destruct (or_idx o p) as [j|] eqn:Ej; [right; exists j; auto|now left].
    + intros c' Hin. apply Hobj. rewrite Hch. apply in_or_app. now left.
    + exists r2. split; [exact Hinv2|]. split; [congruence|].
      assert (Hd : derived E c = true) by (unfold derived; now rewrite Hk, Hp).
      assert (Hget : get_base_idx (asserts E) r2 c i = Err (missing E)).
      { apply not_found; auto; rewrite Hidx2, Hidx1; auto.
        apply Hreg; auto. rewrite Hch. apply in_or_app. right. now left. }
      intros H vf st. rewrite !interp_bind, Hass. cbn [interp].
      rewrite interp_bind, Hpeq, interp_bind, Hch, unlisted_fold_app, interp_bind.
      destruct (interp H (unlisted E (foldP body (chain E p) v)) vf st) as [[[v1 vf1] st1]|]; auto.
      cbn [interp]. rewrite Hget. cbn [dispatcher bind interp foldP unlisted]. rewrite Hd. reflexivity.
  - rewrite Hch. exists r1. split; [exact Hinv1|]. split; [exact Hidx1|].
    assert (Hroot : root E c = c) by (unfold root; now rewrite Hch).
    assert (Hd : derived E c = false) by (unfold derived; now rewrite Hk, Hp).
    assert (Hget : get_obj_idx (asserts E) r1 c i = Ok (c, s)).
    { eapply (get_obj_ok _ (root E)); eauto. rewrite Hidx1. now rewrite <- Hroot at 1. }
    intros H vf st. rewrite !interp_bind, Hass. cbn [interp].
    rewrite interp_bind, Hget. cbn [dispatcher]. rewrite Nat.eqb_refl.
    cbn [foldP bind unlisted interp]. rewrite Hd. cbn [bind unlisted interp].
    rewrite unlisted_bind, interp_bind, unlisted_ser.
    destruct (interp H (ser rec' (TClass c) v) true (note H (EvRegistry c) st)) as [[[v2 vf2] st2]|]; auto.
Qed.
End Unlinked.

(** What [Streams.unlisted] does at a polymorphic object is what the registries do with a
    serializer that no derived class is registered for. *)
Theorem unlinked_dispatch : forall E o ss s rec d ls r i, wf_env any E ->
  is_virtual E (TClass d) = true -> sinv (root E) r ->
  (forall c, In c (chain E d) -> derived E c = true -> sr_idx r c s = None) ->
  sr_idx r (root E d) s = Some i ->
  (forall c, In c (chain E d) -> or_idx o c <> None) ->
  exists r', peq
    (virtual_serialize E o ss s (fun t vs => unlisted E (rec t vs)) (VObj d ls) r)
    (bind (unlisted E (dyn_serialize E rec (VObj d ls))) (fun v => Ret (v, r'))).
Proof.
  intros E o ss s rec d ls r i wf Hv Hinv Hreg Hi Hobj.
  assert (Hk : exists k, cls E d = Some k).
  { cbn [is_virtual] in Hv. destruct (cls E d) as [k|]; [eauto|discriminate]. }
  destruct (unlinked_dyn E any wf o ss s rec (S d) d (Nat.lt_succ_diag_r d) None (VObj d ls) r i
    Hk Hinv Hreg Hi (or_introl eq_refl) Hobj) as (r' & _ & _ & Hp).
  exists r'. cbn [virtual_serialize]. rewrite Hi. unfold dyn_serialize. rewrite Hv. exact Hp.
Qed.
Print Assumptions unlinked_dispatch.

(** ** Which calls fail *)

(** The event is the dispatch of a derived class. *)
Definition derived_event (E : env) (e : event) : bool :=
  match e with EvRegistry c => derived E c | _ => false end.

Lemma interp_unlisted : forall E H A (p : prog A) vf s,
  interp H (unlisted E p) vf s =
  if existsb (derived_event E) (trace H A p vf s) then Err (missing E) else interp H p vf s.
Proof.
  intros E H A p. induction p; intros vf s; cbn [unlisted interp trace existsb]; auto.
  - destruct (contig H b s) as [[b' s']|]; [auto|reflexivity].
  - destruct e; cbn [interp derived_event orb]; auto. destruct (derived E c); cbn [interp orb]; auto.
Qed.

(** [p] dispatches polymorphic classes only, and leaves the flag as the closure wants it. *)
Definition tame (E : env) (b b' : bool) (A : Type) (p : prog A) : Prop :=
  forall H, honest H -> forall s,
  (forall c, In (EvRegistry c) (trace H A p b s) -> is_virtual E (TClass c) = true) /\
  (forall a vf s', interp H p b s = Ok (a, vf, s') -> vf = b').

Lemma trace_bind : forall H A B (p : prog A) (f : A -> prog B) vf s,
  trace H B (bind p f) vf s =
  trace H A p vf s ++
  match interp H p vf s with Ok (a, vf', s') => trace H B (f a) vf' s' | Err _ => [] end.
Proof.
  intros H A B p f. induction p; intros vf s; cbn [bind trace interp app]; auto.
  - destruct (contig H b s) as [[b' s']|]; auto.
  - now rewrite IHp.
Qed.
Lemma trace_catch : forall H A t (p : prog A) vf s, trace H A (catch t p) vf s = trace H A p vf s.
Proof.
  intros H A t p. induction p; intros vf s; cbn [catch trace]; auto.
  - destruct (contig H b s) as [[b' s']|]; auto.
  - now rewrite IHp.
Qed.

Lemma tame_root : forall E m f t v, wf_env any E -> no_bytewise_virtual E ->
  tame E false false _ (with_root E m f t v).
Proof.
  intros E m f t v wf nobv.
  apply (g_with_root (tame E)); auto; try exact (chain_v any E wf); unfold tame; clear.
  - intros b A a H Hh s. split; [intros c []|]. intros a' vf s' Hi. now inversion Hi.
  - intros b b' A e _ H Hh s. split; [intros c []|]. intros a' vf s' Hi. discriminate.
  - intros b b' b'' A B p f Hp Hf H Hh s. destruct (Hp H Hh s) as (T1 & I1). split.
    + intros c Hc. rewrite trace_bind in Hc. apply in_app_or in Hc. destruct Hc as [Hc|Hc]; auto.
      destruct (interp H p b s) as [[[a vf] s']|] eqn:Ei; [|contradiction].
      rewrite (I1 _ _ _ eq_refl) in Hc. now apply (Hf a H Hh s').
    + intros a vf s' Hi. rewrite interp_bind in Hi.
      destruct (interp H p b s) as [[[a0 vf0] s0]|] eqn:Ei; [|discriminate].
      rewrite (I1 _ _ _ eq_refl) in Hi. now apply (Hf a0 H Hh s0) in Hi.
  - intros b b' A x k Hk H Hh s. cbn [trace interp]. destruct (contig H x s) as [[y s']|] eqn:Ec.
    + apply Hk; auto. eapply Hh; eauto.
    + split; [intros c []|]. intros a' vf s' Hi. discriminate.
  - intros b b' A n k Hk H Hh s. now apply Hk.
  - intros b b' A t p Hp H Hh s. destruct (Hp H Hh s) as (T1 & I1). split.
    + intros c Hc. rewrite trace_catch in Hc. auto.
    + intros a vf s' Hi.
      assert (G : forall (q : prog A) vf0 s0, interp H (catch t q) vf0 s0 = Ok (a, vf, s') ->
                interp H q vf0 s0 = Ok (a, vf, s')).
      { induction q; intros vf0 s0 Hq; cbn [catch interp] in *; eauto; [|destruct e; discriminate].
        destruct (contig H b0 s0) as [[? ?]|]; eauto. }
      eapply I1. apply G. exact Hi.
  - intros b b' A t k Hk H Hh s. cbn [trace interp]. destruct (Hk H Hh (note H (EvConstruct t) s)) as (T1 & I1).
    split; [|exact I1]. intros c [Hc|Hc]; [discriminate|auto].
  - intros b b' A t v k Hk H Hh s. cbn [trace interp]. destruct (Hk H Hh (note H (EvAbandon t v) s)) as (T1 & I1).
    split; [|exact I1]. intros c [Hc|Hc]; [discriminate|auto].
  - intros b b' A t k Hk H Hh s. cbn [trace interp]. destruct (Hk H Hh (note H (EvFirst t) s)) as (T1 & I1).
    split; [|exact I1]. intros c [Hc|Hc]; [discriminate|auto].
  - intros b b' A l e H Hh s. cbn [trace interp]. split; [intros c []|discriminate].
  - intros c A B p g Hp H Hh s. cbn [trace interp].
    destruct (Hp H Hh (note H (EvSerialize c) s)) as (T1 & I1). split.
    + intros c' [Hc|Hc]; [discriminate|]. rewrite trace_bind in Hc. apply in_app_or in Hc.
      destruct Hc as [Hc|Hc]; auto. destruct (interp _ _ _ _) as [[[a vf] s']|]; [|contradiction].
      cbn [trace] in Hc. destruct Hc as [Hc|[]]. discriminate.
    + intros a vf s' Hi. rewrite interp_bind in Hi.
      destruct (interp _ _ _ _) as [[[a0 vf0] s0]|] eqn:Ei; [|discriminate].
      cbn [interp] in Hi. inversion Hi; subst. eapply I1; eauto.
  - intros b b' A c k Hv Hk H Hh s. cbn [trace interp]. destruct (Hk H Hh (note H (EvRegistry c) s)) as (T1 & I1).
    split; [|exact I1]. intros c' [Hc|Hc]; [inversion Hc; now subst|auto].
Qed.

(** No class of the program both is polymorphic and has a polymorphic base. *)
Definition no_hierarchy (E : env) : Prop :=
  forall c, is_virtual E (TClass c) = true -> derived E c = false.

Lemma via_same : forall E b H m f t v s, wf_env any E -> no_bytewise_virtual E -> no_hierarchy E ->
  honest H -> interp H (via E b (with_root E m f t v)) false s = interp H (with_root E m f t v) false s.
Proof.
  intros E b H m f t v s wf nobv nh Hh. unfold via. destruct b; auto. rewrite interp_unlisted.
  replace (existsb _ _) with false; auto. symmetry. apply not_true_iff_false. intros Ht.
  apply existsb_exists in Ht. destruct Ht as (e & He & Hd). destruct e; try discriminate.
  apply (tame_root E m f t v wf nobv H Hh s) in He. apply nh in He. cbn [derived_event] in Hd. congruence.
Qed.

(** ** C05 *)

(** An std::ostream and an std::istream: the calls of Api.v. *)
Lemma listed_same : forall E f t v o i, to_stream E true f t v o = serialize_to_stream E f t v o /\
  from_stream E true f t i = deserialize_from_stream E f t i.
Proof. auto. Qed.

(** Full statement: the conclusion for all programs.  It is false, see [C05_refuted]; for
    std::ostream and std::istream it is [C05_stream_sequences].  For streams of any type
    it holds of programs without polymorphic class hierarchies. *)
Theorem C05_any_stream_partial : forall E lo li f (l : list (ty * val)) after,
  wf_env any E -> no_bytewise_virtual E -> no_hierarchy E ->
  Forall (fun p => has_ty E (fst p) (snd p) /\ constructible E (fst p) /\ (depth (snd p) < f)%nat) l ->
  exists o vs i,
    to_stream_all E lo f l (out_stream []) = Ok o /\ o_bad o = false /\
    from_stream_all E li f (map fst l) (in_stream (o_data o ++ after)) = Ok (vs, i) /\
    Forall2 (fun p v' => same (snd p) v') l vs /\ i_data i = after.
Proof.
  intros E lo li f l after wf nobv nh Hl.
  destruct (C05_stream_sequences E f l after wf Hl) as (o & vs & i & Hw & Hb & Hr & H2 & Ha).
  exists o, vs, i. split; [|split; [exact Hb|split; [|auto]]].
  - rewrite <- Hw. generalize (out_stream []). clear Hw Hr H2 Hl. induction l as [|[t v] l IH]; intros q; auto.
    cbn [to_stream_all write_all].
    replace (to_stream E lo f t v q) with (serialize_to_stream E f t v q).
    + destruct (serialize_to_stream E f t v q) as [[? ?]|]; auto.
    + unfold to_stream, serialize_to_stream. destruct (get_size E f t v) as [[v1 n]|]; auto.
      rewrite via_same; auto. apply honest_all.
  - rewrite <- Hr. generalize (in_stream (o_data o ++ after)). generalize (map fst l). clear Hw Hr H2 Hl.
    induction l0 as [|t ts IH]; intros q; auto.
    cbn [from_stream_all read_all].
    replace (from_stream E li f t q) with (deserialize_from_stream E f t q).
    + destruct (deserialize_from_stream E f t q) as [[v q']|]; auto. now rewrite IH.
    + unfold from_stream, deserialize_from_stream. destruct (recon E t) as [x|]; auto.
      unfold in_place_from_stream, deserialize_in_place_from_stream. rewrite via_same; auto. apply honest_all.
Qed.
Print Assumptions C05_any_stream_partial.

(** In all programs: a call on a stream of another type does what it does on an
    std::ostream or std::istream, unless it comes to an object of a class derived from a
    polymorphic class; then it fails an assertion, or calls an empty function. *)
Theorem C05_other_streams : forall E f t v o i x,
  (forall v1 n, get_size E f t v = Ok (v1, n) ->
   to_stream E false f t v o =
   if existsb (derived_event E) (trace stream_packer _ (with_root E MPacking f t v1) false o)
   then Err (if asserts E then AssertErr else CallErr) else serialize_to_stream E f t v o) /\
  in_place_from_stream E false f t i x =
  (if existsb (derived_event E) (trace stream_unpacker _ (with_root E MUnpacking f t x) false i)
   then Err (if asserts E then AssertErr else CallErr)
   else deserialize_in_place_from_stream E f t i x).
Proof.
  intros E f t v o i x. split.
  - intros v1 n Hs. unfold to_stream, serialize_to_stream. rewrite Hs. cbn [via].
    rewrite interp_unlisted. destruct (existsb _ _); reflexivity.
  - unfold in_place_from_stream, deserialize_in_place_from_stream. cbn [via].
    rewrite interp_unlisted. destruct (existsb _ _); reflexivity.
Qed.
Print Assumptions C05_other_streams.

(** A vector of pointers to polymorphic objects cannot be written to an std::ofstream. *)
Theorem C05_refuted : exists E l, wf_env any E /\
  Forall (fun p => has_ty E (fst p) (snd p) /\ constructible E (fst p) /\ (depth (snd p) < 12)%nat) l /\
  (exists o, to_stream_all E true 12 l (out_stream []) = Ok o) /\
  to_stream_all E false 12 l (out_stream []) = Err AssertErr.
Proof.
  exists (ex true), [(t_shapes, v_shapes)]. split; [apply ex_wf; exact I|]. split; [|split].
  - constructor; [|constructor]. cbn [fst snd]. split; [apply v_shapes_ty|]. split; [discriminate|].
    vm_compute. lia.
  - eexists. vm_compute. reflexivity.
  - vm_compute. reflexivity.
Qed.
Print Assumptions C05_refuted.

(** The hypotheses of [C05_any_stream_partial] are met, and so are those of
    [unlinked_dispatch]: classes Shape, Circle and Ring with serializer 9, which is not one
    of [all_serializers]. *)
Example C05_any_case : forall b, wf_env any (eager_env b) /\ no_bytewise_virtual (eager_env b) /\
  no_hierarchy (eager_env b) /\
  exists o vs i, to_stream_all (eager_env b) false 12 [(TClass 0, v_eager); (TVector (TClass 0), VVec 2 [v_eager])]
      (out_stream []) = Ok o /\ o_bad o = false /\
    from_stream_all (eager_env b) false 12 [TClass 0; TVector (TClass 0)] (in_stream (o_data o ++ [x01]))
      = Ok (vs, i) /\ i_data i = [x01].
Proof.
  intros b. split; [apply eager_wf|]. split; [|split].
  - intros c k Hk Hb. destruct c; inversion Hk; subst. discriminate.
  - intros c Hv. destruct c; discriminate.
  - destruct b; do 3 eexists; (split; [vm_compute; reflexivity|]); (split; [reflexivity|]);
      (split; vm_compute; reflexivity).
Qed.
Example unlinked_case : forall b,
  let r := run_sops (root (ex b)) (ex_init ++ [SReg 1 9; SLink 1 3; SLink 6 3]) in
  is_virtual (ex b) (TClass 3) = true /\ chain (ex b) 3 = [1; 2; 3]%nat /\ sinv (root (ex b)) r /\
  (forall c, In c (chain (ex b) 3) -> derived (ex b) c = true -> sr_idx r c 9 = None) /\
  sr_idx r (root (ex b) 3) 9 <> None.
Proof.
  intros b. cbv zeta. split; [destruct b; reflexivity|]. split; [destruct b; reflexivity|]. split; [|split].
  - apply run_inv. unfold regs_of. rewrite flat_map_app. fold (regs_of ex_init). cbn [flat_map app].
    pose proof (NoDup_rev ex_init_once) as Hn. rewrite <- (rev_involutive (_ ++ _)). apply NoDup_rev.
    rewrite rev_app_distr. cbn [rev app]. constructor; auto. intros Hin. apply in_rev in Hin.
    vm_compute in Hin. repeat (destruct Hin as [Hin|Hin]; [discriminate|]). exact Hin.
  - intros c Hc Hd. destruct b; vm_compute in Hc; destruct Hc as [<-|[<-|[<-|[]]]];
      vm_compute; vm_compute in Hd; congruence.
  - destruct b; vm_compute; discriminate.
Qed.
