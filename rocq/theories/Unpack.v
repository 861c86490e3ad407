(** Unpacking the wire format of a value into a suitable target consumes exactly
    that wire format and produces an observable copy of the value. *)
From Coq Require Import List NArith Arith Bool Lia Permutation.
From Verif Require Import Base Syntax Prog Serializers Traverse Spec ProgFacts EnvFacts
  ValFacts Pack.
Import ListNotations.
Local Open Scope N_scope.

(** ** Temporaries that are moved from *)
Lemma reads_leave : forall E t x A (k : prog A) vf i a vf', reads k vf i a vf' ->
  reads (leave E t x k) vf i a vf'.
Proof. intros. unfold leave. destruct (movec E t); auto using reads_note. Qed.
Lemma reads_leave_elem : forall E c t x A (k : prog A) vf i a vf', reads k vf i a vf' ->
  reads (leave_elem E c t x k) vf i a vf'.
Proof.
  intros * H. pose proof (fun t x => reads_leave E t x A k vf i a vf' H) as Hl. unfold leave_elem.
  destruct c as [mu [|]|mu [|]]; try apply Hl; destruct t; try apply Hl; destruct x; try apply Hl;
    destruct l as [|ke [|ve [|]]]; try apply Hl; apply reads_note, Hl.
Qed.

(** ** Lists *)
Lemma resize_pairwise : forall A B (P : A -> B -> Prop) vs ws d,
  pairwise P vs ws -> (forall v, In v vs -> P v d) ->
  Forall2 P vs (resize (length vs) d ws).
Proof.
  intros A B P vs ws d H. induction H; intros Hd; unfold resize.
  - cbn. constructor.
  - rewrite firstn_nil. cbn [app]. rewrite Nat.sub_0_r.
    induction l; cbn; constructor; [apply Hd; now left | apply IHl; intros; apply Hd; now right].
  - cbn [length firstn Nat.sub app]. constructor; auto. apply IHpairwise.
    intros; apply Hd; now right.
Qed.

Lemma pairwise_of_forall : forall A B (P : A -> B -> Prop) vs ws,
  (forall v w, In v vs -> In w ws -> P v w) -> pairwise P vs ws.
Proof.
  induction vs; intros [|w ws] H; constructor.
  - apply H; now left.
  - apply IHvs. intros; apply H; now right.
Qed.

Lemma Forall2_combine3 : forall A B C (P : A -> B -> C -> Prop) ts vs ws,
  Forall2 (fun t p => P t (fst p) (snd p)) ts (combine vs ws) -> length vs = length ws ->
  forall i t v w, nth_error ts i = Some t -> nth_error vs i = Some v ->
  nth_error ws i = Some w -> P t v w.
Proof.
  intros A B C P. induction ts; intros [|v0 vs] [|w0 ws] H Hl [|i] t v w Ht Hv Hw;
    cbn in *; try discriminate.
  - inversion H; subst. inversion Ht; inversion Hv; inversion Hw; subst. auto.
  - inversion H; subst. eapply IHts; eauto.
Qed.

Lemma Forall2_combine3_intro : forall A B C (P : A -> B -> C -> Prop) ts vs ws,
  length ts = length vs -> length vs = length ws ->
  (forall i t v w, nth_error ts i = Some t -> nth_error vs i = Some v ->
     nth_error ws i = Some w -> P t v w) ->
  Forall2 (fun t p => P t (fst p) (snd p)) ts (combine vs ws).
Proof.
  intros A B C P. induction ts; intros [|v0 vs] [|w0 ws] H1 H2 H; cbn in *; try discriminate;
    constructor.
  - apply (H O); reflexivity.
  - apply IHts; try lia. intros i t v w ? ? ?. apply (H (S i)); auto.
Qed.

(** ** Loops *)
Lemma reads_mapP : forall A B V (f : A -> prog B) (h : V -> bytes) (Q : V -> B -> Prop) vf vs ws,
  Forall2 (fun v w => exists x, Q v x /\ reads (f w) vf (h v) x vf) vs ws ->
  exists xs, Forall2 Q vs xs /\ reads (mapP f ws) vf (concat (map h vs)) xs vf.
Proof.
  intros * H. induction H; cbn [mapP map concat].
  - exists []. split; [constructor|]. apply reads_ret.
  - destruct H as (b & Hq & Hr). destruct IHForall2 as (xs & Hqs & Hrs).
    exists (b :: xs). split; [now constructor|]. eapply reads_eq.
    + eapply reads_bind; [exact Hr|]. eapply reads_bind; [exact Hrs|]. apply reads_ret.
    + now rewrite app_nil_r.
Qed.

(** Push-back loop. *)
Lemma reads_push : forall V X (f : list X -> unit -> prog (list X)) (h : V -> bytes)
    (Q : V -> X -> Prop) vf vs,
  (forall acc v, In v vs -> exists x, Q v x /\ reads (f acc tt) vf (h v) (acc ++ [x]) vf) ->
  forall acc, exists xs, Forall2 Q vs xs /\
    reads (foldP f (repeat tt (length vs)) acc) vf (concat (map h vs)) (acc ++ xs) vf.
Proof.
  induction vs; intros H acc; cbn [length repeat foldP map concat].
  - exists []. split; [constructor|]. rewrite app_nil_r. apply reads_ret.
  - destruct (H acc a) as (x & Hq & Hr); [now left|].
    destruct (IHvs (fun ac v Hv => H ac v (or_intror Hv)) (acc ++ [x])) as (xs & Hqs & Hrs).
    exists (x :: xs). split; [now constructor|].
    replace (acc ++ x :: xs) with ((acc ++ [x]) ++ xs) by now rewrite <- app_assoc.
    eapply reads_bind; [exact Hr|exact Hrs].
Qed.

(** Emplacing loop, tracking the accumulated container. *)
Lemma reads_accum : forall V X S (f : S -> unit -> prog S)
    (h : V -> bytes) (Q : V -> X -> Prop) (I : list X -> S -> Prop) vf vs,
  (forall pre v suf xs s, vs = pre ++ v :: suf -> Forall2 Q pre xs -> I xs s ->
     exists x s', Q v x /\ I (xs ++ [x]) s' /\ reads (f s tt) vf (h v) s' vf) ->
  forall s0, I [] s0 ->
  exists xs s, Forall2 Q vs xs /\ I xs s /\
    reads (foldP f (repeat tt (length vs)) s0) vf (concat (map h vs)) s vf.
Proof.
  intros * Hadd s0 H0.
  assert (G : forall suf pre xs s, vs = pre ++ suf -> Forall2 Q pre xs -> I xs s ->
    exists xs' s', Forall2 Q suf xs' /\ I (xs ++ xs') s' /\
      reads (foldP f (repeat tt (length suf)) s) vf (concat (map h suf)) s' vf).
  { induction suf; intros pre xs s Hvs Hq Hi; cbn [length repeat foldP map concat].
    - exists [], s. rewrite app_nil_r. split; [constructor|split; [auto|apply reads_ret]].
    - destruct (Hadd pre a suf xs s Hvs Hq Hi) as (x & s' & Hqx & Hi' & Hr).
      destruct (IHsuf (pre ++ [a]) (xs ++ [x]) s') as (xs' & s2 & Hq2 & Hi2 & Hr2).
      + rewrite <- app_assoc. exact Hvs.
      + apply Forall2_app; auto.
      + exact Hi'.
      + exists (x :: xs'), s2. split; [now constructor|].
        rewrite <- app_assoc in Hi2. split; [exact Hi2|].
        eapply reads_bind; [exact Hr|exact Hr2]. }
  destruct (G vs [] [] s0 eq_refl (Forall2_nil _) H0) as (xs & s & Hq & Hi & Hr).
  exists xs, s. auto.
Qed.

(** A loop that overwrites distinct slots of a list. *)
Lemma reads_slots : forall I A B (mk : list A -> B) (f : B -> I -> prog B) (slot : I -> nat)
    (inp : I -> bytes) (P Q : I -> A -> Prop) vf is_,
  NoDup (map slot is_) ->
  (forall i cur x, In i is_ -> nth_error cur (slot i) = Some x -> P i x ->
     exists x', Q i x' /\ reads (f (mk cur) i) vf (inp i) (mk (upd cur (slot i) x')) vf) ->
  forall cur, (forall i, In i is_ -> exists x, nth_error cur (slot i) = Some x /\ P i x) ->
  exists cur', length cur' = length cur /\
    (forall i, In i is_ -> exists x, nth_error cur' (slot i) = Some x /\ Q i x) /\
    (forall j, ~ In j (map slot is_) -> nth_error cur' j = nth_error cur j) /\
    reads (foldP f is_ (mk cur)) vf (concat (map inp is_)) (mk cur') vf.
Proof.
  intros I A B mk f slot inp P Q vf. induction is_; intros Hnd Hstep cur HP;
    cbn [foldP map concat].
  - exists cur. split; [auto|]. split; [intros i []|]. split; [auto|]. apply reads_ret.
  - inversion Hnd; subst.
    destruct (HP a) as (x & Hx & Hpx); [now left|].
    destruct (Hstep a cur x) as (x' & Hq & Hr); auto; [now left|].
    assert (Hlt : (slot a < length cur)%nat) by (apply nth_error_Some; congruence).
    destruct (IHis_ H2) with (cur := upd cur (slot a) x') as (cur' & Hl & Hqs & Hns & Hrs).
    + intros i c y Hi. apply Hstep. now right.
    + intros i Hi. rewrite nth_error_upd_neq.
      * apply HP. now right.
      * intros Heq. apply H1. rewrite Heq. now apply in_map.
    + exists cur'. rewrite upd_length in Hl. split; [auto|]. split; [|split].
      * intros i [<-|Hi]; auto.
        rewrite (Hns (slot a) H1). rewrite nth_error_upd_eq by auto. eauto.
      * intros j Hj. rewrite Hns.
        -- apply nth_error_upd_neq. intros Heq. apply Hj. left. auto.
        -- intros Hin. apply Hj. now right.
      * eapply reads_bind; eauto.
Qed.

(** ** Sorted and unique-key insertion *)
Lemma insert_sorted_last : forall lt x l,
  (forall y, In y l -> lt x y = false) -> insert_sorted lt x l = l ++ [x].
Proof.
  induction l; intros H; cbn; auto.
  rewrite (H a) by now left. f_equal. apply IHl. intros; apply H; now right.
Qed.

Lemma sorted_by_split : forall multi lt pre v suf,
  sorted_by multi lt (pre ++ v :: suf) ->
  forall y, In y pre -> lt v y = false /\ (multi = false -> lt y v = true).
Proof.
  induction pre; intros v suf H y Hy; [destruct Hy|].
  cbn in H. destruct H as (HF & Hs). destruct Hy as [<-|Hy]; [|eauto].
  rewrite Forall_forall in HF. apply HF. apply in_or_app. right. now left.
Qed.

Lemma distinct_by_split : forall eqk pre v suf,
  distinct_by eqk (pre ++ v :: suf) -> forall y, In y pre -> eqk v y = false.
Proof.
  induction pre; intros v suf H y Hy; [destruct Hy|].
  cbn in H. destruct H as (HF & Hs). destruct Hy as [<-|Hy]; [|eauto].
  rewrite Forall_forall in HF. apply HF. apply in_or_app. right. now left.
Qed.

Lemma Forall2_in_r : forall A B (P : A -> B -> Prop) l l' y,
  Forall2 P l l' -> In y l' -> exists x, In x l /\ P x y.
Proof.
  intros A B P l l' y H. induction H; intros Hin; [destruct Hin|].
  destruct Hin as [<-|Hin]; [exists x; split; auto; now left|].
  destruct (IHForall2 Hin) as (z & ? & ?). exists z. split; auto. now right.
Qed.

Section Unpack.
Variable F : N -> Prop.
Variable E : env.
Hypothesis wf : wf_env F E.
Variable C R : N -> N -> Prop.
Hypothesis HFC : forall c w, F w -> C c w.
Hypothesis HCR : forall c w, C c w -> R c (N.max w c).

Notation m := MUnpacking.

(** What a reference of static type [t] that will receive [v] may designate. *)
Inductive tgt : ty -> val -> val -> Prop :=
| TgtTy t v w : target C E t v w -> tgt t v w
| TgtDyn c d ls ls' :
    is_virtual E (TClass c) = true -> target C E (TClass d) (VObj d ls) (VObj d ls') ->
    tgt (TClass c) (VObj d ls) (VObj d ls').

(** ** Freshly constructed objects are suitable targets *)
Lemma fresh_tgt_n : forall n t v w, (depth v < n)%nat ->
  fresh F E t w -> has_ty E t v -> target C E t v w.
Proof.
  induction n; intros t v w Hd Hf Ht; [lia|].
  assert (Hall : forall t l ws, shallow n l -> Forall (fresh F E t) ws -> Forall (has_ty E t) l ->
     forall x y, In x l -> In y ws -> target C E t x y).
  { intros t0 l ws Hs Hfs Hts x y Hx Hy. unfold shallow in Hs.
    rewrite Forall_forall in Hs, Hfs, Hts. apply IHn; auto. }
  assert (Hflds : forall ts vs ws, Forall2 (has_ty E) ts vs -> Forall2 (fresh F E) ts ws ->
     shallow n vs ->
     length vs = length ws /\
     Forall2 (fun t q => target C E t (fst q) (snd q)) ts (combine vs ws)).
  { intros ts vs ws H1 H2 Hs. pose proof (Forall2_length _ _ _ _ _ H1).
    pose proof (Forall2_length _ _ _ _ _ H2). split; [lia|].
    apply Forall2_combine3_intro; try lia.
    intros i t0 v0 w0 Hi Hv Hw. apply IHn.
    - eapply shallow_in; eauto. eapply nth_error_In; eauto.
    - exact (Forall2_nth _ _ _ _ _ _ _ _ H2 Hi Hw).
    - exact (Forall2_nth _ _ _ _ _ _ _ _ H1 Hi Hv). }
  inversion Hf; subst; try (constructor; auto; fail).
  - (* vector *)
    inversion Ht; subst. constructor; auto.
    apply pairwise_of_forall. eapply Hall; eauto.
    cbn [depth] in Hd. apply fold_depth. lia.
  - (* vector<bool> *)
    inversion Ht; subst. constructor; auto.
  - (* array *)
    inversion Ht; subst. constructor; auto.
    apply Forall2_of_nth; [lia|]. intros i x y Hx Hy.
    eapply Hall; eauto using nth_error_In.
    cbn [depth] in Hd. apply fold_depth. lia.
  - (* list *)
    inversion Ht; subst. constructor; auto.
    apply pairwise_of_forall. eapply Hall; eauto.
    cbn [depth] in Hd. apply fold_depth. lia.
  - (* pair *)
    inversion Ht; subst. cbn [depth fold_right] in Hd. constructor; apply IHn; auto; lia.
  - (* tuple *)
    inversion Ht; subst. cbn [depth] in Hd. destruct (fold_depth l0 n) as (Hs & _); [lia|].
    match goal with H1 : Forall2 (has_ty E) ts ?a, H2 : Forall2 (fresh F E) ts ?b |- _ =>
      destruct (Hflds ts a b H1 H2 Hs) end.
    constructor; auto.
  - (* unique_ptr *)
    inversion Ht; subst; [constructor| |congruence].
    apply TgUnique; auto. apply IHn; auto. cbn [depth] in Hd. lia.
  - (* byte class *)
    econstructor; eauto.
  - (* class *)
    inversion Ht; subst.
    { congruence. }
    cbn [depth] in Hd. destruct (fold_depth2 ls0 n) as (Hs & _); [lia|].
    match goal with
    | H1 : Forall2 _ (chain E c) ls0, H2 : Forall2 _ (chain E c) ls |- _ =>
      rename H1 into HT; rename H2 into HFr
    end.
    pose proof (Forall2_length _ _ _ _ _ HT). pose proof (Forall2_length _ _ _ _ _ HFr).
    constructor; [lia|].
    apply (Forall2_combine3_intro _ _ _ (fun c' fs ws => exists k0, cls E c' = Some k0 /\
      length fs = length ws /\
      Forall2 (fun t q => target C E t (fst q) (snd q)) (cfields k0) (combine fs ws))); try lia.
    intros i c' fs ws Hc Hv Hw.
    destruct (Forall2_nth _ _ _ _ _ _ _ _ HT Hc Hv) as (k1 & Hk1 & _ & _ & HF1).
    destruct (Forall2_nth _ _ _ _ _ _ _ _ HFr Hc Hw) as (k2 & Hk2 & HF2).
    assert (k2 = k1) by congruence. subst k2. exists k1.
    rewrite Forall_forall in Hs.
    destruct (Hflds _ _ _ HF1 HF2 (Hs _ (nth_error_In _ _ Hv))). auto.
Qed.

Lemma fresh_tgt : forall t v w, fresh F E t w -> has_ty E t v -> target C E t v w.
Proof. intros. eapply fresh_tgt_n; eauto. Qed.

Lemma nth_opt_all : forall A (l : list (option A)) r i x,
  opt_all l = Some r -> nth_error r i = Some x -> nth_error l i = Some (Some x).
Proof.
  induction l as [|[a|] l IH]; intros r i x H Hr; cbn in *; try discriminate.
  - inversion H; subst. destruct i; discriminate.
  - destruct (opt_all l) as [r'|]; cbn in H; [|discriminate]. inversion H; subst.
    destruct i; cbn in *; [congruence|]. eauto.
Qed.

Lemma opt_all_length : forall A (l : list (option A)) r,
  opt_all l = Some r -> length r = length l.
Proof.
  induction l as [|[a|] l IH]; intros r H; cbn in *; try discriminate.
  - now inversion H.
  - destruct (opt_all l) as [r'|]; cbn in H; [|discriminate]. inversion H; subst.
    cbn. f_equal. auto.
Qed.

Lemma ctor_tgt : forall c k ls o, cls E c = Some k -> cbyte k = false ->
  (ctag k = Some o \/ crecon k = Some o \/ cdefault k = Some o) ->
  has_ty E (TClass c) (VObj c ls) -> target C E (TClass c) (VObj c ls) (VObj c o).
Proof.
  intros c k ls o Hk Hb Hc Ht. apply fresh_tgt; auto.
  eapply FrClass; eauto. eapply wf_ctor; eauto.
Qed.

Lemma zeros_len : forall n, len (repeat Byte.x00 (N.to_nat n)) = n.
Proof. intros. unfold len. rewrite repeat_length. lia. Qed.

Lemma has_obj_cls : forall c ls, has_ty E (TClass c) (VObj c ls) ->
  exists k, cls E c = Some k /\ cbyte k = false.
Proof.
  intros c ls H. destruct (has_obj _ _ _ _ H) as (_ & Hc & HF).
  destruct (lvl_nth _ _ _ _ _ HF (chain_level _ _ wf _ _ (chain_self _ _ wf _ Hc)))
    as (k & _ & Hk & Hb & _). eauto.
Qed.

Lemma dflt_tgt_n : forall n t v d, (depth v < n)%nat ->
  has_ty E t v -> dflt E t = Some d -> target C E t v d.
Proof.
  induction n; intros t v d Hd Ht Hdf; [lia|].
  inversion Ht; subst; cbn [dflt] in Hdf;
    try (inversion Hdf; subst; constructor; auto using repeat_length; fail).
  - (* vector *)
    inversion Hdf; subst. constructor; auto; [apply HFC, wf_F0 with (1 := wf)|constructor].
  - (* vector<bool> *)
    inversion Hdf; subst. constructor; auto. apply HFC, wf_F0 with (1 := wf).
  - (* array *)
    destruct (dflt E t0) as [d0|] eqn:Ed; cbn in Hdf; [|discriminate]. inversion Hdf; subst.
    constructor; [apply repeat_length|].
    apply Forall2_of_nth; [now rewrite repeat_length|].
    intros i x y Hx Hy. apply nth_error_In in Hy. apply repeat_spec in Hy. subst y.
    apply nth_error_In in Hx.
    match goal with H : Forall (has_ty E t0) l |- _ => rewrite Forall_forall in H;
      apply IHn; auto end.
    cbn [depth] in Hd. eapply shallow_in; eauto. apply fold_depth. lia.
  - (* list *)
    inversion Hdf; subst. constructor; auto. constructor.
  - (* pair *)
    destruct (dflt E a) as [x'|] eqn:Ea; [|discriminate].
    destruct (dflt E b) as [y'|] eqn:Eb; [|discriminate].
    inversion Hdf; subst. cbn [depth fold_right] in Hd. constructor; apply IHn; auto; lia.
  - (* tuple *)
    destruct (opt_all (map (dflt E) ts)) as [ds|] eqn:Ed; cbn in Hdf; [|discriminate].
    inversion Hdf; subst. cbn [depth] in Hd. destruct (fold_depth l n) as (Hs & _); [lia|].
    match goal with H : Forall2 (has_ty E) ts l |- _ => rename H into HT end.
    pose proof (Forall2_length _ _ _ _ _ HT). pose proof (opt_all_length _ _ _ Ed).
    rewrite map_length in *. constructor; [|lia].
    apply Forall2_combine3_intro; try lia.
    intros i t0 v0 w0 Hi Hv Hw.
    pose proof (nth_opt_all _ _ _ _ _ Ed Hw) as Hn. rewrite (map_nth_error _ _ _ Hi) in Hn.
    inversion Hn. apply IHn; auto.
    + eapply shallow_in; eauto. eapply nth_error_In; eauto.
    + exact (Forall2_nth _ _ _ _ _ _ _ _ HT Hi Hv).
  - (* variant *)
    change (forallb (bytecopy E) ts) with (bytecopy E (TVariant ts)) in Hdf.
    rewrite H in Hdf. destruct ts as [|t1 ts]; [discriminate|].
    destruct (dflt E t1) as [d1|]; cbn in Hdf; [|discriminate]. inversion Hdf; subst.
    now constructor.
  - (* byte-copyable variant *)
    change (forallb (bytecopy E) ts) with (bytecopy E (TVariant ts)) in Hdf.
    rewrite H in Hdf. inversion Hdf; subst. constructor; auto. apply zeros_len.
  - (* byte-copyable class *)
    rewrite H in Hdf. rewrite H0, H1 in Hdf. cbn in Hdf. inversion Hdf; subst.
    econstructor; eauto. apply zeros_len.
  - (* class *)
    destruct (has_obj_cls _ _ Ht) as (k & Hk & Hb). rewrite Hk, Hb in Hdf. cbn in Hdf.
    destruct (cdefault k) as [o|] eqn:Eo; cbn in Hdf; [|discriminate]. inversion Hdf; subst.
    eapply ctor_tgt; eauto.
Qed.

Lemma dflt_tgt : forall t v d, has_ty E t v -> dflt E t = Some d -> target C E t v d.
Proof. intros. eapply dflt_tgt_n; eauto. Qed.

Lemma recon_tgt_n : forall n t v d, (depth v < n)%nat ->
  has_ty E t v -> recon E t = Some d -> target C E t v d.
Proof.
  induction n; intros t v d Hd Ht Hdf; [lia|].
  destruct t; try (eapply dflt_tgt; eauto; fail).
  - (* tuple *)
    cbn [recon] in Hdf.
    destruct (opt_all (map (recon E) ts)) as [ds|] eqn:Ed; cbn in Hdf; [|discriminate].
    inversion Hdf; subst. inversion Ht; subst.
    cbn [depth] in Hd. destruct (fold_depth l n) as (Hs & _); [lia|].
    match goal with H : Forall2 (has_ty E) ts l |- _ => rename H into HT end.
    pose proof (Forall2_length _ _ _ _ _ HT). pose proof (opt_all_length _ _ _ Ed).
    rewrite map_length in *. constructor; [|lia].
    apply Forall2_combine3_intro; try lia.
    intros i t0 v0 w0 Hi Hv Hw.
    pose proof (nth_opt_all _ _ _ _ _ Ed Hw) as Hn. rewrite (map_nth_error _ _ _ Hi) in Hn.
    inversion Hn. apply IHn; auto.
    + eapply shallow_in; eauto. eapply nth_error_In; eauto.
    + exact (Forall2_nth _ _ _ _ _ _ _ _ HT Hi Hv).
  - (* class *)
    cbn [recon] in Hdf. inversion Ht; subst.
    + rewrite H0 in Hdf. rewrite H1, H2 in Hdf. cbn in Hdf. inversion Hdf; subst.
      econstructor; eauto. apply zeros_len.
    + destruct (has_obj_cls _ _ Ht) as (k & Hk & Hb). rewrite Hk, Hb in Hdf. cbn [andb] in Hdf.
      destruct (first_some (ctag k) (first_some (crecon k) (cdefault k))) as [o|] eqn:Eo;
        cbn in Hdf; [|discriminate].
      inversion Hdf; subst. eapply ctor_tgt; eauto.
      unfold first_some in Eo. destruct (ctag k); [left; auto|].
      destruct (crecon k); auto.
Qed.

Lemma recon_tgt : forall t v d, has_ty E t v -> recon E t = Some d -> target C E t v d.
Proof. intros. eapply recon_tgt_n; eauto. Qed.

(** ** Frames *)
Lemma tix_ok : forall t, unle (le 4 (tix E t)) = tix E t /\ validate_index (tix E t) = true.
Proof.
  intros t. destruct (wf_tix _ _ wf t) as (Hlt & Hm). split.
  - apply unle_le. exact Hlt.
  - unfold validate_index, dead_mark, dead_mask. rewrite Hm. reflexivity.
Qed.

Lemma wrap64_lt : forall x, wrap64 x < two64.
Proof. intros. unfold wrap64. apply N.mod_lt. discriminate. Qed.

Lemma reads_framed : forall A (p : prog A) t n vf a vf' body,
  reads p vf body a vf' ->
  reads (if chk E
         then bind (with_type_idx E m t) (fun _ => bind (catch (tix E t) p) (fun a =>
              bind (with_mem_used E m t n) (fun _ => Ret a)))
         else p) vf (framed E t n body) a vf'.
Proof.
  intros A p t n vf a vf' body Hp. unfold framed. destruct (chk E); auto.
  destruct (tix_ok t) as (Hu & Hval).
  eapply reads_bind with (vf1 := vf).
  { unfold with_type_idx. eapply reads_eq; [|apply app_nil_r].
    apply reads_contig; [now rewrite !le_length|].
    cbn zeta. rewrite Hu, Hval, N.eqb_refl. apply reads_ret. }
  eapply reads_bind; [apply reads_catch, Hp|].
  eapply reads_eq; [|apply app_nil_r]. eapply reads_bind with (vf1 := vf') (a := tt).
  - unfold with_mem_used. eapply reads_eq; [|apply app_nil_r].
    apply reads_contig; [now rewrite !le_length|].
    rewrite unle_le by apply wrap64_lt. rewrite N.eqb_refl. apply reads_ret.
  - apply reads_ret.
Qed.

(** ** One level of the traversal *)
Section Level.
Variable rec : ty -> list val -> prog (list val).
Variable n : nat.
Hypothesis Hrec : forall t vs ws, arr_ok E t vs -> Forall2 (tgt t) vs ws -> fits n t vs ->
  exists vs', Forall2 (sim R) vs vs' /\
    reads (rec t ws) false (framed E t (length vs) (concat (map (encb E t) vs))) vs' false.

Lemma u_ser : forall t v w, holds E t v -> tgt t v w -> (depth v < n)%nat ->
  exists x, sim R v x /\ reads (ser rec t w) false (enc E t v) x false.
Proof.
  intros t v w Hv Hw Hd.
  destruct (Hrec t [v] [w]) as (vs' & Hs & Hr).
  - repeat split; auto. discriminate.
  - auto.
  - left. constructor; auto.
  - inversion Hs; subst. inversion H3; subst. exists y. split; auto.
    unfold ser. eapply reads_eq.
    + eapply reads_bind; [exact Hr|]. apply reads_ret.
    + cbn [map concat length]. now rewrite !app_nil_r.
Qed.

Lemma u_prim : forall id sz b b0, length b = sz -> length b0 = sz -> (1 <= n)%nat ->
  reads (ser rec (TPrim id sz) (VB b0)) false (framed E (TPrim id sz) 1 b) (VB b) false.
Proof.
  intros id sz b b0 Hb Hb0 Hn.
  destruct (Hrec (TPrim id sz) [VB b] [VB b0]) as (vs' & Hs & Hr).
  - repeat split.
    + constructor; [|constructor]. apply HoldsTy. now constructor.
    + discriminate.
  - constructor; [|constructor]. apply TgtTy. now constructor.
  - right. auto.
  - inversion Hs; subst. inversion H3; subst. inversion H1; subst.
    unfold ser. eapply reads_eq.
    + eapply reads_bind; [exact Hr|]. apply reads_ret.
    + cbn [map concat length encb]. now rewrite !app_nil_r.
Qed.

Lemma u_word : forall id sz x x0, x < 256 ^ N.of_nat sz -> (1 <= n)%nat ->
  reads (ser_word rec id sz x0) false (framed E (TPrim id sz) 1 (le sz x)) x false.
Proof.
  intros id sz x x0 Hx Hn. unfold ser_word. eapply reads_eq.
  - eapply reads_bind; [apply u_prim with (b := le sz x); auto using le_length|].
    cbn beta iota. rewrite unle_le by auto. apply reads_ret.
  - apply app_nil_r.
Qed.

Lemma u_size : forall x x0, x < two64 -> (1 <= n)%nat ->
  reads (ser_size rec x0) false (wsize E x) x false.
Proof. intros. apply u_word; auto. Qed.

Lemma u_int : forall x x0, x < 2 ^ 32 -> (1 <= n)%nat ->
  reads (ser_int rec x0) false (wint E x) x false.
Proof. intros. apply u_word; auto. Qed.

Lemma u_bool : forall b b0, (1 <= n)%nat ->
  reads (ser_bool rec b0) false (wbool E b) b false.
Proof.
  intros b b0 Hn. unfold ser_bool. eapply reads_eq.
  - eapply reads_bind; [apply u_word with (x := if b then 1 else 0); auto; destruct b; reflexivity|].
    destruct b; cbn; apply reads_ret.
  - rewrite app_nil_r. reflexivity.
Qed.

Lemma u_array : forall t vs ws, Forall (has_ty E t) vs ->
  (is_virtual E t = true -> (length vs <= 1)%nat) -> shallow n vs ->
  Forall2 (target C E t) vs ws ->
  exists vs', Forall2 (sim R) vs vs' /\
    reads (ser_array rec t ws) false (warray E t (map (encb E t) vs)) vs' false.
Proof.
  intros t vs ws Ht Hv Hs HT. unfold ser_array, warray.
  destruct HT as [|v w vs ws Hvw HT].
  - exists []. split; [constructor|]. apply reads_ret.
  - cbn [map]. destruct (Hrec t (v :: vs) (w :: ws)) as (vs' & Hsim & Hr).
    + repeat split.
      * eapply Forall_impl; [|exact Ht]. intros; now constructor.
      * discriminate.
      * intros H. apply Hv in H. cbn in *. lia.
    + constructor; [now apply TgtTy|]. clear - HT. induction HT; constructor; auto.
      now apply TgtTy.
    + now left.
    + exists vs'. split; auto. eapply reads_eq; [exact Hr|].
      cbn [length map]. now rewrite map_length.
Qed.

Lemma u_construct : forall t, constructible E t ->
  exists d, recon E t = Some d /\ forall vf, reads (construct E t) vf [] d vf.
Proof.
  intros t Hc. unfold constructible in Hc. destruct (recon E t) as [d|] eqn:Ed; [|congruence].
  exists d. split; auto. intros vf. unfold construct. rewrite Ed.
  apply reads_note. apply reads_ret.
Qed.

Lemma u_fresh_ser : forall t v, constructible E t -> has_ty E t v -> (depth v < n)%nat ->
  exists x, sim R v x /\
    forall A (k : val -> prog A) i a vf', reads (k x) false i a vf' ->
    reads (bind (construct E t) (fun d => bind (ser rec t d) k)) false (enc E t v ++ i) a vf'.
Proof.
  intros t v Hc Ht Hd. destruct (u_construct _ Hc) as (d & Ed & Hr).
  destruct (u_ser t v d) as (x & Hs & Hrx); auto.
  - now constructor.
  - apply TgtTy. eapply recon_tgt; eauto.
  - exists x. split; auto. intros A k i a vf' Hk.
    change (enc E t v ++ i) with ([] ++ enc E t v ++ i).
    eapply reads_bind; [apply Hr|]. eapply reads_bind; eauto.
Qed.

Lemma u_push_elems : forall t vs acc, constructible E t -> Forall (has_ty E t) vs ->
  shallow n vs ->
  exists xs, Forall2 (sim R) vs xs /\
    reads (foldP (fun acc (_ : unit) =>
             bind (construct E t) (fun d => bind (ser rec t d) (fun x => leave E t x (Ret (acc ++ [x])))))
             (repeat tt (length vs)) acc) false (concat (map (enc E t) vs)) (acc ++ xs) false.
Proof.
  intros t vs acc Hc Ht Hs. apply reads_push with (Q := sim R).
  intros a v Hv. rewrite Forall_forall in Ht.
  destruct (u_fresh_ser t v) as (x & Hsx & Hr); auto.
  { eapply shallow_in; eauto. }
  exists x. split; auto. eapply reads_eq; [apply Hr, reads_leave, reads_ret|apply app_nil_r].
Qed.

Lemma u_tuple : forall ts vs ws, Forall2 (has_ty E) ts vs -> shallow n vs ->
  length vs = length ws ->
  Forall2 (fun t p => target C E t (fst p) (snd p)) ts (combine vs ws) ->
  exists vs', Forall2 (sim R) vs vs' /\
    reads (ser_tuple rec ts ws) false (concat (zipenc E ts vs)) vs' false.
Proof.
  intros ts vs ws H. revert ws. induction H; intros ws Hs Hl HT; cbn [zipenc concat].
  - destruct ws; [|discriminate]. exists []. split; [constructor|]. apply reads_ret.
  - destruct ws as [|w ws]; [discriminate|]. inversion Hs; subst. inversion HT; subst.
    cbn [fst snd] in *.
    destruct (u_ser x y w) as (x' & Hsx & Hrx); auto; [now constructor|now apply TgtTy|].
    destruct (IHForall2 ws) as (vs' & Hvs & Hrs); auto.
    exists (x' :: vs'). split; [now constructor|]. cbn [ser_tuple]. eapply reads_eq.
    + eapply reads_bind; [exact Hrx|]. eapply reads_bind; [exact Hrs|]. apply reads_ret.
    + now rewrite app_nil_r.
Qed.

Lemma u_members : forall ts fs is_ ws,
  Forall2 (has_ty E) ts fs -> shallow n fs -> length fs = length ws ->
  Forall2 (fun t p => target C E t (fst p) (snd p)) ts (combine fs ws) ->
  NoDup is_ -> (forall i, In i is_ <-> (i < length ts)%nat) ->
  exists fs', Forall2 (sim R) fs fs' /\
    reads (ser_members rec ts is_ ws) false
      (concat (map (fun i => nth i (zipenc E ts fs) []) is_)) fs' false.
Proof.
  intros ts fs is_ ws Ht Hs Hl HT Hnd Hall.
  pose proof (Forall2_length _ _ _ _ _ Ht) as Hlt.
  destruct (reads_slots nat val (list val) (fun l => l)
    (fun fs i => match nth_error ts i, nth_error fs i with
                 | Some t, Some v => bind (ser rec t v) (fun x => Ret (upd fs i x))
                 | _, _ => Fail Stuck
                 end) (fun i => i) (fun i => nth i (zipenc E ts fs) [])
    (fun i w => forall t v, nth_error ts i = Some t -> nth_error fs i = Some v -> target C E t v w)
    (fun i x => forall v, nth_error fs i = Some v -> sim R v x) false is_)
    with (cur := ws) as (cur' & Hl' & HQ & _ & Hr).
  - now rewrite map_id.
  - intros i cur x Hi Hx HP.
    destruct (nth_error ts i) as [t|] eqn:Et.
    2: { apply nth_error_None in Et. apply Hall in Hi. lia. }
    destruct (nth_error fs i) as [v|] eqn:Ev.
    2: { apply nth_error_None in Ev. apply Hall in Hi. lia. }
    rewrite Hx. destruct (u_ser t v x) as (x' & Hsx & Hrx).
    + constructor. exact (Forall2_nth _ _ _ _ _ _ _ _ Ht Et Ev).
    + apply TgtTy. auto.
    + eapply shallow_in; eauto using nth_error_In.
    + exists x'. split; [intros v' Hv'; congruence|].
      rewrite (zipenc_nth _ _ _ _ _ _ Et Ev). eapply reads_eq; [|apply app_nil_r].
      eapply reads_bind; [exact Hrx|]. apply reads_ret.
  - intros i Hi. apply Hall in Hi.
    destruct (nth_error ws i) as [w|] eqn:Ew.
    2: { apply nth_error_None in Ew. lia. }
    exists w. split; auto. intros t v Hti Hvi.
    eapply (Forall2_combine3 _ _ _ (target C E)); eauto.
  - exists cur'. split; [|exact Hr].
    apply Forall2_of_nth; [lia|]. intros i x y Hx Hy.
    destruct (HQ i) as (y' & Hy' & Hq).
    + apply Hall. apply nth_error_Some. rewrite Hlt in *.
      assert (i < length fs)%nat by (apply nth_error_Some; congruence).
      intros Hn. apply nth_error_None in Hn. lia.
    + assert (y' = y) by congruence. subst. auto.
Qed.

(** What is known about one class of a target object. *)
Definition lvl_tgt (c : nat) (fs ws : list val) : Prop :=
  exists k, cls E c = Some k /\ length fs = length ws /\
    Forall2 (fun t q => target C E t (fst q) (snd q)) (cfields k) (combine fs ws).

Lemma u_static : forall d ls ls' c fs ws, In c (chain E d) ->
  Forall2 (lvl_ok E) (chain E d) ls -> Forall (shallow n) ls ->
  nth_error ls (level E c) = Some fs -> nth_error ls' (level E c) = Some ws ->
  lvl_tgt c fs ws ->
  exists fs', Forall2 (sim R) fs fs' /\
    reads (apply_static E m rec c (VObj d ls')) false
      (wmembers E (c, zipenc E (wfields E c) fs)) (VObj d (upd ls' (level E c) fs')) false.
Proof.
  intros d ls ls' c fs ws Hin HF Hs Hfs Hws (k & Hk & Hl & HT).
  destruct (obj_level _ _ wf _ _ _ Hin HF) as (k' & fs0 & Hk' & _ & Hn & Hft).
  assert (k' = k) by congruence. subst k'. assert (fs0 = fs) by congruence. subst fs0.
  destruct (lvl_wf _ _ _ _ _ HF Hin Hk) as [_ Hun Hnd Hall].
  destruct (u_members (cfields k) fs (cser k MPacking) ws) as (fs' & Hsim & Hr); auto.
  { rewrite Forall_forall in Hs. apply Hs. eapply nth_error_In; eauto. }
  exists fs'. split; auto. unfold apply_static, wmembers, wfields. cbn [fst snd].
  rewrite Hk, Hws, Hun. apply reads_note. eapply reads_eq; [|apply app_nil_r].
  eapply reads_bind; [exact Hr|]. apply reads_note, reads_ret.
Qed.

Lemma bool_byte : forall v, v = VB [Byte.x00] \/ v = VB [Byte.x01] ->
  exists b : bool, v = VB (le 1 (if b then 1 else 0)) /\ framed E BOOL 1 (encb E BOOL v) = wbool E b.
Proof.
  intros v [-> | ->]; [exists false | exists true]; split; reflexivity.
Qed.

Lemma u_vector_data : forall t vs ws, Forall (has_ty E t) vs -> elem_constructible E t ->
  (defc E t = true \/ copyc E t = true \/ ws = []) -> pairwise (target C E t) vs ws ->
  exists ws', Forall2 (target C E t) vs ws' /\
    reads (construct_vector_data E t (length vs) ws) false [] ws' false.
Proof.
  intros t vs ws Ht Hc Hw HP. unfold construct_vector_data.
  unfold elem_constructible in Hc.
  assert (Hres : forall d, (forall v, has_ty E t v -> target C E t v d) ->
            Forall2 (target C E t) vs (resize (length vs) d ws)).
  { intros d Hd. apply resize_pairwise; auto. intros v Hv. apply Hd.
    rewrite Forall_forall in Ht. auto. }
  destruct (defc E t) eqn:Edc.
  - destruct (dflt E t) as [d|] eqn:Ed; [|congruence].
    exists (resize (length vs) d ws). split.
    + apply Hres. intros. eapply dflt_tgt; eauto.
    + cbn [of_opt bind]. apply reads_ret.
  - destruct (u_construct t Hc) as (d & Ed & Hr).
    destruct (copyc E t) eqn:Ecc.
    + exists (resize (length vs) d ws). split.
      * apply Hres. intros. eapply recon_tgt; eauto.
      * change (@nil Byte.byte) with (@nil Byte.byte ++ []). eapply reads_bind; [apply Hr|].
        apply reads_note, reads_ret.
    + destruct Hw as [Hw|[Hw|Hw]]; try discriminate. subst ws.
      destruct (reads_push val val
        (fun acc _ => bind (construct E t) (fun d => leave E t d (Ret (acc ++ [d]))))
        (fun _ => []) (target C E t) false vs) with
        (acc := @nil val) as (xs & HF & Hrs).
      * intros acc v Hv. exists d. split.
        -- rewrite Forall_forall in Ht. eapply recon_tgt; eauto.
        -- change (@nil Byte.byte) with (@nil Byte.byte ++ []). eapply reads_bind; [apply Hr|].
           apply reads_leave, reads_ret.
      * exists xs. split; auto. eapply reads_eq; [exact Hrs|].
        clear. induction vs; auto.
Qed.

Lemma u_elems : forall t vs ws, Forall (has_ty E t) vs -> shallow n vs ->
  Forall2 (target C E t) vs ws ->
  exists vs', Forall2 (sim R) vs vs' /\
    reads (mapP (ser rec t) ws) false (concat (map (enc E t) vs)) vs' false.
Proof.
  intros t vs ws Ht Hs HT. apply reads_mapP with (Q := sim R).
  induction HT; constructor; inversion Ht; inversion Hs; subst; auto.
  apply u_ser; auto; [now constructor | now apply TgtTy].
Qed.

Lemma u_elem : forall t v w, has_ty E t v -> target C E t v w ->
  bytecopy E t = false -> is_virtual E t = false -> (depth v < S n)%nat ->
  exists x, sim R v x /\ reads (apply_elem E m rec t w) false (encb E t v) x false.
Proof.
  intros t v w Ht HT Hb Hv Hd.
  inversion Ht; subst; cbn [bytecopy] in Hb; try discriminate.
  - (* enum *)
    inversion HT; subst. exists (VB b). split; [constructor|]. cbn [apply_elem encb].
    apply u_prim; auto. cbn in Hd; lia.
  - (* duration *)
    inversion HT; subst. exists (VB b). split; [constructor|]. cbn [apply_elem encb].
    apply u_prim; auto. cbn in Hd; lia.
  - (* string *)
    inversion HT; subst. cbn [depth] in Hd. cbn [apply_elem encb]. unfold ser_string.
    cbn [is_footprinting].
    destruct (u_array CHAR (chars b) (chars (resize (length b) Byte.x00 b0)))
      as (vs' & Hsim & Hr).
    + unfold chars. apply Forall_forall. intros x Hx. apply in_map_iff in Hx.
      destruct Hx as (y & <- & _). now constructor.
    + cbn. discriminate.
    + unfold chars, shallow. apply Forall_forall. intros x Hx. apply in_map_iff in Hx.
      destruct Hx as (y & <- & _). cbn. lia.
    + unfold chars. apply Forall2_of_nth; [rewrite !map_length, resize_length; auto|].
      intros i x y Hx Hy. apply nth_error_In in Hy. apply in_map_iff in Hy.
      destruct Hy as (z & <- & _). now constructor.
    + assert (vs' = chars b).
      { clear - Hsim. revert vs' Hsim. induction b; cbn; intros vs' H; inversion H; subst; auto.
        inversion H2; subst. f_equal. auto. }
      subst vs'. exists (VStr (N.max cap0 (len b)) b). split; [constructor; lia|].
      eapply reads_bind; [apply u_size; lia|]. cbn zeta.
      unfold len at 1. rewrite Nat2N.id.
      eapply reads_eq; [eapply reads_bind; [exact Hr|]|].
      * rewrite unchars_chars. cbn [of_opt bind]. apply reads_ret.
      * rewrite app_nil_r. unfold chars. rewrite map_map. reflexivity.
  - (* vector *)
    inversion HT; subst. cbn [depth] in Hd. destruct (fold_depth l n) as (Hs & H1n); [lia|].
    cbn [apply_elem encb]. unfold ser_vector. cbn [is_footprinting is_unpacking].
    destruct (u_vector_data t0 l ws) as (ws' & HT' & Hrd); auto.
    destruct (u_array t0 l ws') as (vs' & Hsim & Hra); auto.
    exists (VVec (N.max (N.max cap0 cap) (len vs')) vs'). split.
    + constructor; auto.
      assert (len vs' = len l) by (unfold len; rewrite (Forall2_length _ _ _ _ _ Hsim); auto).
      replace (N.max (N.max cap0 cap) (len vs')) with (N.max cap0 cap) by lia. auto.
    + unfold ser_vector_meta. rewrite app_assoc. eapply reads_bind.
      { eapply reads_bind; [apply u_size; auto; lia|].
        eapply reads_eq; [|apply app_nil_r].
        eapply reads_bind; [apply u_size with (x := len l); auto; lia|]. apply reads_ret. }
      cbn beta iota. unfold len at 1. rewrite Nat2N.id.
      change (warray E t0 (map (encb E t0) l)) with ([] ++ warray E t0 (map (encb E t0) l)).
      eapply reads_bind; [exact Hrd|].
      eapply reads_eq; [|apply app_nil_r]. eapply reads_bind; [exact Hra|]. apply reads_ret.
  - (* vector<bool> *)
    inversion HT; subst. cbn [depth] in Hd. destruct (fold_depth l n) as (Hs & H1n); [lia|].
    cbn [apply_elem encb]. unfold ser_vecbool. cbn [is_footprinting is_unpacking].
    destruct (reads_mapP val val val
      (fun _ => bind (ser_bool rec false) (fun b => Ret (VB (le 1 (if b then 1 else 0)))))
      (fun x => framed E BOOL 1 (encb E BOOL x)) (sim R) false l
      (resize (length l) (VB (le 1 0)) ws)) as (xs & Hsim & Hr).
    { apply Forall2_of_nth; [now rewrite resize_length|]. intros i x y Hx _.
      apply nth_error_In in Hx. rewrite Forall_forall in H1. apply H1 in Hx.
      destruct (bool_byte _ Hx) as (b & -> & Hw). rewrite Hw.
      exists (VB (le 1 (if b then 1 else 0))). split; [constructor|].
      eapply reads_eq; [|apply app_nil_r].
      eapply reads_bind; [apply u_bool with (b := b); lia|]. apply reads_ret. }
    exists (VVec (N.max (N.max cap0 cap) (len xs)) xs). split.
    { constructor; auto.
      assert (len xs = len l) by (unfold len; rewrite (Forall2_length _ _ _ _ _ Hsim); auto).
      replace (N.max (N.max cap0 cap) (len xs)) with (N.max cap0 cap) by lia. auto. }
    unfold ser_vector_meta. rewrite app_assoc. eapply reads_bind.
    { eapply reads_bind; [apply u_size; auto; lia|].
      eapply reads_eq; [|apply app_nil_r].
      eapply reads_bind; [apply u_size with (x := len l); auto; lia|]. apply reads_ret. }
    cbn beta iota zeta. unfold len at 1. rewrite Nat2N.id.
    eapply reads_eq; [|apply app_nil_r].
    eapply reads_bind; [exact Hr|]. apply reads_ret.
  - (* array *)
    inversion HT; subst. cbn [depth] in Hd. destruct (fold_depth l n) as (Hs & H1n); [lia|].
    destruct (u_array t0 l ws) as (vs' & Hsim & Hra); auto.
    exists (VSeq vs'). split; [now constructor|]. cbn [apply_elem encb]. unfold ser_stdarray.
    eapply reads_eq; [|apply app_nil_r]. eapply reads_bind; [exact Hra|]. apply reads_ret.
  - (* list, deque *)
    inversion HT; subst. cbn [depth] in Hd. destruct (fold_depth l n) as (Hs & H1n); [lia|].
    cbn [apply_elem encb]. unfold ser_list, ser_container_size.
    cbn [is_footprinting is_unpacking].
    assert (Hr : exists vs', Forall2 (sim R) l vs' /\
       reads (deser_ordered E rec t0 (length l) ws) false (concat (map (enc E t0) l)) vs' false).
    { unfold deser_ordered. destruct (u_construct t0) as (d & Ed & Hrd); auto.
      destruct (copyc E t0) eqn:Ecc.
      - destruct (u_elems t0 l (resize (length l) d ws)) as (vs' & Hsim & Hr); auto.
        + apply resize_pairwise; auto. intros v0 Hv0. eapply recon_tgt; eauto.
          rewrite Forall_forall in H1. auto.
        + exists vs'. split; auto. change (concat (map (enc E t0) l)) with
            ([] ++ concat (map (enc E t0) l)). eapply reads_bind; [apply Hrd|].
          apply reads_note. exact Hr.
      - assert (ws = []) by (match goal with Ho : false = true \/ ws = [] |- _ => destruct Ho; congruence end). subst ws.
        destruct (u_push_elems t0 l []) as (xs & Hsim & Hr); auto.
        exists xs. auto. }
    destruct Hr as (vs' & Hsim & Hr). exists (VSeq vs'). split; [now constructor|].
    eapply reads_bind; [apply u_size with (x := len l); auto; lia|].
    unfold len at 1. rewrite Nat2N.id.
    eapply reads_eq; [|apply app_nil_r]. eapply reads_bind; [exact Hr|]. apply reads_ret.
  - (* queue *)
    inversion HT; subst. cbn [depth] in Hd. destruct (fold_depth l n) as (Hs & H1n); [lia|].
    cbn [apply_elem encb]. unfold ser_queue, ser_container_size.
    cbn [is_footprinting is_unpacking].
    destruct (u_push_elems t0 l []) as (xs & Hsim & Hr); auto.
    exists (VSeq xs). split; [now constructor|].
    eapply reads_bind; [apply u_size with (x := len l); auto; lia|].
    unfold len at 1. rewrite Nat2N.id.
    eapply reads_eq; [|apply app_nil_r]. eapply reads_bind; [exact Hr|]. apply reads_ret.
  - (* ordered associative *)
    inversion HT; subst. cbn [depth] in Hd. destruct (fold_depth l n) as (Hs & H1n); [lia|].
    cbn [apply_elem encb]. unfold ser_assoc, ser_container_size.
    cbn [is_footprinting is_unpacking elements of_opt bind].
    unfold deser_emplace.
    destruct (reads_accum val val val
      (fun acc (_ : unit) => bind (construct E t0) (fun d => bind (ser rec t0 d)
         (fun x => leave_elem E (AOrd multi mp) t0 x (of_opt (emplace E (AOrd multi mp) t0 acc x)))))
      (enc E t0) (sim R) (fun xs s => s = VSeq xs) false l) with (s0 := VSeq [])
      as (xs & s & Hsim & -> & Hr).
    + intros pre v0 suf xs s -> Hpre ->.
      destruct (u_fresh_ser t0 v0) as (x & Hsx & Hr); auto.
      { rewrite Forall_forall in H1. apply H1. apply in_or_app. right. now left. }
      { eapply shallow_in; eauto. apply in_or_app. right. now left. }
      exists x, (VSeq (xs ++ [x])). split; [auto|]. split; [auto|].
      eapply reads_eq; [apply Hr|apply app_nil_r].
      assert (Hlt : forall y, In y xs ->
        less E (TAssoc (AOrd multi mp) t0) x y = false /\
        (multi = false -> less E (TAssoc (AOrd multi mp) t0) y x = true)).
      { intros y Hy. destruct (Forall2_in_r _ _ _ _ _ _ Hpre Hy) as (z & Hz & Hzy).
        destruct (sorted_by_split _ _ _ _ _ H2 z Hz) as (Ha & Hb').
        rewrite <- (wf_less _ _ wf _ v0 x z y) by eauto using sim_same.
        rewrite <- (wf_less _ _ wf _ z y v0 x) by eauto using sim_same. auto. }
      unfold emplace.
      assert (Hex : negb multi && existsb (fun y =>
         negb (less E (TAssoc (AOrd multi mp) t0) x y) && negb (less E (TAssoc (AOrd multi mp) t0) y x)) xs
         = false).
      { destruct multi; cbn [negb andb]; auto.
        apply not_true_iff_false. intros Hex. apply existsb_exists in Hex.
        destruct Hex as (y & Hy & Heq). destruct (Hlt y Hy) as (_ & Hyx).
        rewrite (Hyx eq_refl) in Heq. cbn in Heq. rewrite andb_false_r in Heq. discriminate. }
      rewrite Hex. rewrite insert_sorted_last by (intros; now apply Hlt).
      cbn [of_opt]. apply reads_leave_elem, reads_ret.
    + reflexivity.
    + exists (VSeq xs). split; [now constructor|].
      eapply reads_bind; [apply u_size with (x := len l); auto; lia|].
      unfold len at 1. rewrite Nat2N.id. exact Hr.
  - (* unordered associative *)
    inversion HT; subst. cbn [depth] in Hd. destruct (fold_depth l n) as (Hs & H1n); [lia|].
    cbn [apply_elem encb]. unfold ser_assoc, ser_container_size.
    cbn [is_footprinting is_unpacking elements of_opt bind].
    unfold deser_emplace.
    destruct (reads_accum val val val
      (fun acc (_ : unit) => bind (construct E t0) (fun d => bind (ser rec t0 d)
         (fun x => leave_elem E (AHash multi mp) t0 x (of_opt (emplace E (AHash multi mp) t0 acc x)))))
      (enc E t0) (sim R) (fun xs s => exists ys, s = VBag ys /\ Permutation xs ys) false l)
      with (s0 := VBag [])
      as (xs & s & Hsim & (ys & -> & Hperm) & Hr).
    + intros pre v0 suf xs s -> Hpre (ys & -> & Hperm).
      destruct (u_fresh_ser t0 v0) as (x & Hsx & Hr); auto.
      { rewrite Forall_forall in H1. apply H1. apply in_or_app. right. now left. }
      { eapply shallow_in; eauto. apply in_or_app. right. now left. }
      exists x, (VBag (hplace E (TAssoc (AHash multi mp) t0) ys x)). split; [auto|].
      split.
      { eexists. split; [reflexivity|].
        eapply perm_trans; [|apply Permutation_sym, (wf_hplace _ _ wf)].
        eapply perm_trans; [apply Permutation_sym, Permutation_cons_append|].
        now constructor. }
      eapply reads_eq; [apply Hr|apply app_nil_r].
      unfold emplace.
      assert (Hex : negb multi && existsb (keq E (TAssoc (AHash multi mp) t0) x) ys = false).
      { destruct multi; cbn [negb andb]; auto.
        apply not_true_iff_false. intros Hex. apply existsb_exists in Hex.
        destruct Hex as (y & Hy & Heq).
        assert (Hy' : In y xs) by (eapply Permutation_in; [apply Permutation_sym|]; eauto).
        destruct (Forall2_in_r _ _ _ _ _ _ Hpre Hy') as (z & Hz & Hzy).
        rewrite <- (wf_keq _ _ wf _ v0 x z y) in Heq by eauto using sim_same.
        rewrite (distinct_by_split _ _ _ _ (H2 eq_refl) z Hz) in Heq. discriminate. }
      rewrite Hex. cbn [of_opt]. apply reads_leave_elem, reads_ret.
    + exists []. auto.
    + exists (VBag ys). split; [econstructor; eauto|].
      eapply reads_bind; [apply u_size with (x := len l); auto; lia|].
      unfold len at 1. rewrite Nat2N.id. exact Hr.
  - (* pair *)
    inversion HT; subst. cbn [depth fold_right] in Hd.
    destruct (u_ser a x x') as (x1 & Hs1 & Hr1); [now constructor|now apply TgtTy|lia|].
    destruct (u_ser b y y') as (y1 & Hs2 & Hr2); [now constructor|now apply TgtTy|lia|].
    exists (VSeq [x1; y1]). split; [constructor; auto|].
    cbn [apply_elem encb]. unfold ser_pair. apply reads_count.
    eapply reads_bind; [exact Hr1|].
    eapply reads_eq; [|apply app_nil_r]. eapply reads_bind; [exact Hr2|]. apply reads_ret.
  - (* tuple *)
    inversion HT; subst. cbn [depth] in Hd. destruct (fold_depth l n) as (Hs & H1n); [lia|].
    destruct (u_tuple ts l ws) as (vs' & Hsim & Hr); auto.
    exists (VSeq vs'). split; [now constructor|]. rewrite encb_tuple. cbn [apply_elem].
    eapply reads_eq; [|apply app_nil_r]. eapply reads_bind; [exact Hr|]. apply reads_ret.
  - (* optional, empty *)
    inversion HT; subst. cbn [depth] in Hd. exists (VOpt None). split; [constructor|].
    cbn [apply_elem encb]. unfold ser_optional. cbn [is_footprinting is_unpacking].
    eapply reads_eq; [|apply app_nil_r]. eapply reads_bind; [apply u_bool with (b := false); lia|].
    apply reads_ret.
  - (* optional, engaged *)
    inversion HT; subst. cbn [depth] in Hd.
    destruct (u_fresh_ser t0 v0) as (x & Hsx & Hr); auto; [lia|].
    exists (VOpt (Some x)). split; [now constructor|].
    cbn [apply_elem encb]. unfold ser_optional. cbn [is_footprinting is_unpacking].
    eapply reads_bind; [apply u_bool with (b := true); lia|]. cbn beta iota.
    eapply reads_eq; [apply Hr|apply app_nil_r]. apply reads_note, reads_ret.
  - (* variant *)
    assert (Hx : exists j, variant_index w = Some j /\ apply_elem E m rec (TVariant ts) w =
        bind (ser_size rec j) (fun entry => ser_entry E m rec ts w entry 0)).
    { inversion HT; subst; [| |congruence]; eexists; split; reflexivity. }
    destruct Hx as (j & _ & ->).
    cbn [depth] in Hd.
    destruct (u_fresh_ser t0 v0) as (x & Hsx & Hr); auto; [lia|].
    exists (VVar i x). split; [now constructor|].
    cbn [encb]. rewrite H0. eapply reads_bind; [apply u_size with (x := N.of_nat i); lia|].
    assert (G : forall ts0 cur, nth_error ts0 (i - cur) = Some t0 -> (cur <= i)%nat ->
        reads (ser_entry E m rec ts0 w (N.of_nat i) cur) false (enc E t0 v0) (VVar i x) false).
    { induction ts0; intros cur Hn Hc; cbn [ser_entry].
      - destruct (i - cur)%nat; discriminate.
      - destruct (N.of_nat i =? N.of_nat cur) eqn:Ec.
        + apply N.eqb_eq in Ec. assert (i = cur) by lia. subst cur.
          rewrite Nat.sub_diag in Hn. inversion Hn; subst. cbn [is_unpacking].
          eapply reads_eq; [apply Hr|apply app_nil_r]. apply reads_leave, reads_ret.
        + apply N.eqb_neq in Ec. apply IHts0; [|lia].
          replace (i - cur)%nat with (S (i - S cur)) in Hn by lia. exact Hn. }
    apply G; [now rewrite Nat.sub_0_r|lia].
  - (* byte-copyable variant *)
    change (bytecopy E (TVariant ts) = false) in Hb. congruence.
  - (* null pointer *)
    cbn [depth] in Hd. exists (VOpt None). split; [constructor|].
    assert (Ho : exists o, w = VOpt o) by (inversion HT; subst; eauto).
    destruct Ho as (o & ->). cbn [apply_elem encb]. unfold ser_unique.
    cbn [is_footprinting is_unpacking].
    eapply reads_eq; [|apply app_nil_r].
    eapply reads_bind; [apply u_bool with (b := true); lia|]. apply reads_ret.
  - (* pointer to a non-polymorphic object *)
    cbn [depth] in Hd. cbn [encb]. rewrite H. cbn [app].
    assert (Hw : w = VOpt None \/ exists o, w = VOpt (Some o) /\ target C E t0 v0 o).
    { inversion HT; subst; eauto. cbn [is_virtual] in *. congruence. }
    destruct Hw as [-> | (o & -> & HTo)]; cbn [apply_elem]; unfold ser_unique;
      cbn [is_footprinting is_unpacking].
    + destruct (u_construct t0) as (d & Ed & Hrd); auto.
      destruct (u_ser t0 v0 d) as (x & Hsx & Hrx); auto;
        [now constructor|apply TgtTy; eapply recon_tgt; eauto|lia|].
      exists (VOpt (Some x)). split; [now constructor|].
      eapply reads_bind; [apply u_bool with (b := false); lia|]. cbn beta iota.
      assert (Hrp : reconstruct_pointed E m rec t0 None =
                    bind (construct E t0) (fun o => Ret (Some o))).
      { unfold reconstruct_pointed. destruct t0; auto. now rewrite H. }
      rewrite Hrp.
      change (framed E t0 1 (encb E t0 v0)) with (([] ++ []) ++ enc E t0 v0).
      eapply reads_bind; [eapply reads_bind; [apply Hrd|apply reads_ret]|]. cbn beta iota.
      eapply reads_eq; [|apply app_nil_r]. eapply reads_bind; [exact Hrx|]. apply reads_ret.
    + destruct (u_ser t0 v0 o) as (x & Hsx & Hrx); auto;
        [now constructor|now apply TgtTy|lia|].
      exists (VOpt (Some x)). split; [now constructor|].
      eapply reads_bind; [apply u_bool with (b := false); lia|]. cbn beta iota.
      assert (Hrp : reconstruct_pointed E m rec t0 (Some o) = Ret (Some o)).
      { unfold reconstruct_pointed. destruct t0; auto. now rewrite H. }
      rewrite Hrp. cbn [bind].
      eapply reads_eq; [|apply app_nil_r]. eapply reads_bind; [exact Hrx|]. apply reads_ret.
  - (* pointer to a polymorphic object *)
    assert (Hdd : (depth (VObj d ls) < n)%nat) by (change (depth (VOpt (Some (VObj d ls))))
      with (S (Nat.max 1 (depth (VObj d ls)))) in Hd; lia).
    assert (H1n : (1 < n)%nat) by (cbn [depth] in Hdd; lia).
    rewrite (encb_unique_dyn _ _ _ _ _ H H1).
    assert (Hi32 : N.of_nat i < 2 ^ 32) by lia.
    assert (Hw : w = VOpt None \/ exists ls', w = VOpt (Some (VObj d ls')) /\
                   target C E (TClass d) (VObj d ls) (VObj d ls')).
    { inversion HT; subst; eauto. congruence. }
    assert (Hpt : exists ls', target C E (TClass d) (VObj d ls) (VObj d ls') /\
      match w with VOpt p =>
        reads (reconstruct_pointed E m rec (TClass c) p) false (wint E (N.of_nat i))
          (Some (VObj d ls')) false
      | _ => False end).
    { destruct Hw as [-> | (ls' & -> & HT')].
      - unfold constructible in H4. destruct (recon E (TClass d)) as [o|] eqn:Eo; [|congruence].
        pose proof (recon_tgt _ _ _ H5 Eo) as HTo.
        assert (exists ls', o = VObj d ls').
        { inversion HTo; subst; eauto.
          destruct (has_obj_cls _ _ H5) as (k' & Hk' & Hb'). congruence. }
        destruct H6 as (ls' & ->). exists ls'. split; auto.
        unfold reconstruct_pointed. rewrite H. unfold ser_virtual_type.
        cbn [is_footprinting is_unpacking bind].
        eapply reads_eq; [|apply app_nil_r]. eapply reads_bind.
        { eapply reads_eq; [|apply app_nil_r]. eapply reads_bind; [apply u_int; [exact Hi32|lia]|].
          apply reads_ret. }
        cbn beta iota. unfold construct_concrete. rewrite Nat2N.id.
        assert (Hnth : nth_error (oreg E (root E c)) i = Some d).
        { unfold obj_idx in H1. rewrite H3 in H1. revert H1. clear. revert i.
          induction (oreg E (root E c)); intros i H; cbn in H; [discriminate|].
          destruct (Nat.eqb a d) eqn:Ea.
          - apply Nat.eqb_eq in Ea. inversion H; subst. reflexivity.
          - destruct (index_of d l); cbn in H; [|discriminate]. inversion H; subst. cbn. auto. }
        rewrite Hnth, Eo. cbn [bind]. apply reads_note.
        assert (Hex : existsb (Nat.eqb c) (chain E d) = true).
        { apply existsb_exists. exists c. split; auto. apply Nat.eqb_refl. }
        rewrite Hex. cbn [bind]. apply reads_ret.
      - exists ls'. split; auto. unfold reconstruct_pointed. rewrite H. unfold ser_virtual_type.
        cbn [is_footprinting is_unpacking bind].
        eapply reads_eq; [|apply app_nil_r]. eapply reads_bind.
        { eapply reads_eq; [|apply app_nil_r]. eapply reads_bind; [apply u_int; [exact Hi32|lia]|].
          cbn [dyn_type_idx]. rewrite H1. cbn [option_map of_opt bind]. rewrite N.eqb_refl.
          apply reads_ret. }
        apply reads_ret. }
    destruct Hpt as (ls' & HT' & Hr).
    destruct (u_ser (TClass c) (VObj d ls) (VObj d ls')) as (x & Hsx & Hrx); auto.
    { now apply HoldsDyn. }
    { now apply TgtDyn. }
    exists (VOpt (Some x)). split; [now constructor|].
    assert (Ho : exists p, w = VOpt p) by (destruct Hw as [-> | (? & -> & _)]; eauto).
    destruct Ho as (p & ->). cbn [apply_elem]. unfold ser_unique.
    cbn [is_footprinting is_unpacking].
    eapply reads_bind; [apply u_bool with (b := false); lia|]. cbn beta iota.
    eapply reads_bind; [exact Hr|]. cbn beta iota.
    eapply reads_eq; [|apply app_nil_r]. eapply reads_bind; [exact Hrx|]. apply reads_ret.
  - (* byte-copyable class *)
    rewrite H in Hb. congruence.
  - (* class *)
    assert (Hin : In c (chain E c)) by (eapply chain_self; eauto).
    destruct (chain_in_cls _ _ wf _ _ Hin) as (k & Hk).
    assert (Hst : chain E c = [c]).
    { eapply chain_static; eauto. cbn [is_virtual] in Hv. now rewrite Hk in Hv. }
    cbn [depth] in Hd. destruct (fold_depth2 ls n) as (Hs & H1n); [lia|].
    rewrite encb_obj, Hv.
    destruct (obj_level _ _ wf _ _ _ Hin H0) as (k' & fs & Hk' & Hkb & Hn & Hft).
    inversion HT; subst.
    { congruence. }
    match goal with H2 : Forall2 _ (chain E c) (combine ls ls') |- _ => rename H2 into HL end.
    match goal with H2 : length ls = length ls' |- _ => rename H2 into Hll end.
    destruct (nth_error ls' (level E c)) as [ws|] eqn:Ew.
    2: { apply nth_error_None in Ew. assert (level E c < length ls)%nat
           by (apply nth_error_Some; congruence). lia. }
    assert (Hlt : lvl_tgt c fs ws).
    { apply (Forall2_combine3 _ _ _ lvl_tgt (chain E c) ls ls' HL Hll (level E c)); auto.
      eapply chain_level; eauto. }
    destruct (u_static c ls ls' c fs ws) as (fs' & Hsim & Hr); auto.
    exists (VObj c (upd ls' (level E c) fs')).
    assert (Hlv : level E c = O) by (unfold level; now rewrite Hst).
    rewrite Hlv, Hst in *. cbn [nth_error] in *.
    destruct ls as [|fs0 [|? ?]]; inversion H0; subst; try discriminate; [|inversion H6].
    destruct ls' as [|ws0 [|? ?]]; try discriminate.
    cbn in Hn, Ew. inversion Hn; inversion Ew; subst.
    split.
    { cbn. constructor. constructor; auto. }
    cbn [levelenc map concat]. rewrite app_nil_r. cbn [apply_elem]. exact Hr.
Qed.
End Level.

(** ** Byte-copyable arrays *)
Lemma bytecopy_tgt : forall t v w, holds E t v -> tgt t v w -> bytecopy E t = true ->
  exists b, w = VB b /\ len b = sizeof E t.
Proof.
  intros t v w Hh HT Hb.
  destruct (bytecopy_vb _ _ _ _ wf Hh Hb) as (Hv & _ & _).
  inversion HT; subst.
  - inversion H; subst; cbn [bytecopy] in Hb; try discriminate.
    + eexists; split; [reflexivity|]. reflexivity.
    + change (bytecopy E (TVariant ts) = true) in Hb. congruence.
    + change (bytecopy E (TVariant ts) = true) in Hb. congruence.
    + eexists; split; [reflexivity|]. assumption.
    + eexists; split; [reflexivity|]. cbn [sizeof]. now rewrite H0.
  - cbn in Hv. discriminate.
Qed.

Lemma unflatten_read : forall t vs ws,
  Forall2 (fun v w => v = VB (vb v) /\ exists b, w = VB b /\ len b = len (vb v)) vs ws ->
  unflatten E t ws (concat (map vb vs)) = vs /\
  opt_all (map (obj_bytes E t) ws) = Some (map vb ws) /\
  length (concat (map vb ws)) = length (concat (map vb vs)).
Proof.
  intros t vs ws H. induction H as [|v w vs ws (Hv & b & -> & Hl) HF (IH1 & IH2 & IH3)].
  - auto.
  - assert (Hl' : length b = length (vb v)) by (unfold len in Hl; lia).
    assert (Ho : obj_bytes E t (VB b) = Some b) by (destruct t; reflexivity).
    cbn [unflatten map concat opt_all]. rewrite Ho. rewrite Hl'.
    rewrite firstn_app, Nat.sub_diag, firstn_all, firstn_O, app_nil_r.
    rewrite skipn_app, skipn_all, Nat.sub_diag, skipn_O. cbn [app].
    rewrite IH1, IH2. split; [|split].
    + f_equal. rewrite Hv at 2. destruct t; reflexivity.
    + reflexivity.
    + rewrite !app_length, IH3. cbn [vb]. lia.
Qed.

(** ** The recursive traversal *)
Definition unpack_ok (f : nat) : Prop :=
  (forall t vs ws, arr_ok E t vs -> Forall2 (tgt t) vs ws -> fits f t vs ->
     exists vs', Forall2 (sim R) vs vs' /\
       reads (with_ E m f t ws) false
         (framed E t (length vs) (concat (map (encb E t) vs))) vs' false) /\
  (forall d ls ls' c fs ws, In c (chain E d) -> is_virtual E (TClass c) = true ->
     Forall2 (lvl_ok E) (chain E d) ls -> Forall (shallow (pred f)) ls -> (1 < f)%nat ->
     nth_error ls (level E c) = Some fs -> nth_error ls' (level E c) = Some ws ->
     lvl_tgt c fs ws ->
     exists fs', Forall2 (sim R) fs fs' /\
       reads (ser (with_ E m f) (TClass c) (VObj d ls')) true
         (framed E (TClass c) 1 (wmembers E (c, zipenc E (wfields E c) fs)))
         (VObj d (upd ls' (level E c) fs')) false).

(** An object through its dynamic class. *)
Lemma u_dyn : forall f t d ls ls',
  (forall d ls ls' c fs ws, In c (chain E d) -> is_virtual E (TClass c) = true ->
     Forall2 (lvl_ok E) (chain E d) ls -> Forall (shallow (pred f)) ls -> (1 < f)%nat ->
     nth_error ls (level E c) = Some fs -> nth_error ls' (level E c) = Some ws ->
     lvl_tgt c fs ws ->
     exists fs', Forall2 (sim R) fs fs' /\
       reads (ser (with_ E m f) (TClass c) (VObj d ls')) true
         (framed E (TClass c) 1 (wmembers E (c, zipenc E (wfields E c) fs)))
         (VObj d (upd ls' (level E c) fs')) false) ->
  is_virtual E t = true -> is_virtual E (TClass d) = true -> has_ty E (TClass d) (VObj d ls) ->
  target C E (TClass d) (VObj d ls) (VObj d ls') ->
  (depth (VObj d ls) < S f)%nat ->
  exists x, sim R (VObj d ls) x /\
    reads (dyn_serialize E (with_ E m f) (VObj d ls')) false (encb E t (VObj d ls)) x false.
Proof.
  intros f t d ls ls' IH2 Hv Hvd Hty HTo Hd.
  destruct (has_obj _ _ _ _ Hty) as (_ & Hcn & HF). inversion HTo; subst.
  match goal with H2 : Forall2 _ (chain E d) (combine ls ls') |- _ => rename H2 into HL end.
  match goal with H2 : length ls = length ls' |- _ => rename H2 into Hll end.
  assert (Hlc : length (chain E d) = length ls) by (eapply Forall2_length; eauto).
  cbn [depth] in Hd. destruct (fold_depth2 ls (pred f)) as (Hsl & H1n); [lia|].
  destruct (reads_slots nat (list val) val (VObj d)
    (fun v c => Note (EvRegistry c) (SetV true (ser (with_ E m f) (TClass c) v))) (level E)
    (fun c => framed E (TClass c) 1
       (wmembers E (c, zipenc E (wfields E c) (nth (level E c) ls []))))
    (fun c ws => lvl_tgt c (nth (level E c) ls []) ws)
    (fun c fs' => Forall2 (sim R) (nth (level E c) ls []) fs')
    false (chain E d)) with (cur := ls') as (cur' & Hl' & HQ & _ & Hr).
  * apply NoDup_nth_error. intros i j Hi Hij.
    rewrite !nth_error_map in Hij.
    rewrite map_length in Hi.
    destruct (nth_error (chain E d) i) as [ci|] eqn:Eci.
    2: { apply nth_error_None in Eci. lia. }
    destruct (nth_error (chain E d) j) as [cj|] eqn:Ecj; [|discriminate].
    cbn in Hij. inversion Hij.
    rewrite (chain_nth_level _ _ wf _ _ _ Eci), (chain_nth_level _ _ wf _ _ _ Ecj) in H0. auto.
  * intros c cur x Hc Hx Hlt.
    destruct (obj_level _ _ wf _ _ _ Hc HF) as (k & fs & Hk & Hkb & Hn & Hft).
    rewrite (nth_error_nth _ _ _ Hn) in *.
    destruct (IH2 d ls cur c fs x) as (fs' & Hsim & Hrf); auto.
    { rewrite (chain_virtual _ _ wf d c); auto. }
    { lia. }
    exists fs'. split; [exact Hsim|]. apply reads_note, reads_setv. exact Hrf.
  * intros c Hc.
    destruct (obj_level _ _ wf _ _ _ Hc HF) as (k & fs & Hk & Hkb & Hn & Hft).
    rewrite (nth_error_nth _ _ _ Hn) in *.
    destruct (nth_error ls' (level E c)) as [ws|] eqn:Ew.
    2: { apply nth_error_None in Ew. assert (level E c < length ls)%nat
           by (apply nth_error_Some; congruence). lia. }
    exists ws. split; auto.
    apply (Forall2_combine3 _ _ _ lvl_tgt (chain E d) ls ls' HL Hll (level E c)); auto.
    eapply chain_level; eauto.
  * exists (VObj d cur'). split.
    { constructor.
      apply Forall2_of_nth; [lia|]. intros i fs fs' Hfs Hfs'.
      destruct (nth_error (chain E d) i) as [c|] eqn:Ec.
      2: { apply nth_error_None in Ec. assert (i < length ls)%nat
             by (apply nth_error_Some; congruence). lia. }
      destruct (HQ c) as (x & Hx & Hsx); [eapply nth_error_In; eauto|].
      rewrite (chain_nth_level _ _ wf _ _ _ Ec) in *.
      rewrite (nth_error_nth _ _ _ Hfs) in Hsx. congruence. }
    unfold dyn_serialize. rewrite Hvd.
    eapply reads_eq; [exact Hr|].
    rewrite encb_obj, Hv.
    symmetry. apply levels_by_chain; auto.
    intros; eapply chain_nth_level; eauto.
Qed.

(** An array without its frame. *)
Lemma u_ap : forall f, unpack_ok f -> forall t vs ws,
  arr_ok E t vs -> Forall2 (tgt t) vs ws -> fits (S f) t vs ->
  exists vs', Forall2 (sim R) vs vs' /\
    reads (ap E m (with_ E m f) t ws) false (concat (map (encb E t) vs)) vs' false.
Proof.
  intros f (IH1 & IH2) t vs ws (Ht & Hne & Hv1) HT Hs.
  pose proof (Forall2_length _ _ _ _ _ HT) as Hlen.
  unfold ap. destruct (bytecopy E t) eqn:Hb.
  { assert (HV : Forall2 (fun v w => v = VB (vb v) /\ exists b, w = VB b /\ len b = len (vb v)) vs ws).
    { clear - HT Ht Hb wf. induction HT; constructor; inversion Ht; subst; auto.
      destruct (bytecopy_vb _ _ _ _ wf H2 Hb) as (? & ? & ?).
      destruct (bytecopy_tgt _ _ _ H2 H Hb) as (b & -> & Hl). split; auto.
      exists b. split; auto. congruence. }
    destruct (unflatten_read t _ _ HV) as (Hu & Ho & Hl). rewrite Ho.
    exists vs. split.
    - clear - HV. induction HV as [|v w vs ws (Hv & _)]; constructor; auto.
      rewrite Hv. constructor.
    - assert (Henc : map (encb E t) vs = map vb vs).
      { apply map_ext_in. intros v Hv. rewrite Forall_forall in Ht.
        destruct (bytecopy_vb _ _ _ _ wf (Ht _ Hv) Hb) as (? & ? & ?). auto. }
      rewrite Henc. eapply reads_eq; [|apply app_nil_r].
      apply reads_contig; [auto|]. rewrite Hu. apply reads_ret. }
  destruct Hs as [Hs|(Hs & _)]; [|destruct t; discriminate].
  destruct (is_virtual E t) eqn:Hv.
  + specialize (Hv1 eq_refl).
    destruct vs as [|v [|v' r]]; try discriminate. clear Hv1 Hne.
    destruct ws as [|w [|w' r]]; try discriminate. clear Hlen.
    inversion Ht as [|? ? Hh _]; subst. inversion Hs as [|? ? Hd _]; subst.
    inversion HT as [|? ? ? ? HTv _]; subst.
    assert (Hobj : exists d ls, v = VObj d ls /\ has_ty E (TClass d) (VObj d ls) /\
                     is_virtual E (TClass d) = true).
    { inversion Hh; subst.
      - inversion H; subst; cbn in Hv; try discriminate.
        + rewrite H0 in Hv. congruence.
        + exists c, ls. auto.
      - exists d, ls. split; auto. split; auto. rewrite <- (chain_virtual _ _ wf d c); auto. }
    destruct Hobj as (d & ls & -> & Hty & Hvd).
    destruct (has_obj _ _ _ _ Hty) as (_ & Hcn & HF).
    assert (Hw : exists ls', w = VObj d ls' /\ target C E (TClass d) (VObj d ls) (VObj d ls')).
    { inversion HTv; subst; eauto.
      inversion H; subst; cbn [is_virtual] in Hv; try discriminate; eauto.
      rewrite H0 in Hv. congruence. }
    destruct Hw as (ls' & -> & HTo).
    destruct (u_dyn f t d ls ls') as (x & Hsx & Hr); auto.
    exists [x]. split; [auto|]. apply reads_getv. cbn beta iota.
    eapply reads_eq; [eapply reads_bind; [exact Hr|apply reads_ret]|].
    cbn [map concat length]. reflexivity.
  + apply reads_mapP with (Q := sim R).
    clear Hne Hv1 Hlen.
    induction HT as [|v w vs ws Hvw HT IHT]; constructor; inversion Ht; inversion Hs; subst; auto.
    match goal with Hh : holds E t v |- _ => inversion Hh; subst; [|congruence] end.
    inversion Hvw; subst; [|congruence].
    apply (u_elem (with_ E m f) f IH1); auto.
Qed.

Lemma unpack_all : forall f, unpack_ok f.
Proof.
  induction f as [|f IH].
  { split.
    - intros t vs ws (_ & Hne & _) _ [Hs|(_ & Hs)]; exfalso; [|lia].
      destruct vs; [congruence|]. inversion Hs; subst. lia.
    - intros. lia. }
  destruct IH as (IH1 & IH2). split.
  - intros t vs ws (Ht & Hne & Hv1) HT Hs. cbn [with_]. unfold traverse.
    pose proof (Forall2_length _ _ _ _ _ HT) as Hlen. rewrite <- Hlen.
    destruct (u_ap f (conj IH1 IH2) t vs ws) as (vs' & Hsim & Hr); auto.
    { repeat split; auto. }
    exists vs'. split; auto. now apply reads_framed.
  - intros d ls ls' c fs ws Hin Hv HF Hs Hf Hfs Hws Hlt.
    destruct (obj_level _ _ wf _ _ _ Hin HF) as (k & fs0 & Hk & Hkb & Hn & Hft).
    destruct (u_static (with_ E m f) f IH1 d ls ls' c fs ws) as (fs' & Hsim & Hr); auto.
    exists fs'. split; auto. unfold ser. cbn [with_]. unfold traverse.
    eapply reads_eq; [|apply app_nil_r].
    eapply reads_bind with (a := [VObj d (upd ls' (level E c) fs')]) (vf1 := false);
      [|apply reads_ret].
    apply reads_framed. unfold ap. cbn [bytecopy]. rewrite Hk, Hkb, Hv.
    apply reads_getv. cbn beta iota. apply reads_setv.
    cbn [mapP apply_elem]. eapply reads_eq; [|apply app_nil_r].
    eapply reads_bind; [exact Hr|]. cbn [bind]. apply reads_ret.
Qed.

(** The root call: deserializing into [w]. *)
Lemma unpack_root : forall f t v w, has_ty E t v -> target C E t v w -> (depth v < f)%nat ->
  exists x, sim R v x /\ reads (with_root E m f t w) false (enc_root E t v) x false.
Proof.
  intros f t v w Ht HT Hd. unfold with_root, enc_root.
  destruct (u_ser (with_ E m f) f (proj1 (unpack_all f)) t v w) as (x & Hsx & Hr); auto.
  { now constructor. }
  { now apply TgtTy. }
  exists x. split; auto.
  destruct (chk E) eqn:Ec; auto.
  destruct (tix_ok t) as (Hu & Hval).
  eapply reads_bind with (vf1 := false).
  { unfold with_type_idx. eapply reads_eq; [|apply app_nil_r].
    apply reads_contig; [now rewrite !le_length|].
    cbn zeta. rewrite Hu, Hval, N.eqb_refl. apply reads_ret. }
  eapply reads_bind.
  { unfold enc, framed in Hr. rewrite Ec in Hr. exact Hr. }
  eapply reads_eq; [|apply app_nil_r]. eapply reads_bind with (vf1 := false) (a := tt).
  - unfold with_mem_used. eapply reads_eq; [|apply app_nil_r].
    apply reads_contig; [now rewrite !le_length|]. rewrite N.mul_1_r.
    rewrite unle_le by apply wrap64_lt. rewrite N.eqb_refl. apply reads_ret.
  - apply reads_ret.
Qed.
End Unpack.
