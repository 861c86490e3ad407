(** Property C68: classes of a hierarchy that were not declared. *)
From Coq Require Import List NArith Arith Bool Lia.
From Coq.Strings Require Import Byte.
From Verif Require Import Base Syntax Prog Serializers Traverse Spec ProgFacts EnvFacts Closure
  ValFacts Pack Unpack Api ApiFacts Registry RegistryFacts Examples Fails ApiInv PropMemory
  PropVirtual Declare.
Import ListNotations.
Local Open Scope N_scope.

(** ** Specification *)

(** Every declaration names the direct base class. *)
Definition names_parent (E : env) (declared : nat -> bool) (named : nat -> nat) : Prop :=
  forall c k p, cls E c = Some k -> cparent k = Some p -> declared c = true -> named c = p.

(** Somewhere at or above [d] a declared class derives from one that is not. *)
Definition gap (E : env) (declared : nat -> bool) (d : nat) : Prop :=
  exists c k p, In c (chain E d) /\ declared c = true /\ cls E c = Some k /\
    cparent k = Some p /\ declared p = false.

(** ** Facts *)
Section Decl.
Variable F : N -> Prop.
Variable E : env.
Hypothesis wf : wf_env F E.
Variable declared : nat -> bool.
Variable named : nat -> nat.
Hypothesis Hname : names_parent E declared named.
Variable o : oregs.
Variable ss : list nat.
Variable s : nat.
Hypothesis Hs : In s ss.
Variable rec : ty -> list val -> prog (list val).

Notation step := (fun v c => Note (EvRegistry c) (SetV true (ser rec (TClass c) v))).

Lemma fold_app : forall l1 l2 v, peq (foldP step (l1 ++ l2) v)
  (bind (foldP step l1 v) (fun v' => foldP step l2 v')).
Proof.
  intros l1. induction l1 as [|x l1 IHl]; intros l2 v; [apply peq_refl|].
  cbn [app foldP]. eapply peq_trans; [|intros H vf st; symmetry; apply peq_assoc].
  apply peq_bind; [apply peq_refl|]. intros a. apply IHl.
Qed.

Lemma decl_chain : forall n c, (c < n)%nat -> forall ex v r i,
  (exists k, cls E c = Some k) ->
  sinv (root E) r ->
  declared (root E c) = true ->
  (forall c', In c' (chain E c) -> declared c' = true -> sr_idx r c' s <> None) ->
  sr_idx r (root E c) s = Some i ->
  (ex = None \/ asserts E = false \/ (declared c = true /\ ex = or_idx o c)) ->
  (asserts E = true -> ~ gap E declared c) ->
  exists r', sinv (root E) r' /\ sr_idx r' = sr_idx r /\
   (forall c', linked (root E) r c' s -> linked (root E) r' c' s) /\
   peq (dyn_ser_decl E declared named o ss s rec n c i ex v r)
    (bind (foldP step (filter declared (chain E c)) v) (fun v' => Ret (v', r'))).
Proof.
  induction n as [|n IH]; intros c Hcn ex v r i (k & Hk) Hinv Hroot Hreg Hi Hex Hgap; [lia|].
  cbn [dyn_ser_decl]. rewrite Hk.
  pose proof (chain_eq _ _ wf c) as Hch. rewrite Hk in Hch.
  assert (Hself : In c (chain E c)) by (apply (chain_self _ _ wf); eapply chain_nonempty; eauto).
  assert (Hrp : forall p, cparent k = Some p -> (p < c)%nat /\ root E p = root E c /\
            (exists kp, cls E p = Some kp) /\ (forall x, In x (chain E p) -> In x (chain E c))).
  { intros p Hp. destruct (wf_parent _ _ wf c k p Hk Hp) as (Hpc & _ & kp & Hkp & _).
    rewrite Hp in Hch. repeat split; eauto.
    - apply (root_in_chain _ _ wf). rewrite Hch. apply in_or_app. left.
      apply (chain_self _ _ wf). eapply chain_nonempty; eauto.
    - intros x Hx. rewrite Hch. apply in_or_app. now left. }
  destruct (declared c) eqn:Hdc.
  - set (r1 := link_all (root E) ss r c).
    assert (Hinv1 : sinv (root E) r1) by (now apply link_all_inv).
    assert (Hidx1 : sr_idx r1 = sr_idx r) by apply link_all_idx.
    assert (Hass : peq (assert_idx E o c ex) (Ret tt)).
    { unfold assert_idx. destruct Hex as [->|[Ha|(_ & ->)]].
      - apply peq_refl.
      - rewrite Ha. destruct ex; [|apply peq_refl]. destruct (or_idx o c); [|apply peq_refl].
        cbn [negb]. rewrite orb_true_r. apply peq_refl.
      - destruct (or_idx o c) as [j|]; [|apply peq_refl].
        rewrite Nat.eqb_refl. apply peq_refl. }
    destruct (cparent k) as [p|] eqn:Hp.
    + destruct (Hrp p eq_refl) as (Hpc & Hrt & (kp & Hkp) & Hsub).
      rewrite (Hname c k p Hk Hp Hdc).
      destruct (IH p) with (ex := or_idx o p) (v := v) (r := r1) (i := i)
        as (r2 & Hinv2 & Hidx2 & Hlk & Hpeq); auto.
      * lia.
      * eauto.
      * now rewrite Hrt.
      * intros c' Hin Hd. rewrite Hidx1. apply Hreg; auto.
      * now rewrite Hidx1, Hrt.
      * destruct (asserts E) eqn:Ha; [|auto]. destruct (declared p) eqn:Hdp; [auto|].
        exfalso. apply (Hgap eq_refl). exists c, k, p. auto.
      * intros Ha (c' & k' & p' & Hin & H'). apply (Hgap Ha). exists c', k', p'. auto.
      * exists r2. split; [exact Hinv2|]. split; [congruence|]. split.
        { intros c' Hl. apply Hlk. apply link_all_keeps; auto. }
        assert (Hget : get_base_idx (asserts E) r2 c i = Ok (c, s)).
        { destruct (sr_idx r c s) as [ic|] eqn:Eic.
          2:{ exfalso. apply (Hreg c); auto. }
          eapply (get_base_ok _ (root E)) with (s := s); eauto.
          - apply Hlk. apply link_all_links; auto. congruence.
          - rewrite Hidx2, Hidx1. exact Eic.
          - rewrite Hidx2, Hidx1. exact Hi. }
        rewrite Hch, filter_app. cbn [filter]. rewrite Hdc.
        intros H vf st. rewrite !interp_bind, Hass. cbn [interp].
        rewrite interp_bind, Hpeq, interp_bind, fold_app, interp_bind.
        destruct (interp H (foldP step (filter declared (chain E p)) v) vf st)
          as [[[v1 vf1] st1]|]; auto.
        cbn [interp]. rewrite Hget. cbn [dispatcher]. rewrite Nat.eqb_refl.
        cbn [foldP]. rewrite !interp_bind. cbn [interp].
        destruct (interp H (ser rec (TClass c) v1) true (note H (EvRegistry c) st1))
          as [[[v2 vf2] st2]|]; auto.
    + rewrite Hch. cbn [filter]. rewrite Hdc. exists r1. split; [exact Hinv1|].
      split; [exact Hidx1|]. split.
      { intros c' Hl. apply link_all_keeps; auto. }
      assert (Hrt : root E c = c) by (unfold root; now rewrite Hch).
      assert (Hget : get_obj_idx (asserts E) r1 c i = Ok (c, s)).
      { eapply (get_obj_ok _ (root E)); eauto. rewrite Hidx1. now rewrite <- Hrt at 1. }
      intros H vf st. rewrite !interp_bind, Hass. cbn [interp].
      rewrite interp_bind, Hget. cbn [dispatcher]. rewrite Nat.eqb_refl.
      cbn [foldP]. rewrite !interp_bind. cbn [interp].
      destruct (interp H (ser rec (TClass c) v) true (note H (EvRegistry c) st))
        as [[[v2 vf2] st2]|]; auto.
  - destruct (cparent k) as [p|] eqn:Hp.
    + destruct (Hrp p eq_refl) as (Hpc & Hrt & (kp & Hkp) & Hsub).
      destruct (IH p) with (ex := ex) (v := v) (r := r) (i := i)
        as (r2 & Hinv2 & Hidx2 & Hlk & Hpeq); auto.
      * lia.
      * eauto.
      * now rewrite Hrt.
      * now rewrite Hrt.
      * destruct Hex as [He|[He|(He & _)]]; auto. discriminate.
      * intros Ha (c' & k' & p' & Hin & H'). apply (Hgap Ha). exists c', k', p'. auto.
      * exists r2. rewrite Hch, filter_app. cbn [filter]. rewrite Hdc, app_nil_r. auto.
    + exfalso. assert (Hrt : root E c = c) by (unfold root; now rewrite Hch).
      rewrite Hrt in Hroot. congruence.
Qed.

(** Nothing missing: the function of Registry.v. *)
Lemma decl_all : forall n c, (forall c', In c' (chain E c) -> declared c' = true) ->
  forall ex v r i,
  dyn_ser_decl E declared named o ss s rec n c i ex v r = dyn_ser E o ss s rec n c i ex v r.
Proof.
  induction n as [|n IH]; intros c Hall ex v r i; [reflexivity|].
  cbn [dyn_ser_decl dyn_ser]. destruct (cls E c) as [k|] eqn:Hk; [|reflexivity].
  rewrite (Hall c) by (apply (chain_self _ _ wf); eapply chain_nonempty; eauto).
  destruct (cparent k) as [p|] eqn:Hp; [|reflexivity].
  rewrite (Hname c k p Hk Hp), IH; [reflexivity| |].
  - intros c' Hin. apply Hall. rewrite (chain_eq _ _ wf), Hk, Hp. apply in_or_app. now left.
  - apply Hall. apply (chain_self _ _ wf); eapply chain_nonempty; eauto.
Qed.

(** The indices tell the classes of a hierarchy apart. *)
Hypothesis Hinj : forall c c', root E c = root E c' -> or_idx o c <> None ->
  or_idx o c = or_idx o c' -> c = c'.

(** Below an undeclared class the inherited function is that of another class. *)
Lemma decl_wrong : forall n c, (c < n)%nat -> forall j top v r i,
  (exists k, cls E c = Some k) -> asserts E = true -> declared (root E c) = true ->
  root E top = root E c -> (c < top)%nat -> or_idx o top = Some j ->
  peq (dyn_ser_decl E declared named o ss s rec n c i (Some j) v r) (Fail AssertErr).
Proof.
  induction n as [|n IH]; intros c Hcn j top v r i (k & Hk) Ha Hroot Hrt Hlt Hj; [lia|].
  cbn [dyn_ser_decl]. rewrite Hk.
  destruct (declared c) eqn:Hdc.
  - intros H vf st. rewrite interp_bind. unfold assert_idx. rewrite Ha. cbn [negb].
    destruct (or_idx o c) as [j'|] eqn:Ej; [|reflexivity].
    destruct (Nat.eqb j j') eqn:En; [|reflexivity]. exfalso.
    apply Nat.eqb_eq in En. subst j'. assert (top = c) by (apply Hinj; congruence). lia.
  - pose proof (chain_eq _ _ wf c) as Hch. rewrite Hk in Hch.
    destruct (cparent k) as [p|] eqn:Hp.
    + destruct (wf_parent _ _ wf c k p Hk Hp) as (Hpc & _ & kp & Hkp & _).
      assert (Hrp : root E p = root E c).
      { apply (root_in_chain _ _ wf). rewrite Hch. apply in_or_app. left.
        apply (chain_self _ _ wf). eapply chain_nonempty; eauto. }
      apply (IH p) with (top := top); eauto; try lia; congruence.
    + exfalso. assert (root E c = c) by (unfold root; now rewrite Hch). congruence.
Qed.

Lemma decl_gap : forall n c, (c < n)%nat -> forall ex v r i,
  (exists k, cls E c = Some k) -> asserts E = true -> declared (root E c) = true ->
  (forall c' k' p', In c' (chain E c) -> declared c' = true -> cls E c' = Some k' ->
     cparent k' = Some p' -> or_idx o p' <> None) ->
  gap E declared c ->
  peq (dyn_ser_decl E declared named o ss s rec n c i ex v r) (Fail AssertErr).
Proof.
  induction n as [|n IH]; intros c Hcn ex v r i (k & Hk) Ha Hroot Hobj Hgap; [lia|].
  cbn [dyn_ser_decl]. rewrite Hk.
  pose proof (chain_eq _ _ wf c) as Hch. rewrite Hk in Hch.
  destruct (cparent k) as [p|] eqn:Hp.
  2:{ exfalso. destruct Hgap as (c' & k' & p' & Hin & _ & Hk' & Hp' & _).
      rewrite Hch in Hin. destruct Hin as [<-|[]]. congruence. }
  destruct (wf_parent _ _ wf c k p Hk Hp) as (Hpc & _ & kp & Hkp & _).
  assert (Hsp : In p (chain E p)) by (apply (chain_self _ _ wf); eapply chain_nonempty; eauto).
  assert (Hsub : forall x, In x (chain E p) -> In x (chain E c))
    by (intros x Hx; rewrite Hch; apply in_or_app; now left).
  assert (Hrp : root E p = root E c) by (apply (root_in_chain _ _ wf); auto).
  assert (Hup : gap E declared p \/ (declared c = true /\ declared p = false)).
  { destruct Hgap as (c' & k' & p' & Hin & Hd' & Hk' & Hp' & Hu).
    rewrite Hch in Hin. apply in_app_or in Hin. destruct Hin as [Hin|[<-|[]]].
    - left. exists c', k', p'. auto.
    - right. split; auto. congruence. }
  assert (Hrec : forall ex' r', gap E declared p ->
    peq (dyn_ser_decl E declared named o ss s rec n p i ex' v r') (Fail AssertErr)).
  { intros ex' r' Hg. apply IH; auto; [lia|eauto|congruence|].
    intros c' k' p' Hin. apply Hobj; auto. }
  destruct (declared c) eqn:Hdc.
  - intros H vf st. rewrite interp_bind.
    assert (Hass : forall (K : res (unit * bool * state H)),
       interp H (assert_idx E o c ex) vf st = K ->
       K = Ok (tt, vf, st) \/ K = Err AssertErr).
    { intros K <-. unfold assert_idx. destruct ex as [j|]; [|now left].
      destruct (or_idx o c); [destruct (_ || _)|destruct (asserts E)]; cbn; auto. }
    destruct (Hass _ eq_refl) as [-> | ->]; [|reflexivity].
    rewrite interp_bind, (Hname c k p Hk Hp Hdc).
    assert (HF : peq (dyn_ser_decl E declared named o ss s rec n p i (or_idx o p) v
                    (link_all (root E) ss r c)) (Fail AssertErr)).
    { destruct Hup as [Hg|(_ & Hu)]; [apply Hrec; auto|].
      destruct (or_idx o p) as [j|] eqn:Ej; [|exfalso; apply (Hobj c k p); auto; apply (chain_self _ _ wf); eapply chain_nonempty; eauto].
      destruct n as [|n]; [lia|]. cbn [dyn_ser_decl]. rewrite Hkp, Hu.
      pose proof (chain_eq _ _ wf p) as Hchp. rewrite Hkp in Hchp.
      destruct (cparent kp) as [q|] eqn:Hq.
      + destruct (wf_parent _ _ wf p kp q Hkp Hq) as (Hqp & _ & kq & Hkq & _).
        assert (Hrq : root E q = root E p).
        { apply (root_in_chain _ _ wf). rewrite Hchp. apply in_or_app. left.
          apply (chain_self _ _ wf). eapply chain_nonempty; eauto. }
        apply decl_wrong with (top := p); eauto; try lia; congruence.
      + exfalso. assert (root E p = p) by (unfold root; now rewrite Hchp). congruence. }
    now rewrite HF.
  - destruct Hup as [Hg|(Hu & _)]; [|discriminate]. apply Hrec; auto.
Qed.
End Decl.

Lemma recorded_last : forall F E declared, wf_env F E -> forall n c, (c < n)%nat ->
  (exists k, cls E c = Some k) -> declared (root E c) = true ->
  exists q, recorded_class E declared n c = Some q /\ declared q = true /\
    exists l, filter declared (chain E c) = l ++ [q].
Proof.
  intros F E declared wf. induction n as [|n IH]; intros c Hcn (k & Hk) Hroot; [lia|].
  cbn [recorded_class]. pose proof (chain_eq _ _ wf c) as Hch. rewrite Hk in Hch.
  destruct (declared c) eqn:Hdc.
  - exists c. split; auto. split; auto. rewrite Hch. destruct (cparent k) as [p|].
    + exists (filter declared (chain E p)). rewrite filter_app. cbn [filter]. now rewrite Hdc.
    + exists []. cbn [filter]. now rewrite Hdc.
  - rewrite Hk. destruct (cparent k) as [p|] eqn:Hp.
    + destruct (wf_parent _ _ wf c k p Hk Hp) as (Hpc & _ & kp & Hkp & _).
      assert (Hrp : root E p = root E c).
      { apply (root_in_chain _ _ wf). rewrite Hch. apply in_or_app. left.
        apply (chain_self _ _ wf). eapply chain_nonempty; eauto. }
      destruct (IH p) as (q & H1 & H2 & l & H3); [lia|eauto|congruence|].
      exists q. split; auto. split; auto. exists l.
      rewrite Hch, filter_app. cbn [filter]. now rewrite Hdc, app_nil_r.
    + exfalso. assert (root E c = c) by (unfold root; now rewrite Hch). congruence.
Qed.

Lemma undeclared_gap : forall F E declared, wf_env F E -> forall d c,
  declared d = true -> In c (chain E d) -> declared c = false -> gap E declared d.
Proof.
  intros F E declared wf d. induction d as [d IH] using lt_wf_ind. intros c Hd Hin Hc.
  assert (Hself : In d (chain E d)).
  { apply (chain_self _ _ wf). intros H0. rewrite H0 in Hin. destruct Hin. }
  apply (chain_in_inv _ _ wf) in Hin.
  destruct Hin as [(-> & _)|(k & p & Hk & Hp & Hlt & Hin)]; [congruence|].
  destruct (declared p) eqn:Hdp.
  - destruct (IH p Hlt c Hdp Hin Hc) as (c' & k' & p' & Hin' & Hr).
    exists c', k', p'. split; auto. pose proof (chain_eq _ _ wf d) as Hch.
    rewrite Hk, Hp in Hch. rewrite Hch. apply in_or_app. now left.
  - exists d, k, p. auto.
Qed.

Lemma or_idx_none : forall base l c, ~ In c l -> or_idx (oregs_of base l) c = None.
Proof.
  intros base l c. induction l as [|x l IH] using rev_ind; intros H; [reflexivity|].
  rewrite oregs_snoc. cbn [or_idx oreg_add]. unfold set_fun. destruct (Nat.eqb_spec c x) as [->|_].
  - exfalso. apply H. apply in_or_app. right. now left.
  - apply IH. intros Hin. apply H. apply in_or_app. now left.
Qed.

(** The serialize functions of a list of polymorphic classes. *)
Lemma fold_calls : forall F E, wf_env F E -> no_bytewise_virtual E -> forall m f cs v,
  (forall c, In c cs -> is_virtual E (TClass c) = true) ->
  runs (calls cs) false false
    (foldP (fun v c => Note (EvRegistry c) (SetV true (ser (with_ E m f) (TClass c) v))) cs v).
Proof.
  intros F E wf nobv m f cs. induction cs as [|c cs IH]; intros v Hc; cbn [foldP].
  - apply runs_ret. intros rest. reflexivity.
  - eapply runs_bind with (P := calls [c]) (b' := false).
    + eapply runs_note with (P := calls [c]).
      * intros H Hh s l a vf s' l' Hi. cbn [interp] in Hi. revert Hi.
        eapply class_calls; eauto. apply Hc. now left.
      * intros x Hx rest. apply Hx.
    + intros v'. apply IH. intros. apply Hc. now right.
    + intros x y Hx Hy. exact (calls_app [c] cs x y Hx Hy).
Qed.

(** ** C68 *)

(** What static initialisation did in a program: serializer [i] and the object
    registry know the classes they are instantiated for: the declared ones, and for
    the object registry the ones they name as their base (derived.h:70, 85). *)
Definition started (E : env) (declared : nat -> bool) (ops : list sop) (objs ss : list nat)
  (i d : nat) : Prop :=
  NoDup (regs_of ops) /\ NoDup objs /\ In i ss /\ declared (root E d) = true /\
  forall c, In c (chain E d) -> declared c = true -> In (c, i) (regs_of ops) /\ In c objs /\
    forall k p, cls E c = Some k -> cparent k = Some p -> In p objs.

(** With assertions on, an object whose class is declared is serialized only if
    every class above it is declared too: otherwise the call fails, in every mode
    and on every medium ([H], [rec]), before anything is transferred; and if they
    all are, the call is the one of Registry.v (C22, C23).
    Missing from the full statement: builds without assertions
    (C68_release_refuted), objects whose own class is not declared
    (C68_leaf_refuted) and declarations that name another class than the direct
    base (C68_name_refuted). *)
Theorem C68_reported_partial : forall E declared named ops objs ss i rec d ls,
  wf_env any E -> asserts E = true -> is_virtual E (TClass d) = true ->
  names_parent E declared named -> started E declared ops objs ss i d -> declared d = true ->
  let call := virtual_serialize_decl E declared named (oregs_of (root E) objs) ss i rec
                (VObj d ls) (run_sops (root E) ops) in
  ((exists c, In c (chain E d) /\ declared c = false) ->
     forall H vf s, interp H call vf s = Err AssertErr) /\
  ((forall c, In c (chain E d) -> declared c = true) ->
     call = virtual_serialize E (oregs_of (root E) objs) ss i rec (VObj d ls)
              (run_sops (root E) ops)).
Proof.
  intros E declared named ops objs ss i rec d ls wf Ha Hv Hname (Hn & Hno & Hss & Hrt & Hreg) Hd call.
  assert (Hk : exists k, cls E d = Some k).
  { cbn [is_virtual] in Hv. destruct (cls E d); [eauto|discriminate]. }
  assert (Hin : In (root E d) (chain E d)).
  { destruct Hk as (k & Hk). unfold root. destruct (chain E d) eqn:E1; [|now left].
    exfalso. eapply chain_nonempty; eauto. }
  assert (Hobj : forall c k p, In c (chain E d) -> declared c = true -> cls E c = Some k ->
            cparent k = Some p -> or_idx (oregs_of (root E) objs) p <> None).
  { intros c k p Hc Hdc Hkc Hp.
    destruct (or_idx_lookup (root E) objs p Hno) as (j & Hj & _); [|congruence].
    now apply (proj2 (proj2 (Hreg c Hc Hdc)) k). }
  assert (Hsr : forall c, In c (chain E d) -> declared c = true ->
            sr_idx (run_sops (root E) ops) c i <> None).
  { intros c Hc Hdc. apply run_idx. now apply Hreg. }
  destruct (sr_idx (run_sops (root E) ops) (root E d) i) as [j|] eqn:Ej;
    [|exfalso; eapply Hsr; eauto].
  split.
  - intros (c & Hc & Hu) H vf s. unfold call, virtual_serialize_decl. rewrite Ej.
    rewrite (decl_gap any E wf declared named Hname (oregs_of (root E) objs) ss i rec); auto.
    + intros c1 c2 Hr Hsome He.
      destruct (in_dec Nat.eq_dec c1 objs) as [H1|H1].
      2:{ exfalso. apply Hsome. now apply or_idx_none. }
      destruct (in_dec Nat.eq_dec c2 objs) as [H2|H2].
      2:{ exfalso. apply Hsome. rewrite He. now apply or_idx_none. }
      now apply (proj1 (proj2 (C23_objects (root E) objs Hno))).
    + eapply undeclared_gap; eauto.
  - intros Hall. unfold call, virtual_serialize_decl, virtual_serialize. rewrite Ej.
    now apply (decl_all any E wf).
Qed.
Print Assumptions C68_reported_partial.

(** In every build, and whether or not the class of the object is declared: if the
    call succeeds, the serialize functions that ran are those of the declared
    classes, each once and root first; a pointer to the object records the last
    of them as the class to restore. *)
Theorem C68_called : forall E declared named ops objs ss i H m f d ls s v' r' vf s',
  wf_env any E -> no_bytewise_virtual E -> honest H -> is_virtual E (TClass d) = true ->
  names_parent E declared named -> started E declared ops objs ss i d ->
  let call := virtual_serialize_decl E declared named (oregs_of (root E) objs) ss i
                (with_ E m f) (VObj d ls) (run_sops (root E) ops) in
  interp H call false s = Ok ((v', r'), vf, s') ->
  exists log q before,
    interp (logger H) call false (s, []) = Ok ((v', r'), vf, (s', log)) /\
    outer 0 log = filter declared (chain E d) /\
    recorded_class E declared (S d) d = Some q /\
    filter declared (chain E d) = before ++ [q].
Proof.
  intros E declared named ops objs ss i H m f d ls s v' r' vf s' wf nobv Hh Hv Hname Hst call Hi.
  pose proof Hst as (Hn & Hno & Hss & Hrt & Hreg).
  assert (Hk : exists k, cls E d = Some k).
  { cbn [is_virtual] in Hv. destruct (cls E d); [eauto|discriminate]. }
  assert (Hin : In (root E d) (chain E d)).
  { destruct Hk as (k & Hk). unfold root. destruct (chain E d) eqn:E1; [|now left].
    exfalso. eapply chain_nonempty; eauto. }
  assert (Hobj : forall c k p, In c (chain E d) -> declared c = true -> cls E c = Some k ->
            cparent k = Some p -> or_idx (oregs_of (root E) objs) p <> None).
  { intros c k p Hc Hdc Hkc Hp.
    destruct (or_idx_lookup (root E) objs p Hno) as (j & Hj & _); [|congruence].
    now apply (proj2 (proj2 (Hreg c Hc Hdc)) k). }
  assert (Hsr : forall c, In c (chain E d) -> declared c = true ->
            sr_idx (run_sops (root E) ops) c i <> None).
  { intros c Hc Hdc. apply run_idx. now apply Hreg. }
  destruct (sr_idx (run_sops (root E) ops) (root E d) i) as [j|] eqn:Ej;
    [|exfalso; eapply Hsr; eauto].
  pose proof (logger_faithful H _ call false s []) as L. rewrite Hi in L.
  destruct L as (log & L). cbn [app] in L.
  destruct (recorded_last any E declared wf (S d) d) as (q & Hq & _ & before & Hb); auto.
  exists log, q, before. split; auto. split; [|auto].
  assert (Hgap : asserts E = true -> ~ gap E declared d).
  { intros Ha Hg. unfold call, virtual_serialize_decl in Hi. rewrite Ej in Hi.
    rewrite (decl_gap any E wf declared named Hname (oregs_of (root E) objs) ss i (with_ E m f)) in Hi;
      auto; [discriminate|].
    intros c1 c2 Hr Hsome He.
    destruct (in_dec Nat.eq_dec c1 objs) as [H1|H1].
    2:{ exfalso. apply Hsome. now apply or_idx_none. }
    destruct (in_dec Nat.eq_dec c2 objs) as [H2|H2].
    2:{ exfalso. apply Hsome. rewrite He. now apply or_idx_none. }
    now apply (proj1 (proj2 (C23_objects (root E) objs Hno))). }
  unfold call, virtual_serialize_decl in L. rewrite Ej in L.
  destruct (decl_chain any E wf declared named Hname (oregs_of (root E) objs) ss i Hss (with_ E m f) (S d) d)
    with (ex := @None nat) (v := VObj d ls) (r := run_sops (root E) ops) (i := j)
    as (r2 & _ & _ & _ & P); auto.
  { now apply run_inv. }
  rewrite P in L. apply interp_bind_inv in L. destruct L as (a & vf1 & [s1 l1] & L1 & L2).
  assert (Hvc : forall c, In c (filter declared (chain E d)) -> is_virtual E (TClass c) = true).
  { intros c Hc. apply filter_In in Hc. eapply chain_v; [exact wf| |exact (proj1 Hc)]. exact Hv. }
  destruct (fold_calls any E wf nobv m f _ _ Hvc H Hh _ _ _ _ _ _ L1) as (-> & x & -> & Hx).
  cbn [interp] in L2. inversion L2; subst. specialize (Hx []).
  cbn [app outer] in *. now rewrite !app_nil_r in Hx.
Qed.
Print Assumptions C68_called.

(** Ring : Circle : Shape with everything declared; with the class in the middle
    missing, in a build with assertions: reported in all modes. *)
Definition ex_ops : list sop := [SReg 3 1; SReg 2 1; SReg 2 0; SReg 3 0; SReg 1 0; SReg 1 1]%nat.
Definition ex_named (c : nat) : nat := match c with 3 => 2 | _ => 1 end%nat.
Definition without (l : list nat) (c : nat) : bool := negb (existsb (Nat.eqb c) l).
(** The call for a Ring in mode [m], as seen by the logging serializer [H]. *)
Definition ring_call (E : env) (missing : list nat) (named : nat -> nat) (m : mode) (v : val) :=
  virtual_serialize_decl E (without missing) named (oregs_of (root E) [3; 1; 2]%nat) [0; 1]%nat 1
    (with_ E m 12) v (run_sops (root E) ex_ops).

Lemma ex_named_parent : forall a b d declared, names_parent (ex_with a b d) declared ex_named.
Proof.
  intros a b d declared c k p Hk Hp _.
  do 14 (destruct c as [|c]; [cbn in Hk; try destruct a; inversion Hk; subst; cbn in Hp;
    inversion Hp; reflexivity|]).
  discriminate.
Qed.
Lemma ex_started : forall a b d missing, without missing 1 = true ->
  started (ex_with a b d) (without missing) ex_ops [3; 1; 2]%nat [0; 1]%nat 1 3.
Proof.
  intros a b d missing H1. split; [|split; [|split; [|split]]].
  - cbn. repeat (constructor; [cbn; intuition congruence|]). constructor.
  - repeat (constructor; [cbn; intuition congruence|]). constructor.
  - cbn. auto.
  - exact H1.
  - intros c Hc. assert (Hin : In c [1; 2; 3]%nat) by exact Hc.
    cbn in Hin. intros _. destruct Hin as [<-|[<-|[<-|[]]]]; (split; [cbn; auto 10|]);
      (split; [cbn; auto|]); intros k p Hk Hp; cbn in Hk; inversion Hk; subst; cbn in Hp;
      inversion Hp; cbn; auto.
Qed.

Example C68_case : forall b,
  let E := ex_plain b in
  let bs := bytes_of (serialize E 12 (TClass 1) v_ring None) in
  is_virtual E (TClass 3) = true /\ asserts E = true /\
  names_parent E (without []) ex_named /\ names_parent E (without [2]%nat) ex_named /\
  started E (without []) ex_ops [3; 1; 2]%nat [0; 1]%nat 1 3 /\
  started E (without [2]%nat) ex_ops [3; 1; 2]%nat [0; 1]%nat 1 3 /\
  seen (interp (logger sizer) (ring_call E [] ex_named MSizing v_ring) false (0, []))
    = Some [1; 2; 3]%nat /\
  interp sizer (ring_call E [2]%nat ex_named MSizing v_ring) false 0 = Err AssertErr /\
  interp packer (ring_call E [2]%nat ex_named MPacking v_ring) false
    {| p_buf := zeros 700; p_cur := 0; p_used := 0 |} = Err AssertErr /\
  interp unpacker (ring_call E [2]%nat ex_named MUnpacking v_ring) false
    {| u_buf := bs; u_cur := 0; u_used := 0 |} = Err AssertErr /\
  recorded_class E (without [2]%nat) 4 3 = Some 3%nat.
Proof.
  intros b. cbv zeta. split; [reflexivity|]. split; [reflexivity|].
  split; [apply ex_named_parent|]. split; [apply ex_named_parent|].
  split; [now apply ex_started|]. split; [now apply ex_started|].
  destruct b; repeat (split; [vm_compute; reflexivity|]); vm_compute; reflexivity.
Qed.

(** What a packing run wrote. *)
Definition wrote {A} (r : res (A * bool * state packer)) : option bytes :=
  match r with Ok (_, _, p) => Some (p_buf p) | Err _ => None end.
Definition pack_ring (E : env) (missing : list nat) (named : nat -> nat) (v : val) : option bytes :=
  wrote (interp packer (ring_call E missing named MPacking v) false
    {| p_buf := zeros 700; p_cur := 0; p_used := 0 |}).

(** The class of the object itself is not declared: its members are left out
    without an error, with assertions on, and the object is restored as one of
    its base class. *)
Theorem C68_leaf_refuted : exists E declared named ops objs ss i d,
  asserts E = true /\ is_virtual E (TClass d) = true /\ names_parent E declared named /\
  started E declared ops objs ss i d /\ (exists c, In c (chain E d) /\ declared c = false) /\
  exists l1 l2 y, VObj d l1 <> VObj d l2 /\
    (forall l, In l [l1; l2] -> wrote (interp packer (virtual_serialize_decl E declared named
       (oregs_of (root E) objs) ss i (with_ E MPacking 12) (VObj d l) (run_sops (root E) ops)) false
       {| p_buf := zeros 700; p_cur := 0; p_used := 0 |}) = Some y) /\
    recorded_class E declared (S d) d <> Some d.
Proof.
  exists (ex_plain true), (without [3]%nat), ex_named, ex_ops, [3; 1; 2]%nat, [0; 1]%nat, 1%nat, 3%nat.
  split; [reflexivity|]. split; [reflexivity|]. split; [apply ex_named_parent|].
  split; [now apply ex_started|].
  split; [exists 3%nat; split; [vm_compute; auto|reflexivity]|].
  destruct (pack_ring (ex_plain true) [3]%nat ex_named v_ring) as [y|] eqn:Ey; [|vm_compute in Ey; discriminate].
  exists [[w4 1; s_ab]; [w8 2; VSeq [VSeq [w4 5; s_long]; VSeq [w4 9; s_ab]]]; [VOpt (Some (w4 3))]],
    [[w4 1; s_ab]; [w8 2; VSeq [VSeq [w4 5; s_long]; VSeq [w4 9; s_ab]]]; [VOpt (Some (w4 4))]], y.
  split; [discriminate|]. split; [|discriminate].
  intros l [<-|[<-|[]]]; rewrite <- Ey; vm_compute; reflexivity.
Qed.
Print Assumptions C68_leaf_refuted.

(** In a build without assertions the same happens to a class in the middle. *)
Theorem C68_release_refuted : exists E declared named ops objs ss i d,
  asserts E = false /\ is_virtual E (TClass d) = true /\ names_parent E declared named /\
  started E declared ops objs ss i d /\ declared d = true /\
  (exists c, In c (chain E d) /\ declared c = false) /\
  exists l1 l2 y, VObj d l1 <> VObj d l2 /\
    (forall l, In l [l1; l2] -> wrote (interp packer (virtual_serialize_decl E declared named
       (oregs_of (root E) objs) ss i (with_ E MPacking 12) (VObj d l) (run_sops (root E) ops)) false
       {| p_buf := zeros 700; p_cur := 0; p_used := 0 |}) = Some y).
Proof.
  exists (ex_release true), (without [2]%nat), ex_named, ex_ops, [3; 1; 2]%nat, [0; 1]%nat, 1%nat, 3%nat.
  split; [reflexivity|]. split; [reflexivity|]. split; [apply ex_named_parent|].
  split; [now apply ex_started|]. split; [reflexivity|].
  split; [exists 2%nat; split; [vm_compute; auto|reflexivity]|].
  destruct (pack_ring (ex_release true) [2]%nat ex_named v_ring) as [y|] eqn:Ey; [|vm_compute in Ey; discriminate].
  exists [[w4 1; s_ab]; [w8 2; VSeq [VSeq [w4 5; s_long]; VSeq [w4 9; s_ab]]]; [VOpt (Some (w4 3))]],
    [[w4 1; s_ab]; [w8 77; VSeq []]; [VOpt (Some (w4 3))]], y.
  split; [discriminate|].
  intros l [<-|[<-|[]]]; rewrite <- Ey; vm_compute; reflexivity.
Qed.
Print Assumptions C68_release_refuted.

(** A declaration that names the class above the direct base skips the direct base
    without an error, with assertions on and every class declared. *)
Theorem C68_name_refuted : exists E named ops objs ss i d,
  asserts E = true /\ is_virtual E (TClass d) = true /\
  (forall c, In c (chain E d) -> c <> root E d -> In (named c) (chain E d) /\ named c <> c) /\
  started E (fun _ => true) ops objs ss i d /\
  exists l1 l2 y, VObj d l1 <> VObj d l2 /\
    (forall l, In l [l1; l2] -> wrote (interp packer (virtual_serialize_decl E (fun _ => true) named
       (oregs_of (root E) objs) ss i (with_ E MPacking 12) (VObj d l) (run_sops (root E) ops)) false
       {| p_buf := zeros 700; p_cur := 0; p_used := 0 |}) = Some y).
Proof.
  exists (ex_plain true), (fun _ => 1%nat), ex_ops, [3; 1; 2]%nat, [0; 1]%nat, 1%nat, 3%nat.
  split; [reflexivity|]. split; [reflexivity|]. split.
  { intros c Hc Hr. assert (Hin : In c [1; 2; 3]%nat) by exact Hc.
    split; [vm_compute; auto|]. intros <-. now apply Hr. }
  split; [exact (ex_started false true true [] eq_refl)|].
  destruct (pack_ring (ex_plain true) [] (fun _ => 1%nat) v_ring) as [y|] eqn:Ey; [|vm_compute in Ey; discriminate].
  exists [[w4 1; s_ab]; [w8 2; VSeq [VSeq [w4 5; s_long]; VSeq [w4 9; s_ab]]]; [VOpt (Some (w4 3))]],
    [[w4 1; s_ab]; [w8 77; VSeq []]; [VOpt (Some (w4 3))]], y.
  split; [discriminate|].
  intros l [<-|[<-|[]]]; rewrite <- Ey; vm_compute; reflexivity.
Qed.
Print Assumptions C68_name_refuted.
