(** Facts on the functions of Pointers.v. *)
From Coq Require Import List NArith Arith Bool Lia.
From Coq.Strings Require Import Byte.
From Verif Require Import Base Syntax Prog Serializers Traverse Spec ProgFacts EnvFacts ValFacts
  Fails RegistryFacts Pack Unpack ApiFacts Views ViewSpec ViewFacts ViewRound CrsFacts Pointers
  PointersSpec.
Import ListNotations.
Local Open Scope N_scope.

(** The index of the dynamic class of the object a pointer points to *)
Definition widx (E : env) (t : ty) (v : val) : bytes :=
  if is_virtual E t then
    match v with
    | VObj d _ => match obj_idx E d with Some i => wint E (N.of_nat i) | None => [] end
    | _ => []
    end
  else [].

Definition wpointer (E : env) (k : member) (p : option val) : bytes :=
  match p with
  | None => if p_shared k then [] else wbool E true
  | Some v => (if p_shared k then [] else wbool E false) ++ widx E (p_ty k) v ++ enc E (p_ty k) v
  end.

Section Facts.
Variable E : env.
Hypothesis wf : wf_env any E.
Variable f : nat.
Hypothesis Hf : (1 < f)%nat.

Lemma unique_inv : forall t v, has_ty E (TUnique t) (VOpt (Some v)) ->
  (is_virtual E t = false /\ constructible E t /\ has_ty E t v) \/
  (exists c d i ls, t = TClass c /\ v = VObj d ls /\ is_virtual E (TClass c) = true /\
     In c (chain E d) /\ obj_idx E d = Some i /\ N.of_nat i < 2 ^ 31 /\ root E d = root E c /\
     constructible E (TClass d) /\ has_ty E (TClass d) (VObj d ls)).
Proof.
  intros t v H. inversion H; subst.
  - left. auto.
  - right. do 4 eexists. repeat split; eauto.
Qed.

Section Emit.
Variable m : mode.
Hypothesis Hm : m = MPacking \/ m = MSizing.
Local Notation rec := (with_ E m f).
Let P := proj1 (pack_all any E wf m Hm f).

Lemma e_pointed : forall t v, has_ty E (TUnique t) (VOpt (Some v)) ->
  emits (reconstruct_pointed E m rec t (Some v)) false (Some v) false (widx E t v).
Proof.
  intros t v Hv. unfold widx.
  destruct (unique_inv _ _ Hv) as [(Hvir & _ & _) | (c & d & i & ls & -> & -> & Hvir & _ & Hidx & Hi & _)].
  - rewrite Hvir.
    assert (Hr : reconstruct_pointed E m rec t (Some v) = Ret (Some v)).
    { unfold reconstruct_pointed. destruct t; auto. now rewrite Hvir. }
    rewrite Hr. apply emits_ret.
  - rewrite Hvir, Hidx.
    unfold reconstruct_pointed. rewrite Hvir. unfold ser_virtual_type.
    rewrite (m_fp m Hm), (m_unp m Hm). unfold dyn_type_idx. rewrite Hidx.
    cbn [option_map of_opt bind].
    eapply emits_eq; [|apply app_nil_r]. eapply emits_bind.
    + eapply emits_eq; [|apply app_nil_r].
      eapply emits_bind; [apply (p_ser_int E rec f P); auto; lia|].
      cbn beta. rewrite N.eqb_refl. apply emits_ret.
    + apply emits_ret.
Qed.

Lemma unique_holds : forall t v, has_ty E (TUnique t) (VOpt (Some v)) -> holds E t v.
Proof.
  intros t v Hv.
  destruct (unique_inv _ _ Hv) as [(_ & _ & H) | (c & d & i & ls & -> & -> & ? & ? & ? & ? & ? & ? & ?)].
  - now constructor.
  - now apply HoldsDyn.
Qed.

Lemma e_follow : forall t v, has_ty E (TUnique t) (VOpt (Some v)) -> (depth v < f)%nat ->
  emits (follow rec t (Some v)) false (Some v) false (enc E t v).
Proof.
  intros t v Hv Hd. unfold follow. eapply emits_eq; [|apply app_nil_r].
  eapply emits_bind; [apply (p_ser E rec f P); auto using unique_holds|]. apply emits_ret.
Qed.

Lemma e_pointer : forall k p, has_ty E (TUnique (p_ty k)) (VOpt p) ->
  (p_shared k = true -> p <> None) ->
  match p with Some v => (depth v < f)%nat | None => True end ->
  emits (if p_shared k then ser_shared E m rec (p_ty k) p else ser_raw E m rec (p_ty k) p)
    false p false (wpointer E k p).
Proof.
  intros k p Hp Hn Hd. unfold wpointer. destruct (p_shared k).
  - destruct p as [v|]; [|now destruct Hn]. unfold ser_shared. cbn [app].
    eapply emits_bind; [now apply e_pointed|]. rewrite (m_unp m Hm). cbn [bind].
    now apply e_follow.
  - unfold ser_raw. destruct p as [v|].
    + eapply emits_bind; [apply (p_ser_bool E rec f P); auto|]. cbn beta iota.
      eapply emits_bind; [now apply e_pointed|]. now apply e_follow.
    + eapply emits_eq; [|apply app_nil_r].
      eapply emits_bind; [apply (p_ser_bool E rec f P); auto|]. apply emits_ret.
Qed.

Lemma e_members : forall ms ps, Forall2 (pointer_ok E f) ms ps ->
  emits (ser_members E m rec ms ps) false ps false
    (concat (map (fun kp => wpointer E (fst kp) (snd kp)) (combine ms ps))).
Proof.
  intros ms ps H. induction H as [|k p ms ps (H1 & H2 & H3) H IH].
  - apply emits_ret.
  - cbn [ser_members combine map concat fst snd].
    eapply emits_bind; [now apply e_pointer|].
    eapply emits_eq; [|apply app_nil_r]. eapply emits_bind; [exact IH|]. apply emits_ret.
Qed.
End Emit.

Local Notation rec := (with_ E MUnpacking f).
Let U := proj1 (unpack_all any E wf Cany N.le Cany_any Cany_max f).

Lemma r_pointed : forall t v w, has_ty E (TUnique t) (VOpt (Some v)) ->
  target Cany E (TUnique t) (VOpt (Some v)) (VOpt w) -> (depth v < f)%nat ->
  exists q x, copy_of v x /\
    reads (reconstruct_pointed E MUnpacking rec t w) false (widx E t v) (Some q) false /\
    reads (ser rec t q) false (enc E t v) x false.
Proof.
  intros t v w Hv HT Hd. unfold widx.
  destruct (unique_inv _ _ Hv) as [(Hvir & Hc & Ht) |
    (c & d & i & ls & -> & -> & Hvir & Hin & Hidx & Hi & Hroot & Hc & Ht)].
  - rewrite Hvir.
    assert (Hw : w = None \/ exists o, w = Some o /\ target Cany E t v o).
    { inversion HT; subst; eauto. cbn [is_virtual] in *. congruence. }
    destruct Hw as [-> | (o & -> & HTo)].
    + destruct (u_construct E t) as (d & Ed & Hrd); auto.
      assert (Hrp : reconstruct_pointed E MUnpacking rec t None =
                    bind (construct E t) (fun o => Ret (Some o))).
      { unfold reconstruct_pointed. destruct t; auto. now rewrite Hvir. }
      destruct (u_ser E Cany N.le rec f U t v d) as (x & Hsx & Hrx); auto;
        [now constructor|apply TgtTy; eapply recon_tgt; eauto using Cany_any|].
      exists d, x. split; auto. split; auto. rewrite Hrp.
      change ([] : bytes) with (([] : bytes) ++ []).
      eapply reads_bind; [apply Hrd|apply reads_ret].
    + assert (Hrp : reconstruct_pointed E MUnpacking rec t (Some o) = Ret (Some o)).
      { unfold reconstruct_pointed. destruct t; auto. now rewrite Hvir. }
      destruct (u_ser E Cany N.le rec f U t v o) as (x & Hsx & Hrx); auto;
        [now constructor|now apply TgtTy|].
      exists o, x. split; auto. split; auto. rewrite Hrp. apply reads_ret.
  - rewrite Hvir, Hidx.
    assert (Hi32 : N.of_nat i < 2 ^ 32) by lia.
    assert (Hw : w = None \/ exists ls', w = Some (VObj d ls') /\
                   target Cany E (TClass d) (VObj d ls) (VObj d ls')).
    { inversion HT; subst; eauto. congruence. }
    assert (Hpt : exists ls', target Cany E (TClass d) (VObj d ls) (VObj d ls') /\
      reads (reconstruct_pointed E MUnpacking rec (TClass c) w) false (wint E (N.of_nat i))
          (Some (VObj d ls')) false).
    { destruct Hw as [-> | (ls' & -> & HT')].
      - unfold constructible in Hc. destruct (recon E (TClass d)) as [o|] eqn:Eo; [|congruence].
        pose proof (recon_tgt any E wf Cany Cany_any _ _ _ Ht Eo) as HTo.
        assert (exists ls', o = VObj d ls') as (ls' & ->).
        { inversion HTo; subst; eauto.
          destruct (has_obj_cls any E wf _ _ Ht) as (k' & Hk' & Hb'). congruence. }
        exists ls'. split; auto.
        unfold reconstruct_pointed. rewrite Hvir. unfold ser_virtual_type.
        cbn [is_footprinting is_unpacking bind].
        eapply reads_eq; [|apply app_nil_r]. eapply reads_bind.
        { eapply reads_eq; [|apply app_nil_r].
          eapply reads_bind; [apply (u_int E Cany N.le rec f U); [exact Hi32|lia]|].
          apply reads_ret. }
        cbn beta iota. unfold construct_concrete. rewrite Nat2N.id.
        assert (Hnth : nth_error (oreg E (root E c)) i = Some d).
        { unfold obj_idx in Hidx. rewrite Hroot in Hidx. revert Hidx. clear. revert i.
          induction (oreg E (root E c)); intros i H; cbn in H; [discriminate|].
          destruct (Nat.eqb a d) eqn:Ea.
          - apply Nat.eqb_eq in Ea. inversion H; subst. reflexivity.
          - destruct (index_of d l); cbn in H; [|discriminate]. inversion H; subst. cbn. auto. }
        rewrite Hnth, Eo. cbn [bind]. apply reads_note.
        assert (Hex : existsb (Nat.eqb c) (chain E d) = true).
        { apply existsb_exists. exists c. split; auto. apply Nat.eqb_refl. }
        rewrite Hex. cbn [bind]. apply reads_ret.
      - exists ls'. split; auto. unfold reconstruct_pointed. rewrite Hvir. unfold ser_virtual_type.
        cbn [is_footprinting is_unpacking bind].
        eapply reads_eq; [|apply app_nil_r]. eapply reads_bind.
        { eapply reads_eq; [|apply app_nil_r].
          eapply reads_bind; [apply (u_int E Cany N.le rec f U); [exact Hi32|lia]|].
          cbn [dyn_type_idx]. rewrite Hidx. cbn [option_map of_opt bind]. rewrite N.eqb_refl.
          apply reads_ret. }
        apply reads_ret. }
    destruct Hpt as (ls' & HT' & Hr).
    destruct (u_ser E Cany N.le rec f U (TClass c) (VObj d ls) (VObj d ls')) as (x & Hsx & Hrx); auto.
    { now apply HoldsDyn. }
    { now apply TgtDyn. }
    exists (VObj d ls'), x. auto.
Qed.

Lemma r_pointer : forall k p w, pointer_ok E f k p -> over E k p w ->
  exists x, pointer_copy p x /\
    reads (if p_shared k then ser_shared E MUnpacking rec (p_ty k) w
           else ser_raw E MUnpacking rec (p_ty k) w) false (wpointer E k p) x false.
Proof.
  intros k p w (Hp & Hn & Hd) Ho. unfold wpointer, over in *. destruct p as [v|].
  - destruct (r_pointed (p_ty k) v w) as (q & x & Hx & H1 & H2); auto.
    { destruct (p_shared k); auto. subst w. apply TgNull. }
    exists (Some x). split; [now constructor|].
    assert (Hfo : reads (follow rec (p_ty k) (Some q)) false (enc E (p_ty k) v) (Some x) false).
    { unfold follow. eapply reads_eq; [|apply app_nil_r]. eapply reads_bind; [exact H2|].
      apply reads_ret. }
    destruct (p_shared k).
    + subst w. unfold ser_shared. cbn [app]. eapply reads_bind; [exact H1|].
      cbn [is_unpacking bind]. exact Hfo.
    + unfold ser_raw.
      eapply reads_bind; [apply (u_bool E Cany N.le rec f U) with (b := false); lia|].
      cbn beta iota. eapply reads_bind; [exact H1|]. exact Hfo.
  - subst w. exists None. split; [constructor|]. destruct (p_shared k); [now destruct Hn|].
    unfold ser_raw. eapply reads_eq; [|apply app_nil_r].
    eapply reads_bind; [apply (u_bool E Cany N.le rec f U) with (b := true); lia|]. apply reads_ret.
Qed.

Lemma r_members : forall ms ps, Forall2 (pointer_ok E f) ms ps -> forall ws,
  Forall2 (fun kp w => over E (fst kp) (snd kp) w) (combine ms ps) ws ->
  exists xs, Forall2 (fun p x => pointer_copy p x) ps xs /\
    reads (ser_members E MUnpacking rec ms ws) false
      (concat (map (fun kp => wpointer E (fst kp) (snd kp)) (combine ms ps))) xs false.
Proof.
  intros ms ps H. induction H as [|k p ms ps H1 H IH]; intros ws Hw.
  - inversion Hw; subst. exists []. split; auto. apply reads_ret.
  - cbn [combine] in Hw. inversion Hw as [|? w ? ws' Ho Hw']; subst. cbn [fst snd] in Ho.
    destruct (r_pointer k p w H1 Ho) as (x & Hx & Hr).
    destruct (IH _ Hw') as (xs & Hxs & Hrs).
    exists (x :: xs). split; auto.
    cbn [ser_members combine map concat fst snd].
    eapply reads_bind; [exact Hr|]. eapply reads_eq; [|apply app_nil_r].
    eapply reads_bind; [exact Hrs|]. apply reads_ret.
Qed.

Lemma pointers_round : forall name ms ps, Forall2 (pointer_ok E f) ms ps -> exists b,
  (stream_pointers E f name ms ps = Ok (b, ps) /\
     (len b < two64 -> serialize_pointers E f name ms ps = Ok (b, ps))) /\
  forall ws, Forall2 (fun kp w => over E (fst kp) (snd kp) w) (combine ms ps) ws ->
  exists xs, Forall2 (fun p x => pointer_copy p x) ps xs /\ forall before after,
    deserialize_pointers E f name ms (before ++ b ++ after) (length before) ws = Ok (xs, len b).
Proof.
  intros name ms ps H. eexists. split.
  - unfold stream_pointers, serialize_pointers.
    refine (both_ways _ _ (root_pointers E f MSizing name ms ps)
             (root_pointers E f MPacking name ms ps) ps ps _ _ _ _ eq_refl);
    apply e_root; auto; apply e_members; auto.
  - intros ws Hw. destruct (r_members ms ps H ws Hw) as (xs & Hxs & Hr). exists xs. split; auto.
    intros before after. apply deserialize_reads. apply r_root; auto.
Qed.

(** A null shared pointer *)
Lemma shared_null : forall H m t vf s, is_unpacking m = false ->
  interp H (ser_shared E m (with_ E m f) t None) vf s = Err UB.
Proof.
  intros H m t vf s Hm. unfold ser_shared, reconstruct_pointed, ser_virtual_type. rewrite Hm.
  destruct t; try reflexivity. destruct (is_virtual E (TClass c)); reflexivity.
Qed.

Lemma null_members : forall ms1 ps1 k ms2 ps2, Forall2 (pointer_ok E f) ms1 ps1 -> p_shared k = true ->
  forall s, interp sizer (ser_members E MSizing (with_ E MSizing f) (ms1 ++ k :: ms2) (ps1 ++ None :: ps2))
              false (wrap64 s) = Err UB.
Proof.
  intros ms1 ps1 k ms2 ps2 H Hk. induction H as [|k1 p ms ps (H1 & H2 & H3) H IH]; intros s.
  - cbn [app ser_members]. rewrite Hk, interp_bind, shared_null by reflexivity. reflexivity.
  - cbn [app ser_members]. rewrite interp_bind.
    rewrite (emits_sizer _ _ _ _ _ _ (e_pointer MSizing (or_intror eq_refl) k1 p H1 H2 H3) s).
    rewrite interp_bind, IH. reflexivity.
Qed.

Lemma null_shared : forall name ms1 ps1 k ms2 ps2, Forall2 (pointer_ok E f) ms1 ps1 ->
  p_shared k = true ->
  serialize_pointers E f name (ms1 ++ k :: ms2) (ps1 ++ None :: ps2) = Err UB.
Proof.
  intros name ms1 ps1 k ms2 ps2 H Hk. unfold serialize_pointers, serialize_object.
  assert (Hn : forall s, interp sizer (ser_members E MSizing (with_ E MSizing f)
    (ms1 ++ k :: ms2) (ps1 ++ None :: ps2)) false (wrap64 s) = Err UB) by now apply null_members.
  assert (Hi : interp sizer (root_pointers E f MSizing name (ms1 ++ k :: ms2) (ps1 ++ None :: ps2))
                 false 0 = Err UB); [|now rewrite Hi].
  unfold root_pointers, root_object, as_object.
  assert (Ht : emits (with_type_idx E MSizing name) false tt false (le 4 (tix E name))).
  { unfold with_type_idx. eapply emits_eq; [apply emits_contig; apply emits_ret|apply app_nil_r]. }
  pose proof (emits_sizer _ _ _ _ _ _ Ht 0) as Hs. change (wrap64 0) with 0 in Hs.
  destruct (chk E); rewrite interp_bind, Hs, interp_bind.
  - rewrite (interp_catch_err _ _ _ _ _ _ UB); auto. discriminate.
  - now rewrite Hn.
Qed.

(** Unpacking over a shared pointer that is not null *)
Lemma f_shared : forall t v o, has_ty E (TUnique t) (VOpt (Some v)) ->
  target Cany E (TUnique t) (VOpt (Some v)) (VOpt (Some o)) -> (depth v < f)%nat ->
  fails (ser_shared E MUnpacking rec t (Some o)) false (widx E t v) UB.
Proof.
  intros t v o Hv HT Hd. destruct (r_pointed t v (Some o) Hv HT Hd) as (q & x & _ & H1 & _).
  unfold ser_shared. eapply fails_eq; [|apply app_nil_r]. eapply fails_bind_r; [exact H1|].
  cbn [is_unpacking bind]. apply fails_fail.
Qed.

Lemma f_members : forall ms1 ps1 ws1 k v o ms2 ps2 ws2, Forall2 (pointer_ok E f) ms1 ps1 ->
  Forall2 (fun kp w => over E (fst kp) (snd kp) w) (combine ms1 ps1) ws1 ->
  pointer_ok E f k (Some v) -> p_shared k = true ->
  target Cany E (TUnique (p_ty k)) (VOpt (Some v)) (VOpt (Some o)) ->
  exists i r, concat (map (fun kp => wpointer E (fst kp) (snd kp))
                        (combine (ms1 ++ k :: ms2) (ps1 ++ Some v :: ps2))) = i ++ r /\
    fails (ser_members E MUnpacking rec (ms1 ++ k :: ms2) (ws1 ++ Some o :: ws2)) false i UB.
Proof.
  intros ms1 ps1 ws1 k v o ms2 ps2 ws2 H Hw (Hv & _ & Hd) Hk HT. revert ws1 Hw.
  induction H as [|k1 p ms ps H1 H IH]; intros ws1 Hw.
  - inversion Hw; subst. exists (widx E (p_ty k) v).
    exists (enc E (p_ty k) v ++ concat (map (fun kp => wpointer E (fst kp) (snd kp)) (combine ms2 ps2))).
    split.
    + cbn [app combine map concat fst snd wpointer]. rewrite Hk. cbn [app]. now rewrite <- app_assoc.
    + cbn [app ser_members]. rewrite Hk. apply fails_bind_l. now apply f_shared.
  - cbn [combine] in Hw. inversion Hw as [|? w ? ws' Ho Hw']; subst. cbn [fst snd] in Ho.
    destruct (r_pointer k1 p w H1 Ho) as (x & Hx & Hr).
    destruct (IH _ Hw') as (i & r & Hi & Hfl).
    exists (wpointer E k1 p ++ i), r. split.
    + cbn [app combine map concat fst snd]. rewrite Hi. apply app_assoc.
    + cbn [app ser_members]. eapply fails_bind_r; [exact Hr|]. apply fails_bind_l. exact Hfl.
Qed.

Lemma f_root_ub : forall A t (p : prog A) i r,
  fails p false i UB -> fails (root_object E MUnpacking t p) false (wroot E t (i ++ r)) UB.
Proof.
  intros A t p i r Hp.
  assert (Hti : reads (with_type_idx E MUnpacking t) false (le 4 (tix E t)) tt false).
  { destruct (tix_ok any E wf t) as (Hu & Hval).
    unfold with_type_idx. eapply reads_eq; [|apply app_nil_r].
    apply reads_contig; [now rewrite !le_length|].
    cbn zeta. rewrite Hu, Hval, N.eqb_refl. apply reads_ret. }
  unfold root_object, wroot, as_object, framed. destruct (chk E) eqn:Ec.
  - eapply fails_bind_r; [exact Hti|]. rewrite <- app_assoc. apply fails_more.
    apply fails_bind_l. exact (fails_catch _ _ _ _ _ _ Hp).
  - eapply fails_bind_r; [exact Hti|]. rewrite <- app_assoc. apply fails_more.
    now apply fails_bind_l.
Qed.

Lemma shared_in_place : forall name ms1 ps1 ws1 k v o ms2 ps2 ws2,
  Forall2 (pointer_ok E f) (ms1 ++ k :: ms2) (ps1 ++ Some v :: ps2) -> length ms1 = length ps1 ->
  Forall2 (fun kp w => over E (fst kp) (snd kp) w) (combine ms1 ps1) ws1 ->
  p_shared k = true -> target Cany E (TUnique (p_ty k)) (VOpt (Some v)) (VOpt (Some o)) ->
  exists b, (stream_pointers E f name (ms1 ++ k :: ms2) (ps1 ++ Some v :: ps2) = Ok (b, ps1 ++ Some v :: ps2) /\
     (len b < two64 -> serialize_pointers E f name (ms1 ++ k :: ms2) (ps1 ++ Some v :: ps2) = Ok (b, ps1 ++ Some v :: ps2))) /\
    forall before after,
    deserialize_pointers E f name (ms1 ++ k :: ms2) (before ++ b ++ after) (length before)
      (ws1 ++ Some o :: ws2) = Err UB.
Proof.
  intros name ms1 ps1 ws1 k v o ms2 ps2 ws2 H Hlen Hw Hk HT.
  exists (wroot E name (concat (map (fun kp => wpointer E (fst kp) (snd kp))
            (combine (ms1 ++ k :: ms2) (ps1 ++ Some v :: ps2))))).
  split.
  - unfold stream_pointers, serialize_pointers.
    refine (both_ways _ _ (root_pointers E f MSizing name (ms1 ++ k :: ms2) (ps1 ++ Some v :: ps2))
             (root_pointers E f MPacking name (ms1 ++ k :: ms2) (ps1 ++ Some v :: ps2))
             (ps1 ++ Some v :: ps2) (ps1 ++ Some v :: ps2) _ _ _ _ eq_refl);
    apply e_root; auto; apply e_members; auto.
  - apply Forall2_app_inv_l in H. destruct H as (l1 & l2 & H1 & H2 & He).
    assert (Hl1 : length l1 = length ps1).
    { rewrite <- Hlen. symmetry. eapply Forall2_length; eauto. }
    assert (l1 = ps1 /\ l2 = Some v :: ps2) as (-> & ->).
    { revert He Hl1. clear. revert ps1. induction l1; intros [|p ps1] He Hl; cbn in *; try discriminate.
      - auto.
      - inversion He; subst. destruct (IHl1 ps1) as (-> & ->); auto. }
    inversion H2; subst. intros before after.
    destruct (f_members ms1 ps1 ws1 k v o ms2 ps2 ws2) as (i & r & He' & Hfl); auto.
    unfold deserialize_pointers, deserialize_object, root_pointers.
    pose proof (f_root_ub _ name _ i r Hfl) as Hr. rewrite <- He' in Hr.
    pose proof (fails_unpacker _ _ _ _ _ Hr before after 0) as H'. change (wrap64 0) with 0 in H'.
    now rewrite H'.
Qed.

(** Reading a null raw pointer over any other *)
Lemma null_keeps : forall t w,
  reads (ser_raw E MUnpacking rec t w) false (wbool E true) w false.
Proof.
  intros t w. unfold ser_raw. eapply reads_eq; [|apply app_nil_r].
  eapply reads_bind; [apply (u_bool E Cany N.le rec f U) with (b := true); lia|]. apply reads_ret.
Qed.
End Facts.
