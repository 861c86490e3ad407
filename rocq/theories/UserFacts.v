(** Facts on the functions of User.v. *)
From Coq Require Import List NArith Arith Bool Lia.
From Coq.Strings Require Import Byte.
From Verif Require Import Base Syntax Prog Serializers Traverse Spec ProgFacts EnvFacts ValFacts
  Fails RegistryFacts Pack Unpack ApiFacts Views ViewSpec ViewFacts ViewRound CrsFacts Pointers
  PointersSpec PointersFacts User UserSpec.
Import ListNotations.
Local Open Scope N_scope.

Lemma assign_same : forall X (l : list X) i x, nth_error l i = Some x -> upd l i x = l.
Proof.
  induction l; intros [|i] x H; cbn in *; try discriminate; auto.
  - now inversion H.
  - f_equal. auto.
Qed.

Lemma known_nth : forall ss ws, known ss ws -> forall i P,
  nth_error ss i = Some P -> exists w, nth_error ws i = Some w /\ (P w : Prop).
Proof.
  induction 1; intros [|i] P Hs; cbn in *; try discriminate; eauto.
  inversion Hs; subst. eauto.
Qed.

Lemma known_assign : forall ss ws, known ss ws -> forall i (P : val -> Prop) x,
  P x -> known (upd ss i P) (upd ws i x).
Proof. induction 1; intros [|i] P x0 Hx; cbn; constructor; auto. now apply IHForall2. Qed.

Definition whow (E : env) (k : how) (v : val) : bytes :=
  match k with
  | Plain t => enc E t v
  | Pointed p => match v with VOpt o => wpointer E p o | _ => [] end
  end.

Fixpoint wblock (E : env) (b : block) (fs : list val) : bytes :=
  match b with
  | Done => []
  | Then s b' =>
    match s with
    | SMember i k => match nth_error fs i with Some v => whow E k v | None => [] end
    | SLocal t get _ => enc E t (get fs)
    | SUnpack _ => []
    | SFor n i k => match nth_error fs i with
                    | Some (VSeq l) => concat (map (whow E k) l)
                    | _ => []
                    end
    end ++ wblock E b' fs
  | If c b1 b2 b' => (if c fs then wblock E b1 fs else wblock E b2 fs) ++ wblock E b' fs
  end.

Section Facts.
Variable E : env.
Hypothesis wf : wf_env any E.
Variable f : nat.
Hypothesis Hf : (1 < f)%nat.

Section Emit.
Variable m : mode.
Hypothesis Hm : m = MPacking \/ m = MSizing.
Local Notation rec := (with_ E m f).
Let P := proj1 (pack_all any E wf m Hm f).

Lemma e_how : forall k v, storable E f k v ->
  emits (ser_how E m rec k v) false v false (whow E k v).
Proof.
  intros [t|p] v H; cbn [storable ser_how whow] in *.
  - destruct H. apply (p_ser E rec f P); auto. now constructor.
  - destruct H as (o & -> & H1 & H2 & H3). eapply emits_eq; [|apply app_nil_r].
    eapply emits_bind; [now apply e_pointer|]. apply emits_ret.
Qed.

Lemma e_first : forall k vs, Forall (storable E f k) vs ->
  emits (ser_first E m rec k (length vs) vs) false vs false (concat (map (whow E k) vs)).
Proof.
  intros k vs H. induction H as [|v vs Hv H IH].
  - apply emits_ret.
  - cbn [length ser_first map concat]. eapply emits_bind; [now apply e_how|].
    eapply emits_eq; [|apply app_nil_r]. eapply emits_bind; [exact IH|]. apply emits_ret.
Qed.

Lemma e_block : forall fs ss b ss', correct E f fs ss b ss' ->
  emits (ser_block E m rec b fs) false fs false (wblock E b fs).
Proof.
  intros fs ss b ss' H.
  induction H as [ss|ss i k P0 v b ss' Hs Hv Hst HP H IH|ss i n k P0 vs b ss' Hs Hv Hst Hn HP Ha H IH
    |ss t get put ss1 b ss' Ht Hd Hp Ha1 Ha2 H IH|ss g ss1 b ss' Ha H IH
    |ss c b1 b2 ss1 b ss' Ha H1 IH1 H2 IH2]; cbn [ser_block wblock ser_stmt].
  - apply emits_ret.
  - rewrite Hv. eapply emits_bind; [|exact IH]. eapply emits_eq; [|apply app_nil_r].
    eapply emits_bind; [now apply e_how|]. cbn beta. rewrite (assign_same _ _ _ _ Hv). apply emits_ret.
  - rewrite Hv, Hn. eapply emits_bind; [|exact IH]. eapply emits_eq; [|apply app_nil_r].
    eapply emits_bind; [now apply e_first|]. cbn beta. rewrite (assign_same _ _ _ _ Hv). apply emits_ret.
  - eapply emits_bind; [|exact IH]. eapply emits_eq; [|apply app_nil_r].
    eapply emits_bind; [apply (p_ser E rec f P); auto; now constructor|]. cbn beta. rewrite Hp.
    apply emits_ret.
  - rewrite (m_unp m Hm). eapply emits_bind; [apply emits_ret|exact IH].
  - eapply emits_bind; [|exact IH2]. destruct (c fs); exact IH1.
Qed.

Lemma e_ordered : forall ks fs, Forall2 (storable E f) ks fs ->
  forall D M b D' M', ordered ks D M b D' M' ->
  emits (ser_block E m rec b fs) false fs false (wblock E b fs).
Proof.
  intros ks fs Hst D M b D' M' H.
  induction H as [D M|D M i k b D' M' Hk Hi H IH
    |D M c b1 b2 D1 M1 D2 M2 D3 M3 b D' M' Hc H1 IH1 H2 IH2 I1 I2 I3 I4 H IH];
    cbn [ser_block wblock ser_stmt].
  - apply emits_ret.
  - assert (exists v, nth_error fs i = Some v /\ storable E f k v) as (v & Hv & Hsv).
    { clear -Hst Hk. revert i Hk. induction Hst; intros [|i] Hk; cbn in *; try discriminate; eauto.
      inversion Hk; subst. eauto. }
    rewrite Hv. eapply emits_bind; [|exact IH]. eapply emits_eq; [|apply app_nil_r].
    eapply emits_bind; [now apply e_how|]. cbn beta. rewrite (assign_same _ _ _ _ Hv). apply emits_ret.
  - eapply emits_bind; [|exact IH]. destruct (c fs); [exact IH1|exact IH2].
Qed.
End Emit.

Local Notation rec := (with_ E MUnpacking f).
Let U := proj1 (unpack_all any E wf Cany N.le Cany_any Cany_max f).

Lemma r_how : forall k v w, storable E f k v -> accepts E k v w ->
  exists x, copy_of v x /\ reads (ser_how E MUnpacking rec k w) false (whow E k v) x false.
Proof.
  intros [t|p] v w H HT; cbn [storable accepts ser_how whow] in *.
  - destruct H. apply (u_ser E Cany N.le rec f U); auto; [now constructor|now apply TgtTy].
  - destruct H as (o & -> & Hp). destruct HT as (o1 & o' & He & -> & Ho).
    inversion He; subst o1.
    destruct (r_pointer E wf f Hf p o o' Hp Ho) as (x & Hx & Hr).
    exists (VOpt x). split; [exact Hx|]. eapply reads_eq; [|apply app_nil_r].
    eapply reads_bind; [exact Hr|]. apply reads_ret.
Qed.

Lemma r_first : forall k vs, Forall (storable E f k) vs -> forall ws, Forall2 (accepts E k) vs ws ->
  exists xs, Forall2 copy_of vs xs /\
    reads (ser_first E MUnpacking rec k (length vs) ws) false (concat (map (whow E k) vs)) xs false.
Proof.
  intros k vs H. induction H as [|v vs Hv H IH]; intros ws Hw; inversion Hw; subst.
  - exists []. split; [constructor|apply reads_ret].
  - destruct (r_how k v y) as (x & Hx & Hr); auto.
    destruct (IH _ H4) as (xs & Hxs & Hrs).
    exists (x :: xs). split; [now constructor|].
    cbn [length ser_first map concat]. eapply reads_bind; [exact Hr|].
    eapply reads_eq; [|apply app_nil_r]. eapply reads_bind; [exact Hrs|]. apply reads_ret.
Qed.

Lemma r_block : forall fs ss b ss', correct E f fs ss b ss' -> forall ws, known ss ws ->
  exists xs, known ss' xs /\
    reads (ser_block E MUnpacking rec b ws) false (wblock E b fs) xs false.
Proof.
  intros fs ss b ss' H.
  induction H as [ss|ss i k P0 v b ss' Hs Hv Hst HP H IH|ss i n k P0 vs b ss' Hs Hv Hst Hn HP Ha H IH
    |ss t get put ss1 b ss' Ht Hd Hp Ha1 Ha2 H IH|ss g ss1 b ss' Ha H IH
    |ss c b1 b2 ss1 b ss' Ha H1 IH1 H2 IH2]; intros ws Hw; cbn [ser_block wblock ser_stmt].
  - exists ws. split; auto. apply reads_ret.
  - destruct (known_nth _ _ Hw _ _ Hs) as (w & Hwi & Hfit). apply HP in Hfit.
    destruct (r_how k v w Hst Hfit) as (x & Hx & Hr).
    destruct (IH (upd ws i x)) as (xs & Hxs & Hrs).
    { now apply known_assign. }
    exists xs. split; auto. rewrite Hv, Hwi. eapply reads_bind; [|exact Hrs].
    eapply reads_eq; [|apply app_nil_r]. eapply reads_bind; [exact Hr|]. apply reads_ret.
  - destruct (known_nth _ _ Hw _ _ Hs) as (w & Hwi & Hfit).
    apply HP in Hfit. destruct Hfit as (us & -> & Hfit).
    destruct (r_first k vs Hst us Hfit) as (x & Hx & Hr).
    destruct (IH (upd ws i (VSeq x))) as (xs & Hxs & Hrs).
    { apply known_assign; auto. now constructor. }
    exists xs. split; auto. rewrite Hv, Hwi, (Ha _ Hw). eapply reads_bind; [|exact Hrs].
    eapply reads_eq; [|apply app_nil_r]. eapply reads_bind; [exact Hr|]. apply reads_ret.
  - destruct (u_ser E Cany N.le rec f U t (get fs) (get ws)) as (x & Hx & Hr); auto;
      [now constructor|apply TgtTy; auto|].
    destruct (IH (put ws x)) as (xs & Hxs & Hrs); auto.
    exists xs. split; auto. eapply reads_bind; [|exact Hrs].
    eapply reads_eq; [|apply app_nil_r]. eapply reads_bind; [exact Hr|]. apply reads_ret.
  - destruct (IH (g ws)) as (xs & Hxs & Hrs); auto.
    exists xs. split; [exact Hxs|exact Hrs].
  - destruct (IH1 ws Hw) as (xs1 & Hxs1 & Hr1).
    destruct (IH2 xs1 Hxs1) as (xs & Hxs & Hrs).
    exists xs. split; auto. rewrite (Ha _ Hw). eapply reads_bind; [|exact Hrs].
    destruct (c fs); exact Hr1.
Qed.

Lemma user_round : forall name fs ss b ss', correct E f fs ss b ss' -> exists out,
  (stream_by E f name b fs = Ok (out, fs) /\
     (len out < two64 -> serialize_by E f name b fs = Ok (out, fs))) /\
  forall ws, known ss ws -> exists xs, known ss' xs /\ forall before after,
    deserialize_by E f name b (before ++ out ++ after) (length before) ws = Ok (xs, len out).
Proof.
  intros name fs ss b ss' H. eexists. split.
  - unfold stream_by, serialize_by.
    refine (both_ways _ _ (root_by E f MSizing name b fs)
             (root_by E f MPacking name b fs) fs fs _ _ _ _ eq_refl);
    apply e_root; auto; eapply e_block; eauto.
  - intros ws Hw. destruct (r_block _ _ _ _ H ws Hw) as (xs & Hxs & Hr). exists xs. split; auto.
    intros before after. apply deserialize_reads. apply r_root; auto.
Qed.

(** ** Functions that visit members and branch *)

Lemma nth_assign : forall X (l : list X) i j x,
  nth_error (upd l i x) j =
  if Nat.eqb i j then match nth_error l j with Some _ => Some x | None => None end
  else nth_error l j.
Proof.
  induction l; intros [|i] [|j] x; cbn; auto; try (destruct (Nat.eqb i j); reflexivity).
Qed.

Lemma assign_length : forall X (l : list X) i x, length (upd l i x) = length l.
Proof. induction l; intros [|i] x; cbn; auto. Qed.

(** What is known after the members [V] have been visited *)
Definition after (V : list nat) (fs ws : list val) (ss : list (val -> Prop)) : Prop :=
  length ss = length ws /\
  forall i P, nth_error ss i = Some P ->
    exists v w, nth_error fs i = Some v /\ nth_error ws i = Some w /\
      (In i V -> forall x, P x <-> copy_of v x) /\ (~ In i V -> forall x, P x <-> x = w).

Lemma ordered_correct : forall ks fs ws, Forall2 (storable E f) ks fs -> length fs = length ws ->
  (forall i k v w, nth_error ks i = Some k -> nth_error fs i = Some v -> nth_error ws i = Some w ->
     accepts E k v w) ->
  forall D M b D' M', ordered ks D M b D' M' -> forall V ss, incl D V -> incl V M -> after V fs ws ss ->
  exists ss', correct E f fs ss b ss' /\ after (V ++ visited b fs) fs ws ss' /\
    incl D' (V ++ visited b fs) /\ incl (V ++ visited b fs) M'.
Proof.
  intros ks fs ws Hst Hlen Hfit D M b D' M' H.
  induction H as [D M|D M i k b D' M' Hk Hi H IH
    |D M c b1 b2 D1 M1 D2 M2 D3 M3 b D' M' Hc H1 IH1 H2 IH2 I1 I2 I3 I4 H IH];
    intros V ss HD HV (Hl & Ha).
  - exists ss. cbn [visited]. rewrite app_nil_r. split; [constructor|]. split; [now split|]. auto.
  - assert (Hiv : ~ In i V) by (intros Hv; apply Hi, HV, Hv).
    assert (exists v, nth_error fs i = Some v /\ storable E f k v) as (v & Hv & Hsv).
    { clear -Hst Hk. revert i Hk. induction Hst; intros [|i] Hk; cbn in *; try discriminate; eauto.
      inversion Hk; subst. eauto. }
    assert (exists w, nth_error ws i = Some w) as (w & Hw).
    { destruct (nth_error ws i) eqn:Ew; eauto. apply nth_error_None in Ew.
      rewrite <- Hlen in Ew. apply nth_error_None in Ew. congruence. }
    assert (exists P, nth_error ss i = Some P) as (P & HP).
    { destruct (nth_error ss i) eqn:Ew; eauto. apply nth_error_None in Ew.
      rewrite Hl in Ew. apply nth_error_None in Ew. congruence. }
    destruct (Ha i P HP) as (v' & w' & Hv' & Hw' & _ & Hold).
    rewrite Hv in Hv'. rewrite Hw in Hw'. inversion Hv'; inversion Hw'; subst v' w'.
    destruct (IH (V ++ [i]) (upd ss i (copy_of v))) as (ss' & C & A & B1 & B2).
    { intros x [-> | Hx]; apply in_or_app; [right; now left|left; auto]. }
    { intros x Hx. apply in_app_or in Hx. destruct Hx as [Hx | [-> | []]]; [right; auto|now left]. }
    { split; [now rewrite assign_length|]. intros j Q HQ. rewrite nth_assign in HQ.
      destruct (Nat.eqb_spec i j) as [<- | Hne].
      - rewrite HP in HQ. inversion HQ; subst Q. exists v, w. split; auto. split; auto.
        split; [reflexivity|]. intros Hn. exfalso. apply Hn. apply in_or_app. right. now left.
      - destruct (Ha j Q HQ) as (v1 & w1 & A1 & A2 & A3 & A4). exists v1, w1.
        split; auto. split; auto. split.
        + intros Hin. apply in_app_or in Hin. destruct Hin as [Hin | [Hin | []]]; [auto|congruence].
        + intros Hn. apply A4. intros Hin. apply Hn. apply in_or_app. now left. }
    exists ss'. cbn [visited]. rewrite <- app_assoc in A, B1, B2. cbn [app] in A, B1, B2.
    split; [|auto]. eapply CMember; eauto.
    intros x Hx. apply Hold in Hx; auto. subst x. eauto.
  - assert (Hbr : exists ss1, correct E f fs ss (if c fs then b1 else b2) ss1 /\
      after (V ++ visited (if c fs then b1 else b2) fs) fs ws ss1 /\
      incl D3 (V ++ visited (if c fs then b1 else b2) fs) /\
      incl (V ++ visited (if c fs then b1 else b2) fs) M3).
    { destruct (c fs).
      - destruct (IH1 V ss HD HV (conj Hl Ha)) as (ss1 & ? & ? & X & Y). exists ss1.
        split; [assumption|]. split; [assumption|]. split; [exact (incl_tran I1 X)|exact (incl_tran Y I3)].
      - destruct (IH2 V ss HD HV (conj Hl Ha)) as (ss1 & ? & ? & X & Y). exists ss1.
        split; [assumption|]. split; [assumption|]. split; [exact (incl_tran I2 X)|exact (incl_tran Y I4)]. }
    destruct Hbr as (ss1 & C1 & A1 & X1 & X2).
    destruct (IH _ ss1 X1 X2 A1) as (ss' & C2 & A2 & Y1 & Y2).
    exists ss'. cbn [visited]. rewrite <- app_assoc in A2, Y1, Y2.
    assert (Hvis : visited (if c fs then b1 else b2) fs =
                   if c fs then visited b1 fs else visited b2 fs) by now destruct (c fs).
    rewrite Hvis in A2, Y1, Y2. split; [|auto]. eapply CIf; eauto.
    intros us Hus. apply Hc.
    + rewrite Hlen, <- Hl. symmetry. symmetry. eapply Forall2_length; eauto.
    + intros i v u Hin Hv Hu. destruct (nth_error ss i) as [P|] eqn:EP.
      * destruct (Ha i P EP) as (v' & w' & Hv' & _ & Hcopy & _). rewrite Hv in Hv'.
        inversion Hv'; subst v'. apply Hcopy; auto.
        destruct (known_nth _ _ Hus _ _ EP) as (u' & Hu' & HPu). congruence.
      * exfalso. apply nth_error_None in EP. rewrite Hl, <- Hlen in EP.
        apply nth_error_None in EP. congruence.
Qed.

Lemma ordered_round : forall name ks fs b D M, Forall2 (storable E f) ks fs ->
  ordered ks [] [] b D M -> exists out,
  (stream_by E f name b fs = Ok (out, fs) /\
     (len out < two64 -> serialize_by E f name b fs = Ok (out, fs))) /\
  forall ws, length fs = length ws ->
  (forall i k v w, nth_error ks i = Some k -> nth_error fs i = Some v -> nth_error ws i = Some w ->
     accepts E k v w) ->
  exists xs, length xs = length fs /\
    (forall i v w x, nth_error fs i = Some v -> nth_error ws i = Some w -> nth_error xs i = Some x ->
       (In i (visited b fs) -> copy_of v x) /\ (~ In i (visited b fs) -> x = w)) /\
    forall before after,
    deserialize_by E f name b (before ++ out ++ after) (length before) ws = Ok (xs, len out).
Proof.
  intros name ks fs b D M Hst Ho.
  assert (Hkey : forall ws, length fs = length ws ->
    (forall i k v w, nth_error ks i = Some k -> nth_error fs i = Some v -> nth_error ws i = Some w ->
       accepts E k v w) ->
    exists ss', correct E f fs (map (fun w x => x = w) ws) b ss' /\
      after (visited b fs) fs ws ss').
  { intros ws Hl Hfit.
    destruct (ordered_correct ks fs ws Hst Hl Hfit _ _ _ _ _ Ho [] (map (fun w x => x = w) ws))
      as (ss' & C & A & _); auto using incl_refl; [|now exists ss'].
    split; [apply map_length|]. intros i P HP. rewrite nth_error_map in HP.
    destruct (nth_error ws i) as [w|] eqn:Ew; inversion HP; subst P.
    destruct (nth_error fs i) as [v|] eqn:Ev.
    - exists v, w. split; auto. split; auto. split; [intros []|]. intros _ x. reflexivity.
    - exfalso. apply nth_error_None in Ev. rewrite Hl in Ev. apply nth_error_None in Ev. congruence. }
  exists (wroot E name (wblock E b fs)). split.
  - unfold stream_by, serialize_by.
    refine (both_ways _ _ (root_by E f MSizing name b fs)
             (root_by E f MPacking name b fs) fs fs _ _ _ _ eq_refl);
    apply e_root; auto; eapply e_ordered; eauto.
  - intros ws Hl Hfit. destruct (Hkey ws Hl Hfit) as (ss' & C & HA).
    destruct (r_block _ _ _ _ C ws) as (xs & Hxs & Hr).
    { clear. induction ws; cbn; constructor; auto. }
    assert (Hlx : length xs = length fs).
    { apply Forall2_length in Hxs. destruct HA as (HA & _). congruence. }
    exists xs. split; auto. split.
    + intros i v w x Hv Hw Hx. destruct HA as (Hls & HA).
      destruct (nth_error ss' i) as [P|] eqn:EP.
      * destruct (HA i P EP) as (v' & w' & Hv' & Hw' & H1 & H2).
        rewrite Hv in Hv'. rewrite Hw in Hw'. inversion Hv'; inversion Hw'; subst v' w'.
        destruct (known_nth _ _ Hxs _ _ EP) as (x' & Hx' & HP). rewrite Hx in Hx'.
        inversion Hx'; subst x'. split; intros Hin; [now apply H1|now apply H2].
      * exfalso. apply nth_error_None in EP. rewrite Hls, <- Hl in EP.
        apply nth_error_None in EP. congruence.
    + intros before after. apply deserialize_reads. apply r_root; auto.
Qed.
End Facts.

(** ** The function of TestWrapper *)

Lemma nulls_accept : forall E k vs, Forall (fun v => exists o, v = VOpt o) vs ->
  Forall2 (accepts E (Pointed k)) vs (repeat (VOpt None) (length vs)).
Proof.
  intros E k vs H. induction H as [|v vs (o & ->) H IH]; cbn; constructor; auto.
  exists o, None. split; auto. split; auto. destruct o; cbn; auto.
  destruct (p_shared k); auto. apply TgNull.
Qed.

Lemma known_two : forall (P Q : val -> Prop) ws, known [P; Q] ws ->
  exists a b, ws = [a; b] /\ P a /\ Q b.
Proof.
  intros P Q ws H. inversion H as [|? ? ? ? Ha H1]; subst. inversion H1 as [|? ? ? ? Hb H2]; subst.
  inversion H2; subst. eauto.
Qed.

Lemma wrapper_correct : forall E f k0 k1 l0 l1, (1 < f)%nat ->
  N.of_nat (length l0) < two64 -> N.of_nat (length l1) < two64 ->
  Forall (storable E f (Pointed k0)) l0 -> Forall (storable E f (Pointed k1)) l1 ->
  correct E f [VSeq l0; VSeq l1] [eq (VSeq []); eq (VSeq [])] (wrapper k0 k1)
    [copy_of (VSeq l0); copy_of (VSeq l1)].
Proof.
  intros E f k0 k1 l0 l1 Hf Hn0 Hn1 H0 H1. unfold wrapper.
  assert (Hnull : forall k vs, Forall (storable E f (Pointed k)) vs ->
    forall w, VSeq (repeat (VOpt None) (length vs)) = w ->
    exists us, w = VSeq us /\ Forall2 (accepts E (Pointed k)) vs us).
  { intros k vs Hv w <-. eexists. split; [reflexivity|]. apply nulls_accept.
    eapply Forall_impl; [|exact Hv]. intros v (o & -> & _). eauto. }
  assert (Hres : forall n (x : val) l, N.of_nat n < two64 -> copy_of (VB (le 8 (N.of_nat n))) x ->
    exists b, x = VB b /\ resize (N.to_nat (unle b)) (VOpt None) l = resize n (VOpt None) l).
  { intros n x l Hn Hc. exists (le 8 (N.of_nat n)). split.
    - remember (le 8 (N.of_nat n)) as b. now inversion Hc.
    - rewrite unle_le by exact Hn. now rewrite Nat2N.id. }
  assert (Hid : forall n (l : list val), length l = n -> N.of_nat n < two64 ->
    resize (N.to_nat (unle (le 8 (N.of_nat n)))) (VOpt None) l = l).
  { intros n l Hl Hn. rewrite unle_le by exact Hn. rewrite Nat2N.id. unfold resize.
    subst n. rewrite firstn_all, Nat.sub_diag. apply app_nil_r. }
  eapply CLocal with (ss1 := [eq (VSeq (repeat (VOpt None) (length l0))); eq (VSeq [])]).
  - apply HtPrim. apply le_length.
  - cbn. lia.
  - unfold resize_to, size_of; cbn [nth_error]. rewrite Hid; auto.
  - intros ws Hw. apply TgPrim. apply le_length.
  - intros ws x Hw Hx. unfold size_of in Hx; cbn [nth_error] in Hx.
    destruct (known_two _ _ _ Hw) as (a & c & -> & <- & <-).
    destruct (Hres _ x [] Hn0 Hx) as (b & -> & Hb).
    unfold resize_to; cbn [nth_error upd]. rewrite Hb. unfold resize.
    rewrite firstn_nil. cbn [app length]. rewrite Nat.sub_0_r. repeat constructor.
  - eapply CLocal with (ss1 := [eq (VSeq (repeat (VOpt None) (length l0)));
                                eq (VSeq (repeat (VOpt None) (length l1)))]).
    + apply HtPrim. apply le_length.
    + cbn. lia.
    + unfold resize_to, size_of; cbn [nth_error]. rewrite Hid; auto.
    + intros ws Hw. apply TgPrim. apply le_length.
    + intros ws x Hw Hx. unfold size_of in Hx; cbn [nth_error] in Hx.
      destruct (known_two _ _ _ Hw) as (a & c & -> & <- & <-).
      destruct (Hres _ x [] Hn1 Hx) as (b & -> & Hb).
      unfold resize_to; cbn [nth_error upd]. rewrite Hb. unfold resize.
      rewrite firstn_nil. cbn [app length]. rewrite Nat.sub_0_r. repeat constructor.
    + eapply CFor with (vs := l0); [reflexivity|reflexivity|exact H0|reflexivity|now apply Hnull| |].
      * intros ws Hw. destruct (known_two _ _ _ Hw) as (a & c & -> & <- & <-). cbn. apply repeat_length.
      * eapply CFor with (vs := l1); [reflexivity|reflexivity|exact H1|reflexivity|now apply Hnull| |].
        -- intros ws Hw. destruct (known_two _ _ _ Hw) as (a & c & -> & _ & <-).
           cbn. apply repeat_length.
        -- cbn [upd]. constructor.
Qed.

(** ** No allocation *)
Lemma unallocated_ub : forall E, wf_env any E -> forall f, (1 < f)%nat -> forall name k v vs b,
  Forall (storable E f k) (v :: vs) -> len (v :: vs) < two64 -> length b = 8%nat ->
  let fs := [VB (le 8 (len (v :: vs))); VSeq (v :: vs)] in exists out,
  (stream_by E f name (unallocated k) fs = Ok (out, fs) /\
     (len out < two64 -> serialize_by E f name (unallocated k) fs = Ok (out, fs))) /\
  forall before after,
    deserialize_by E f name (unallocated k) (before ++ out ++ after) (length before) [VB b; VSeq []]
      = Err UB.
Proof.
  intros E wf f Hf name k v vs b Hst Hn Hb fs.
  assert (Hcnt : stored_count fs = length (v :: vs)).
  { unfold stored_count, fs. rewrite unle_le by exact Hn. unfold len. apply Nat2N.id. }
  assert (Hsz : storable E f (Plain SIZE) (VB (le 8 (len (v :: vs))))).
  { split; [apply HtPrim; apply le_length|cbn; lia]. }
  exists (wroot E name (wblock E (unallocated k) fs)). split.
  - unfold stream_by, serialize_by.
    assert (He : forall m, m = MPacking \/ m = MSizing ->
      emits (ser_block E m (with_ E m f) (unallocated k) fs) false fs false (wblock E (unallocated k) fs)).
    { intros m Hm. unfold unallocated. cbn [ser_block wblock ser_stmt].
      unfold fs at 2 4. cbn [nth_error]. eapply emits_bind.
      - eapply emits_eq; [|apply app_nil_r]. eapply emits_bind; [now apply e_how|].
        cbn [fs upd]. apply emits_ret.
      - change [VB (le 8 (len (v :: vs))); VSeq (v :: vs)] with fs. rewrite Hcnt.
        unfold fs at 1 2 3. cbn [nth_error]. eapply emits_eq; [|reflexivity]. eapply emits_bind.
        + eapply emits_eq; [|apply app_nil_r]. eapply emits_bind; [now apply e_first|].
          cbn [fs upd]. apply emits_ret.
        + apply emits_ret. }
    refine (both_ways _ _ (root_by E f MSizing name (unallocated k) fs)
             (root_by E f MPacking name (unallocated k) fs) fs fs _ _ _ _ eq_refl);
    apply e_root; auto.
  - intros before after. unfold deserialize_by, deserialize_object, root_by.
    destruct (r_how E wf f Hf (Plain SIZE) (VB (le 8 (len (v :: vs)))) (VB b) Hsz) as (x & Hx & Hr).
    { now apply TgPrim. }
    assert (x = VB (le 8 (len (v :: vs)))) as ->.
    { remember (le 8 (len (v :: vs))) as z. now inversion Hx. }
    assert (Hfl : fails (ser_block E MUnpacking (with_ E MUnpacking f) (unallocated k)
                    [VB b; VSeq []]) false (whow E (Plain SIZE) (VB (le 8 (len (v :: vs))))) UB).
    { unfold unallocated. cbn [ser_block ser_stmt nth_error]. 
      eapply fails_eq; [|apply app_nil_r]. eapply fails_bind_r.
      - eapply reads_eq; [|apply app_nil_r]. eapply reads_bind; [exact Hr|]. apply reads_ret.
      - cbn [upd nth_error]. apply fails_bind_l.
        unfold stored_count. rewrite unle_le by exact Hn. unfold len. rewrite Nat2N.id.
        cbn [length ser_first bind]. apply fails_fail. }
    pose proof (f_root_ub E wf _ name _ _ (concat (map (whow E k) (v :: vs)) ++ []) Hfl) as Hr'.
    pose proof (fails_unpacker _ _ _ _ _ Hr' before after 0) as H'. change (wrap64 0) with 0 in H'.
    change (wblock E (unallocated k) fs) with
      (whow E (Plain SIZE) (VB (le 8 (len (v :: vs)))) ++ concat (map (whow E k) (v :: vs)) ++ []).
    now rewrite H'.
Qed.
