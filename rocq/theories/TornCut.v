(** Reading over an object from a stream that ends too early: proofs. *)
From Coq Require Import List NArith Arith Bool Lia.
From Verif Require Import Base Syntax Prog Serializers Traverse Api Spec ProgFacts EnvFacts
  Pack Unpack ApiFacts Robust Torn TornSpec TornFacts.
Import ListNotations.
Local Open Scope N_scope.
Local Open Scope prog_scope.

Notation anyC := (fun _ _ : N => True).
Notation SU := stream_unpacker.

(** [s] is what the stream still holds. *)
Definition at_ (s : bytes) (st : state SU) : Prop :=
  exists u, st = {| i_data := s; i_nbytes := wrap64 u |}.

Lemma app_split : forall (A : Type) (s l i r : list A), s ++ l = i ++ r -> l <> [] ->
  (exists z, s = i ++ z /\ r = z ++ l) \/ (exists z, i = s ++ z /\ z <> []).
Proof.
  intros A s. induction s as [|a s IH]; intros l i r H Hl; cbn [app] in H.
  - destruct i as [|b i]; [left; exists []; cbn; split; [reflexivity|now symmetry]|].
    right. exists (b :: i). split; [reflexivity|discriminate].
  - destruct i as [|b i]; cbn [app] in H.
    + left. exists (a :: s). split; [reflexivity|]. now symmetry.
    + inversion H; subst. destruct (IH _ _ _ H2 Hl) as [(z & -> & ->)|(z & -> & Hz)].
      * left. exists z. split; reflexivity.
      * right. exists z. split; [reflexivity|exact Hz].
Qed.

(** One step of reading: it is complete, or the stream ends in it. *)
Lemma cut : forall A (r : A * outcome SU) (p : prog A) vf i a vf' s st rest l,
  agree SU r (interp SU p vf st) -> reads p vf i a vf' -> at_ s st ->
  s ++ l = i ++ rest -> l <> [] ->
  (exists s' st', s = i ++ s' /\ rest = s' ++ l /\ at_ s' st' /\ r = (a, Cont vf' st')) \/
  ((exists l1, i = s ++ l1 /\ l1 <> []) /\ exists y lost, r = (y, Stop RtErr lost)).
Proof.
  intros A r p vf i a vf' s st rest l Ha Hr (u & ->) Hs Hl.
  destruct (app_split _ _ _ _ _ Hs Hl) as [(z & -> & ->)|(z & -> & Hz)].
  - left. pose proof (stream_reader _ p vf (i ++ z) u) as U. rewrite (Hr RtErr z) in U.
    destruct U as (U & _). rewrite U in Ha.
    destruct r as [a' [vf1 s1|e lost]]; cbn [agree] in Ha; [|discriminate].
    inversion Ha; subst. exists z. eexists. repeat split. eexists. reflexivity.
  - right. split; [exists z; auto|].
    pose proof (stream_reader _ p vf s u) as U.
    rewrite (reads_prefix _ _ _ _ _ _ Hr RtErr s z eq_refl Hz) in U. rewrite U in Ha.
    destruct r as [a' [vf1 s1|e lost]]; cbn [agree] in Ha; [discriminate|].
    inversion Ha; subst. eauto.
Qed.

Section Cut.
Variable E : env.
Hypothesis wf : wf_env any E.

Lemma su_count : forall n s, count SU n s = s. Proof. reflexivity. Qed.
Lemma su_note : forall e s, note SU e s = s. Proof. reflexivity. Qed.
Lemma su_contig : forall b s x, contig SU b s = x ->
  x = Err RtErr \/ exists y s', x = Ok (y, s') /\ length y = length b.
Proof.
  intros b s x <-. cbn [contig stream_unpacker].
  destruct (split_at (length b) (i_data s)) as [[y r]|] eqn:Es; [|now left].
  apply split_at_inv in Es. right. exists y. eexists. split; [reflexivity|apply Es].
Qed.
Lemma su_bump : forall i b s e, contig SU b s = Err e -> bump i e = e.
Proof.
  intros i b s e He. destruct (su_contig _ _ _ He) as [Hx|(? & ? & Hx & _)]; [|discriminate].
  now inversion Hx.
Qed.

Notation Torn_with := (torn_with E SU short_stream).
Notation With_ := (with_ E MUnpacking).

Lemma s_agree_with : forall f t vs vf s, agree SU (Torn_with f t vs vf s) (interp SU (With_ f t vs) vf s).
Proof. intros. apply agree_with; [apply su_count|apply su_note|apply su_bump]. Qed.
Lemma s_agree_ser : forall f t v vf s,
  agree SU (torn_ser SU (Torn_with f) t v vf s) (interp SU (ser (With_ f) t v) vf s).
Proof. intros. apply agree_ser. apply s_agree_with. Qed.

Lemma type_idx_reads : forall t, reads (with_type_idx E MUnpacking t) false (le 4 (tix E t)) tt false.
Proof.
  intros t. destruct (tix_ok any E wf t) as (Hu & Hval).
  unfold with_type_idx. eapply reads_eq; [|apply app_nil_r].
  apply reads_contig; [now rewrite !le_length|].
  cbn zeta. rewrite Hu, Hval, N.eqb_refl. apply reads_ret.
Qed.

Lemma mem_used_reads : forall t n,
  reads (with_mem_used E MUnpacking t n) false (le 8 (wrap64 (sizeof E t * N.of_nat n))) tt false.
Proof.
  intros t n. unfold with_mem_used. eapply reads_eq; [|apply app_nil_r].
  apply reads_contig; [now rewrite !le_length|].
  rewrite unle_le by (apply wrap64_lt). rewrite N.eqb_refl. apply reads_ret.
Qed.

(** A local variable is read, then the rest. *)
Lemma cut_local : forall A B (p : prog A) (old : B) k vf i a vf' s st rest l,
  reads p vf i a vf' -> at_ s st -> s ++ l = i ++ rest -> l <> [] ->
  (exists s' st', rest = s' ++ l /\ at_ s' st' /\
     with_local SU p old k vf st = k a vf' st') \/
  with_local SU p old k vf st = (old, Stop RtErr []).
Proof.
  intros A B p old k vf i a vf' s st rest l Hr Hs He Hl.
  assert (Hag : agree SU (with_local SU p None (fun a vf s => (Some a, Cont vf s)) vf st)
                  (interp SU (bind p (fun a => Ret (Some a))) vf st)).
  { apply agree_local. reflexivity. }
  assert (Hr' : reads (bind p (fun a => Ret (Some a))) vf i (Some a) vf').
  { eapply reads_eq; [|apply app_nil_r]. eapply reads_bind; [exact Hr|apply reads_ret]. }
  destruct (cut _ _ _ _ _ _ _ _ _ _ _ Hag Hr' Hs He Hl) as [(s' & st' & _ & H2 & H3 & H4)|(_ & y & lost & H4)];
    unfold with_local in *; destruct (interp SU p vf st) as [[[b vf1] s1]|e]; inversion H4; subst.
  - left. exists s', st'. auto.
  - right. reflexivity.
Qed.

(** One frame around one or several objects. *)
Lemma cut_traverse : forall f t vs ws s st l,
  arr_ok E t vs -> Forall2 (tgt E anyC t) vs ws -> fits (S f) t vs ->
  at_ s st -> s ++ l = framed E t (length vs) (concat (map (encb E t) vs)) -> l <> [] ->
  exists xs lost, Torn_with (S f) t ws false st = (xs, Stop RtErr lost) /\
    (xs = ws \/ Forall2 copy_of vs xs \/
     exists s1 st1 l1, at_ s1 st1 /\ s1 ++ l1 = concat (map (encb E t) vs) /\ l1 <> [] /\
       torn_ap E SU short_stream (With_ f) (Torn_with f) t ws false st1 = (xs, Stop RtErr lost)).
Proof.
  intros f t vs ws s st l Ha HT Hf Hs He Hl.
  destruct (u_ap any E wf anyC N.le (fun _ _ _ => I) ltac:(intros; lia) f
     (unpack_all any E wf anyC N.le (fun _ _ _ => I) ltac:(intros; lia) f) t vs ws Ha HT Hf)
    as (xs & Hsim & Hr).
  pose proof (agree_ap E SU short_stream su_count su_note (With_ f) (Torn_with f)
     (s_agree_with f) t ws) as Hag.
  cbn [torn_with]. unfold torn_traverse. unfold framed in He. destruct (chk E).
  - destruct (cut_local _ _ _ ws
       (fun _ vf s => match torn_ap E SU short_stream (With_ f) (Torn_with f) t ws vf s with
          | (vs', Cont vf s0) => with_local SU (with_mem_used E MUnpacking t (length ws)) vs'
              (fun _ vf0 s1 => (vs', Cont vf0 s1)) vf s0
          | (vs', Stop e lost) => (vs', Stop (bump (tix E t) e) lost) end)
       _ _ _ _ _ _ _ _ (type_idx_reads t) Hs He Hl) as [(s1 & st1 & H2 & H3 & H4)|H4];
      rewrite H4; [|eauto 6].
    symmetry in H2.
    destruct (cut _ _ _ _ _ _ _ _ _ _ _ (Hag false st1) Hr H3 H2 Hl)
      as [(s2 & st2 & _ & H6 & H7 & H8)|((l1 & H5 & Hl1) & y & lost & H8)]; rewrite H8.
    + symmetry in H6. rewrite <- (app_nil_r (le 8 _)) in H6.
      rewrite (Forall2_length _ _ _ _ _ HT) in H6.
      destruct (cut_local _ _ _ xs (fun _ vf s => (xs, Cont vf s)) _ _ _ _ _ _ _ _
        (mem_used_reads t (length ws)) H7 H6 Hl) as [(s3 & st3 & Hx & _)|H9].
      { destruct s3; [|discriminate]. cbn in Hx. congruence. }
      rewrite H9. eauto 6.
    + exists y, lost. split; [reflexivity|]. right. right. exists s1, st1, l1. auto.
  - assert (He' : s ++ l = concat (map (encb E t) vs) ++ []) by (now rewrite app_nil_r).
    destruct (cut _ _ _ _ _ _ _ _ _ _ _ (Hag false st) Hr Hs He' Hl)
      as [(s2 & st2 & _ & H6 & _)|((l1 & H5 & Hl1) & y & lost & H8)].
    + destruct s2; [|discriminate]. destruct l; [congruence|discriminate].
    + exists y, lost. split; [exact H8|]. right. right. exists s, st, l1. auto.
Qed.

(** An object that is read by an overload of serialize. *)
Definition in_elem (f : nat) (t : ty) (v w x : val) (lost : list (ty * val)) : Prop :=
  exists s1 st1 l1, at_ s1 st1 /\ s1 ++ l1 = encb E t v /\ l1 <> [] /\
    torn_elem E SU (With_ f) (Torn_with f) t w false st1 = (x, Stop RtErr lost).

Lemma cut_ser : forall f t v w s st l,
  has_ty E t v -> target anyC E t v w -> (depth v < S f)%nat ->
  bytecopy E t = false -> is_virtual E t = false ->
  at_ s st -> s ++ l = enc E t v -> l <> [] ->
  exists x lost, torn_ser SU (Torn_with (S f)) t w false st = (x, Stop RtErr lost) /\
    (x = w \/ copy_of v x \/ in_elem f t v w x lost).
Proof.
  intros f t v w s st l Ht HT Hd Hb Hv Hs He Hl.
  destruct (cut_traverse f t [v] [w] s st l) as (xs & lost & H1 & H2); auto.
  - split; [constructor; [now constructor|constructor]|]. split; [discriminate|auto].
  - constructor; [now apply TgtTy|constructor].
  - left. constructor; [auto|constructor].
  - cbn [map concat length]. now rewrite app_nil_r.
  - unfold torn_ser. rewrite H1. cbn [then_].
    destruct H2 as [->|[Hc|(s1 & st1 & l1 & G1 & G2 & G3 & G4)]].
    + exists w, lost. auto.
    + inversion Hc as [|? x ? xs' Hx Hc']; subst. inversion Hc'; subst. exists x, lost. auto.
    + unfold torn_ap in G4. rewrite Hb, Hv in G4. cbn [torn_map] in G4.
      destruct (torn_elem E SU (With_ f) (Torn_with f) t w false st1) as [x [vf2 s2|e lost']] eqn:G5;
        cbn [then_] in G4; inversion G4; subst.
      exists x, lost. split; auto. right. right. exists s1, st1, l1.
      cbn [map concat] in G2. rewrite app_nil_r in G2. auto.
Qed.

Lemma cut_root : forall f t v w s st l,
  has_ty E t v -> target anyC E t v w -> (depth v < S f)%nat ->
  bytecopy E t = false -> is_virtual E t = false ->
  at_ s st -> s ++ l = enc_root E t v -> l <> [] ->
  exists x lost, in_place_from_stream E (S f) t st w = (x, Stop RtErr lost) /\
    (x = w \/ copy_of v x \/ in_elem f t v w x lost).
Proof.
  intros f t v w s st l Ht HT Hd Hb Hv Hs He Hl.
  unfold in_place_from_stream, torn_root, enc_root in *. destruct (chk E) eqn:Ec.
  { now apply cut_ser with (s := s) (l := l). }
  match goal with |- context [with_local SU _ w ?k0 false st] =>
    destruct (cut_local _ _ _ w k0 _ _ _ _ _ _ _ _ (type_idx_reads t) Hs He Hl)
      as [(s1 & st1 & H2 & H3 & H4)|H4]; rewrite H4; [|eauto 6] end.
  symmetry in H2.
  destruct (unpack_all any E wf anyC N.le (fun _ _ _ => I) ltac:(intros; lia) (S f)) as (Hu & _).
  destruct (u_ser E anyC N.le _ _ Hu t v w) as (x & Hsx & Hr); auto.
  { now constructor. }
  { now apply TgtTy. }
  unfold enc, framed in Hr. rewrite Ec in Hr.
  destruct (app_split _ _ _ _ _ H2 Hl) as [(z & -> & Hz)|(z & Hz & Hnz)].
  - destruct (cut _ _ _ _ _ _ _ _ _ _ _ (s_agree_ser (S f) t w false st1) Hr H3 H2 Hl)
      as [(s2 & st2 & _ & H6 & H7 & H8)|((l1 & H5 & Hl1) & _)].
    2:{ apply (f_equal (@length _)) in H5. rewrite !app_length in H5.
        destruct l1; [congruence|]. cbn [length] in H5. lia. }
    rewrite H8. cbn [then_]. symmetry in H6. rewrite <- (app_nil_r (le 8 _)) in H6.
    replace (sizeof E t) with (sizeof E t * N.of_nat 1) in H6 by (change (N.of_nat 1) with 1; apply N.mul_1_r).
    destruct (cut_local _ _ _ x (fun _ vf s => (x, Cont vf s)) _ _ _ _ _ _ _ _
        (mem_used_reads t 1) H7 H6 Hl) as [(s3 & st3 & Hx & _)|H9].
    { destruct s3; [|discriminate]. cbn in Hx. congruence. }
    rewrite H9. eauto 6.
  - destruct (cut_ser f t v w s1 st1 z) as (y & lost & G1 & G2); auto.
    { unfold enc, framed. now rewrite Ec. }
    rewrite G1. cbn [then_]. eauto 6.
Qed.

(** Parts one after the other. *)
Inductive half : list val -> list val -> list val -> Prop :=
| HalfAt v vs w ws x : half (v :: vs) (w :: ws) (x :: ws)
| HalfDone v vs w ws x xs : copy_of v x -> half vs ws xs -> half (v :: vs) (w :: ws) (x :: xs).

Lemma partly_half : forall vs ws xs, half vs ws xs -> partly (seq 0 (length vs)) vs ws xs.
Proof.
  intros vs ws xs Hh. assert (G : length xs = length ws /\ exists n, forall i v w x,
    nth_error vs i = Some v -> nth_error ws i = Some w -> nth_error xs i = Some x ->
    ((i < n)%nat -> copy_of v x) /\ ((n < i)%nat -> x = w)).
  { induction Hh as [v vs w ws x|v vs w ws x xs Hc Hh (Hl & n & IH)].
    - split; [reflexivity|]. exists O. intros [|i] v' w' x' H1 H2 H3; cbn in *; split; intros; try lia.
      congruence.
    - split; [cbn; lia|]. exists (S n). intros [|i] v' w' x' H1 H2 H3; cbn in *.
      + inversion H1; inversion H3; subst. split; intros; [auto|lia].
      + destruct (IH i v' w' x' H1 H2 H3). split; intros; [apply H; lia|apply H0; lia]. }
  destruct G as (Hl & n & G). split; auto. exists n. intros j i v w x Hj Hv Hw Hx.
  assert (j = i).
  { assert (Hjl : (j < length (seq 0 (length vs)))%nat) by (apply nth_error_Some; congruence).
    rewrite seq_length in Hjl. apply nth_error_nth with (d := O) in Hj.
    rewrite seq_nth in Hj by auto. lia. }
  subst j. eauto.
Qed.

Lemma partly_old : forall order vs ws, partly order vs ws ws \/ order = [].
Proof.
  intros order vs ws. destruct order as [|i0 order]; [now right|]. left. split; auto. exists O.
  intros j i v w x _ _ Hw Hx. split; intros; [lia|congruence].
Qed.

Lemma partly_all : forall order vs ws xs, length xs = length ws -> Forall2 copy_of vs xs ->
  partly order vs ws xs.
Proof.
  intros order vs ws xs Hl Hc. split; auto. exists (length order). intros j i v w x Hj Hv Hw Hx.
  assert (Hjl : (j < length order)%nat) by (apply nth_error_Some; congruence).
  split; intros; [|lia]. exact (Forall2_nth _ _ _ _ _ _ _ _ Hc Hv Hx).
Qed.

Lemma cut_tuple : forall f ts vs ws s st l, Forall2 (has_ty E) ts vs -> shallow f vs ->
  length vs = length ws -> Forall2 (fun t p => target anyC E t (fst p) (snd p)) ts (combine vs ws) ->
  at_ s st -> s ++ l = concat (zipenc E ts vs) -> l <> [] ->
  forall xs e lost, torn_tuple SU (Torn_with f) ts ws false st = (xs, Stop e lost) ->
  half vs ws xs.
Proof.
  intros f ts vs ws s st l H. revert ws s st. induction H as [|t v ts vs Htv HF IH];
    intros ws s st Hs Hl HT Hat He Hnl xs e lost Ht.
  - destruct ws; [|discriminate]. cbn in Ht. discriminate.
  - destruct ws as [|w ws]; [discriminate|].
    inversion Hs as [|? ? Hd Hs']; subst. inversion HT as [|? ? ? ? Hw HT']; subst. cbn [fst snd] in Hw.
    cbn [torn_tuple zipenc concat] in *.
    destruct (unpack_all any E wf anyC N.le (fun _ _ _ => I) ltac:(intros; lia) f) as (Hu & _).
    destruct (u_ser E anyC N.le _ _ Hu t v w) as (x & Hsx & Hr); auto.
    { now constructor. }
    { now apply TgtTy. }
    destruct (cut _ _ _ _ _ _ _ _ _ _ _ (s_agree_ser f t w false st) Hr Hat He Hnl)
      as [(s2 & st2 & _ & H6 & H7 & H8)|(_ & y & lost' & H8)]; rewrite H8 in Ht; cbn [then_] in Ht.
    + destruct (torn_tuple SU (Torn_with f) ts ws false st2) as [xs' [vf2 s3|e2 lost2]] eqn:Et;
        cbn [then_] in Ht; inversion Ht; subst.
      apply HalfDone; auto. eapply IH with (s := s2); eauto.
    + inversion Ht; subst. apply HalfAt.
Qed.

Lemma cut_members : forall f ts vs is_ fs s st l,
  Forall2 (has_ty E) ts vs -> shallow f vs -> length vs = length fs ->
  (forall i t v w, In i is_ -> nth_error ts i = Some t -> nth_error vs i = Some v ->
     nth_error fs i = Some w -> target anyC E t v w) ->
  NoDup is_ -> (forall i, In i is_ -> (i < length ts)%nat) ->
  at_ s st -> s ++ l = concat (map (fun i => nth i (zipenc E ts vs) []) is_) -> l <> [] ->
  forall xs e lost, torn_members SU (Torn_with f) ts is_ fs false st = (xs, Stop e lost) ->
  length xs = length fs /\ (forall i, ~ In i is_ -> nth_error xs i = nth_error fs i) /\
  exists n, forall j i v w x,
    nth_error is_ j = Some i ->
    nth_error vs i = Some v -> nth_error fs i = Some w -> nth_error xs i = Some x ->
    ((j < n)%nat -> copy_of v x) /\ ((n < j)%nat -> x = w).
Proof.
  intros f ts vs is_. unfold torn_members. induction is_ as [|i0 is_ IH];
    intros fs s st l Hty Hsh Hlen Htg Hnd Hin Hat He Hnl xs e lost Ht; cbn [torn_fold map concat] in *.
  { discriminate. }
  inversion Hnd as [|? ? Hni Hnd']; subst.
  pose proof (Forall2_length _ _ _ _ _ Hty) as Hlt.
  assert (Hi0 : (i0 < length ts)%nat) by (apply Hin; now left).
  destruct (nth_error ts i0) as [t|] eqn:Et; [|apply nth_error_None in Et; lia].
  destruct (nth_error fs i0) as [w|] eqn:Ew; [|apply nth_error_None in Ew; lia].
  destruct (nth_error vs i0) as [v|] eqn:Ev; [|apply nth_error_None in Ev; lia].
  rewrite (zipenc_nth _ _ _ _ _ _ Et Ev) in He.
  pose proof (Forall2_nth _ _ _ _ _ _ _ _ Hty Et Ev) as Hv.
  destruct (unpack_all any E wf anyC N.le (fun _ _ _ => I) ltac:(intros; lia) f) as (Hu & _).
  destruct (u_ser E anyC N.le _ _ Hu t v w) as (x & Hsx & Hr); auto.
  { now constructor. }
  { apply TgtTy. eapply Htg; eauto. now left. }
  { eapply shallow_in; eauto. eapply nth_error_In; eauto. }
  destruct (cut _ _ _ _ _ _ _ _ _ _ _ (s_agree_ser f t w false st) Hr Hat He Hnl)
    as [(s2 & st2 & _ & H6 & H7 & H8)|(_ & y & lost' & H8)]; rewrite H8 in Ht; cbn [then_] in Ht.
  - destruct (IH (upd fs i0 x) s2 st2 l) with (xs := xs) (e := e) (lost := lost) as (G1 & G2 & n & G3); auto.
    { now rewrite upd_length. }
    { intros i t' v' w' Hi Ht' Hv' Hw'. eapply Htg; eauto; [now right|].
      rewrite nth_error_upd_neq in Hw'; auto. intros ->. contradiction. }
    { intros i Hi. apply Hin. now right. }
    rewrite upd_length in G1. split; [exact G1|]. split.
    + intros i Hi. rewrite G2 by (intros Hx; apply Hi; now right).
      apply nth_error_upd_neq. intros ->. apply Hi. now left.
    + exists (S n). intros [|j] i v' w' x' Hj Hv' Hw' Hx'; cbn [nth_error] in Hj.
      * inversion Hj; subst i. split; intros; [|lia].
        rewrite G2 in Hx' by auto. rewrite nth_error_upd_eq in Hx' by lia.
        assert (v' = v) by congruence. assert (x' = x) by congruence. now subst.
      * assert (Hne : i0 <> i) by (intros ->; apply Hni; eapply nth_error_In; eauto).
        assert (Hw2 : nth_error (upd fs i0 x) i = Some w') by (rewrite nth_error_upd_neq; auto).
        destruct (G3 j i v' w' x' Hj Hv' Hw2 Hx') as (K1 & K2).
        split; intros; [apply K1; lia|apply K2; lia].
  - inversion Ht; subst. split; [apply upd_length|]. split.
    + intros i Hi. apply nth_error_upd_neq. intros ->. apply Hi. now left.
    + exists O. intros j i v' w' x' Hj Hv' Hw' Hx'. split; intros; [lia|].
      destruct j; [lia|]. cbn [nth_error] in Hj.
      rewrite nth_error_upd_neq in Hx' by (intros ->; apply Hni; eapply nth_error_In; eauto).
      congruence.
Qed.

(** Elements one after the other. *)
Lemma cut_map : forall f t vs ws s st l,
  Forall (has_ty E t) vs -> shallow (S f) vs -> Forall2 (target anyC E t) vs ws ->
  bytecopy E t = false -> is_virtual E t = false ->
  at_ s st -> s ++ l = concat (map (encb E t) vs) -> l <> [] ->
  forall xs e lost,
  torn_map SU (torn_elem E SU (With_ f) (Torn_with f) t) ws false st = (xs, Stop e lost) ->
  half vs ws xs.
Proof.
  intros f t vs ws s st l Hty Hsh HT Hb Hv. revert s st Hty Hsh.
  induction HT as [|v w vs ws Hw HT IH]; intros s st Hty Hsh Hat He Hnl xs e lost Ht;
    cbn [torn_map map concat] in *; [discriminate|].
  inversion Hty as [|? ? Htv Hty']; subst. inversion Hsh as [|? ? Hd Hsh']; subst.
  destruct (unpack_all any E wf anyC N.le (fun _ _ _ => I) ltac:(intros; lia) f) as (Hu & _).
  destruct (u_elem any E wf anyC N.le (fun _ _ _ => I) ltac:(intros; lia) _ _ Hu t v w) as (x & Hsx & Hr); auto.
  destruct (cut _ _ _ _ _ _ _ _ _ _ _
      (agree_elem E SU su_count su_note _ _ (s_agree_with f) t w false st) Hr Hat He Hnl)
    as [(s2 & st2 & _ & H6 & H7 & H8)|(_ & y & lost' & H8)]; rewrite H8 in Ht; cbn [then_] in Ht.
  - destruct (torn_map SU (torn_elem E SU (With_ f) (Torn_with f) t) ws false st2)
      as [xs' [vf2 s3|e2 lost2]] eqn:Et; cbn [then_] in Ht; inversion Ht; subst.
    apply HalfDone; auto. eapply IH with (s := s2); eauto.
  - inversion Ht; subst. apply HalfAt.
Qed.

(** ** The object after the stream has ended *)
Lemma root_tuple : forall f ts vs ws s st l,
  has_ty E (TTuple ts) (VSeq vs) -> target anyC E (TTuple ts) (VSeq vs) (VSeq ws) ->
  (depth (VSeq vs) < f)%nat -> at_ s st -> s ++ l = enc_root E (TTuple ts) (VSeq vs) -> l <> [] ->
  exists xs lost, in_place_from_stream E f (TTuple ts) st (VSeq ws) = (VSeq xs, Stop RtErr lost) /\
    partly (seq 0 (length vs)) vs ws xs.
Proof.
  intros f ts vs ws s st l Ht HT Hd Hs He Hl. destruct f as [|f]; [lia|].
  destruct (cut_root f _ _ _ s st l Ht HT Hd eq_refl eq_refl Hs He Hl) as (x & lost & H1 & H2).
  inversion HT; subst.
  destruct H2 as [->|[Hc|(s1 & st1 & l1 & G1 & G2 & G3 & G4)]].
  - exists ws, lost. split; auto. destruct (partly_old (seq 0 (length vs)) vs ws) as [?|Hn]; auto.
    destruct vs; [|discriminate]. destruct ws; [|discriminate]. apply partly_all; constructor.
  - unfold copy_of in Hc. inversion Hc as [| | |l0 xs Hxs| | | | | |]; subst. exists xs, lost.
    split; auto. pose proof (Forall2_length _ _ _ _ _ Hxs).
    apply partly_all; [congruence|assumption].
  - cbn [torn_elem] in G4.
    destruct (torn_tuple SU (Torn_with f) ts ws false st1) as [xs [vf2 s2|e lost']] eqn:Et;
      cbn [then_] in G4; inversion G4; subst.
    exists xs, lost. split; auto. apply partly_half.
    inversion Ht; subst. cbn [depth] in Hd. destruct (fold_depth vs f) as (Hsh & _); [lia|].
    eapply cut_tuple with (s := s1) (l := l1); eauto.
Qed.

Lemma root_pair : forall f a b va vb wa wb s st l,
  has_ty E (TPair a b) (VSeq [va; vb]) -> target anyC E (TPair a b) (VSeq [va; vb]) (VSeq [wa; wb]) ->
  (depth (VSeq [va; vb]) < f)%nat -> at_ s st -> s ++ l = enc_root E (TPair a b) (VSeq [va; vb]) ->
  l <> [] ->
  exists xs lost,
    in_place_from_stream E f (TPair a b) st (VSeq [wa; wb]) = (VSeq xs, Stop RtErr lost) /\
    partly [0; 1]%nat [va; vb] [wa; wb] xs.
Proof.
  intros f a b va vb wa wb s st l Ht HT Hd Hs He Hl. destruct f as [|f]; [lia|].
  destruct (cut_root f _ _ _ s st l Ht HT Hd eq_refl eq_refl Hs He Hl) as (x & lost & H1 & H2).
  destruct H2 as [->|[Hc|(s1 & st1 & l1 & G1 & G2 & G3 & G4)]].
  - exists [wa; wb], lost. split; auto.
    destruct (partly_old [0; 1]%nat [va; vb] [wa; wb]) as [?|?]; [auto|discriminate].
  - unfold copy_of in Hc. inversion Hc as [| | |l0 xs Hxs| | | | | |]; subst. exists xs, lost.
    split; auto. pose proof (Forall2_length _ _ _ _ _ Hxs).
    apply partly_all; [cbn in *; congruence|assumption].
  - cbn [torn_elem] in G4. unfold torn_pair in G4.
    inversion Ht; subst. cbn [depth] in Hd. destruct (fold_depth [va; vb] f) as (Hsh & _); [lia|].
    inversion HT; subst.
    assert (G4' : exists xs, x = VSeq xs /\
       torn_tuple SU (Torn_with f) [a; b] [wa; wb] false st1 = (xs, Stop RtErr lost)).
    { cbn [torn_tuple]. destruct (torn_ser SU (Torn_with f) a wa false st1) as [x1 [vf1 s1'|e1 lost1]];
        cbn [then_] in *.
      - destruct (torn_ser SU (Torn_with f) b wb vf1 s1') as [x2 [vf2 s2|e2 lost2]]; cbn [then_] in *;
          inversion G4; subst; eauto.
      - inversion G4; subst; eauto. }
    destruct G4' as (xs & -> & G5). exists xs, lost. split; auto.
    apply (partly_half [va; vb] [wa; wb]).
    eapply cut_tuple with (s := s1) (l := l1) (ts := [a; b]); eauto.
    + cbn [combine]. constructor; [|constructor; [|constructor]]; assumption.
    + cbn [zipenc concat]. rewrite app_nil_r. exact G2.
Qed.

Lemma root_class : forall f c k vs ws s st l,
  cls E c = Some k -> cvirt k = false ->
  has_ty E (TClass c) (VObj c [vs]) -> target anyC E (TClass c) (VObj c [vs]) (VObj c [ws]) ->
  (depth (VObj c [vs]) < f)%nat -> at_ s st -> s ++ l = enc_root E (TClass c) (VObj c [vs]) ->
  l <> [] ->
  exists xs lost, in_place_from_stream E f (TClass c) st (VObj c [ws]) = (VObj c [xs], Stop RtErr lost) /\
    partly (cser k MUnpacking) vs ws xs.
Proof.
  intros f c k vs ws s st l Hk Hkv Ht HT Hd Hs He Hl. destruct f as [|f]; [lia|].
  pose proof (chain_static _ _ wf _ _ Hk Hkv) as Hch.
  assert (Hlv : level E c = O) by (unfold level; rewrite Hch; reflexivity).
  assert (Hv : is_virtual E (TClass c) = false) by (cbn [is_virtual]; now rewrite Hk).
  destruct (has_obj _ _ _ _ Ht) as (_ & _ & HF). unfold lvl_ok in HF.
  rewrite Hch in HF. inversion HF as [|? ? ? ? (k' & Hk' & Hkb & Hwfc & Hfs) _]; subst.
  assert (k' = k) by congruence. subst k'.
  assert (HTl : Forall2 (fun c' p => exists k, cls E c' = Some k /\ length (fst p) = length (snd p) /\
         Forall2 (fun t q => target anyC E t (fst q) (snd q)) (cfields k)
           (combine (fst p) (snd p))) (chain E c) (combine [vs] [ws])).
  { inversion HT; subst. assumption. }
  rewrite Hch in HTl. inversion HTl as [|? ? ? ? (k' & Hk2 & Hlw & Htw) _]; subst. cbn [fst snd] in *.
  assert (k' = k) by congruence. subst k'.
  assert (Hb : bytecopy E (TClass c) = false) by (cbn [bytecopy]; now rewrite Hk).
  destruct (cut_root f _ _ _ s st l Ht HT Hd Hb Hv Hs He Hl) as (x & lost & H1 & H2).
  destruct Hwfc as [_ Hun Hnd Hall]. pose proof (Forall2_length _ _ _ _ _ Hfs) as Hlf.
  destruct H2 as [->|[Hc|(s1 & st1 & l1 & G1 & G2 & G3 & G4)]].
  - exists ws, lost. split; auto. destruct (partly_old (cser k MUnpacking) vs ws) as [?|Hn]; auto.
    assert (length (cfields k) = O).
    { destruct (cfields k) eqn:Ef; [reflexivity|]. exfalso. rewrite Hun in Hn.
      assert (In O (cser k MPacking)) by (apply Hall; cbn; lia). rewrite Hn in H. destruct H. }
    destruct vs; [|cbn in *; lia]. destruct ws; [|cbn in *; lia]. apply partly_all; constructor.
  - unfold copy_of in Hc. inversion Hc as [| | | | | | | | |? ? ? Hls]; subst.
    inversion Hls as [|? xs ? ? Hxs Hnil]; subst. inversion Hnil; subst.
    exists xs, lost. split; auto. pose proof (Forall2_length _ _ _ _ _ Hxs).
    apply partly_all; [congruence|assumption].
  - cbn [torn_elem] in G4. unfold torn_static in G4. rewrite Hk, Hlv in G4. cbn [nth_error] in G4.
    destruct (torn_members SU (Torn_with f) (cfields k) (cser k MUnpacking) ws false st1)
      as [xs [vf2 s2|e lost']] eqn:Et; cbn [then_] in G4; inversion G4; subst.
    exists xs, lost. split; auto.
    cbn [depth] in Hd. destruct (fold_depth2 [vs] f) as (Hsh & _); [lia|].
    inversion Hsh; subst.
    rewrite encb_obj, Hv, Hch in G2. cbn [levelenc map concat] in G2. rewrite app_nil_r in G2.
    unfold wmembers, wfields in G2. cbn [fst snd] in G2. rewrite Hk in G2.
    destruct (cut_members f (cfields k) vs (cser k MUnpacking) ws s1 st1 l1) with (xs := xs) (e := RtErr) (lost := lost)
      as (K1 & _ & K2); auto.
    + intros i t v w Hi Hti Hvi Hwi.
      exact (Forall2_combine3 _ _ _ (fun t v w => target anyC E t v w) _ _ _ Htw Hlw i t v w Hti Hvi Hwi).
    + now rewrite Hun.
    + intros i Hi. rewrite Hun in Hi. now apply Hall.
    + rewrite Hun. exact G2.
    + split; auto.
Qed.

Lemma root_array : forall f n t vs ws s st l,
  has_ty E (TArray n t) (VSeq vs) -> target anyC E (TArray n t) (VSeq vs) (VSeq ws) ->
  bytecopy E t = false -> is_virtual E t = false ->
  (depth (VSeq vs) < f)%nat -> at_ s st -> s ++ l = enc_root E (TArray n t) (VSeq vs) -> l <> [] ->
  exists xs lost, in_place_from_stream E f (TArray n t) st (VSeq ws) = (VSeq xs, Stop RtErr lost) /\
    partly (seq 0 (length vs)) vs ws xs.
Proof.
  intros f n t vs ws s st l Ht HT Hbt Hvt Hd Hs He Hl. destruct f as [|f]; [lia|].
  destruct (cut_root f _ _ _ s st l Ht HT Hd eq_refl eq_refl Hs He Hl) as (x & lost & H1 & H2).
  inversion HT; subst.
  match goal with H : Forall2 (target _ E t) vs ws |- _ => rename H into Htw end.
  pose proof (Forall2_length _ _ _ _ _ Htw) as Hlw.
  assert (Hall : forall xs, Forall2 copy_of vs xs -> partly (seq 0 (length vs)) vs ws xs).
  { intros xs Hxs. pose proof (Forall2_length _ _ _ _ _ Hxs). apply partly_all; [congruence|assumption]. }
  assert (Hold : partly (seq 0 (length vs)) vs ws ws).
  { destruct (partly_old (seq 0 (length vs)) vs ws) as [?|Hn]; auto.
    destruct vs; [|discriminate]. destruct ws; [|discriminate]. apply partly_all; constructor. }
  destruct H2 as [->|[Hc|(s1 & st1 & l1 & G1 & G2 & G3 & G4)]].
  - exists ws, lost. split; auto.
  - unfold copy_of in Hc. inversion Hc as [| | |l0 xs Hxs| | | | | |]; subst. exists xs, lost. auto.
  - cbn [torn_elem] in G4. unfold torn_stdarray, torn_array in G4.
    destruct ws as [|w ws]; [discriminate|]. destruct vs as [|v vs]; [discriminate|].
    inversion Ht; subst.
    match goal with H : Forall (has_ty E t) (v :: vs) |- _ => rename H into Htys end.
    cbn [depth] in Hd. destruct (fold_depth (v :: vs) f) as (Hsh & Hf); [lia|].
    destruct f as [|f]; [lia|].
    destruct (cut_traverse f t (v :: vs) (w :: ws) s1 st1 l1) as (xs & lost2 & K1 & K2); auto.
    + split; [|split; [discriminate|intros Hx; congruence]].
      eapply Forall_impl; [|exact Htys]. intros; now constructor.
    + clear -Htw. induction Htw; constructor; auto. now apply TgtTy.
    + left. exact Hsh.
    + rewrite G2. cbn [encb]. unfold warray. cbn [map length]. now rewrite map_length.
    + rewrite K1 in G4. cbn [then_] in G4. inversion G4; subst. exists xs, lost. split; auto.
      destruct K2 as [->|[Hxs|(s2 & st2 & l2 & J1 & J2 & J3 & J4)]]; auto.
      apply partly_half. unfold torn_ap in J4. rewrite Hbt, Hvt in J4.
      eapply cut_map with (s := s2) (l := l2); eauto.
Qed.

(** All or nothing. *)
Lemma elem_optional : forall f t o st x e lost,
  torn_elem E SU (With_ f) (Torn_with f) (TOptional t) (VOpt o) false st = (x, Stop e lost) -> x = VOpt o.
Proof.
  intros f t o st x e lost Hx. cbn [torn_elem] in Hx. unfold torn_optional, with_temp, with_local in Hx.
  destruct (interp SU (ser_bool (With_ f) false) false st) as [[[has vf1] s1]|e1]; [|now inversion Hx].
  destruct has; [|discriminate].
  destruct (interp SU (construct E t) vf1 s1) as [[[d vf2] s2]|e2]; [|now inversion Hx].
  destruct (torn_ser SU (Torn_with f) t d vf2 s2) as [y [vf3 s3|e3 lost3]]; now inversion Hx.
Qed.
Lemma elem_variant : forall f ts w st x e lost,
  torn_elem E SU (With_ f) (Torn_with f) (TVariant ts) w false st = (x, Stop e lost) -> x = w.
Proof.
  intros f ts w st x e lost Hx. cbn [torn_elem] in Hx. unfold torn_variant in Hx.
  destruct (variant_index w) as [i|]; [|now inversion Hx]. unfold with_local in Hx.
  destruct (interp SU (ser_size (With_ f) i) false st) as [[[n vf1] s1]|e1]; [|now inversion Hx].
  revert Hx. generalize O. induction ts as [|t ts IH]; intros cur Hx; cbn [torn_entry] in Hx; [discriminate|].
  destruct (n =? N.of_nat cur); [|eauto]. unfold with_temp, with_local in Hx.
  destruct (interp SU (construct E t) vf1 s1) as [[[d vf2] s2]|e2]; [|now inversion Hx].
  destruct (torn_ser SU (Torn_with f) t d vf2 s2) as [y [vf3 s3|e3 lost3]]; now inversion Hx.
Qed.
Lemma elem_number : forall f t w st x e lost,
  match t with TEnum _ _ _ | TChrono _ _ _ => True | _ => False end ->
  torn_elem E SU (With_ f) (Torn_with f) t w false st = (x, Stop e lost) -> x = w.
Proof.
  intros f t w st x e lost Ht Hx. destruct t; try destruct Ht;
    cbn [torn_elem] in Hx; destruct w; try (now inversion Hx); unfold with_local in Hx;
    destruct (interp SU _ false st) as [[[n vf1] s1]|e1]; now inversion Hx.
Qed.

Lemma root_at_once : forall f t v w s st l, at_once E t ->
  has_ty E t v -> target anyC E t v w -> (depth v < f)%nat ->
  at_ s st -> s ++ l = enc_root E t v -> l <> [] ->
  exists x lost, in_place_from_stream E f t st w = (x, Stop RtErr lost) /\ (x = w \/ copy_of v x).
Proof.
  intros f t v w s st l Hu Ht HT Hd Hs He Hl. destruct f as [|f]; [lia|].
  assert (Hb : bytecopy E t = false) by (destruct t; cbn [at_once] in Hu; try contradiction; auto).
  assert (Hv : is_virtual E t = false) by (destruct t; cbn [at_once] in Hu; try contradiction; auto).
  destruct (cut_root f _ _ _ s st l Ht HT Hd Hb Hv Hs He Hl) as (x & lost & H1 & H2).
  exists x, lost. split; auto. destruct H2 as [?|[?|(s1 & st1 & l1 & G1 & G2 & G3 & G4)]]; auto.
  left. destruct t; cbn [at_once] in Hu; try contradiction.
  - eapply elem_number; [|eassumption]. exact I.
  - eapply elem_number; [|eassumption]. exact I.
  - inversion HT; subst. eapply elem_optional; eauto.
  - eapply elem_variant; eauto.
Qed.
End Cut.

(** ** Reading again *)
Section Again.
Variable E : env.
Hypothesis wf : wf_env any E.
Variable T : ty -> Prop.
Hypothesis rd : readable E T.
Hypothesis Hrep : forall t, T t -> replaced E t.

Lemma valid_target_n : forall n t v w, (depth v < n)%nat -> T t -> has_ty E t v -> valid E t w ->
  target anyC E t v w.
Proof.
  induction n; intros t v w Hd HTt Ht Hw; [lia|].
  pose proof (rd_parts _ _ rd _ HTt) as Hp. pose proof (Hrep _ HTt) as Hr.
  assert (Hall : forall t l ws, T t -> shallow n l -> Forall (has_ty E t) l -> Forall (valid E t) ws ->
     forall x y, In x l -> In y ws -> target anyC E t x y).
  { intros t0 l ws Ht0 Hs Hts Hws x y Hx Hy. unfold shallow in Hs.
    rewrite Forall_forall in Hs, Hts, Hws. apply IHn; auto. }
  assert (Hflds : forall ts vs ws, Forall T ts -> Forall2 (has_ty E) ts vs -> Forall2 (valid E) ts ws ->
     shallow n vs ->
     length vs = length ws /\
     Forall2 (fun t q => target anyC E t (fst q) (snd q)) ts (combine vs ws)).
  { intros ts vs ws H0 H1 H2 Hs. pose proof (Forall2_length _ _ _ _ _ H1).
    pose proof (Forall2_length _ _ _ _ _ H2). split; [lia|].
    apply Forall2_combine3_intro; try lia.
    intros i t0 v0 w0 Hi Hv Hw0. rewrite Forall_forall in H0. apply IHn.
    - eapply shallow_in; eauto. eapply nth_error_In; eauto.
    - apply H0. eapply nth_error_In; eauto.
    - exact (Forall2_nth _ _ _ _ _ _ _ _ H1 Hi Hv).
    - exact (Forall2_nth _ _ _ _ _ _ _ _ H2 Hi Hw0). }
  destruct t; cbn [parts replaced] in Hp, Hr; try contradiction.
  - inversion Hw; subst. now constructor.
  - inversion Hw; subst. now constructor.
  - inversion Hw; subst. now constructor.
  - inversion Hw; subst. now constructor.
  - (* vector *)
    inversion Ht; subst. inversion Hw; subst. cbn [depth] in Hd.
    match goal with H : context [fold_right _ _ ?l] |- _ =>
      destruct (fold_depth l n) as (Hsh & _); [lia|] end.
    constructor; auto; [tauto|]. apply pairwise_of_forall. eapply Hall; eauto. tauto.
  - inversion Ht; subst. inversion Hw; subst. constructor; auto.
    match goal with H : Forall (fun v => v = VB _ \/ _) ?l |- Forall _ ?l =>
      eapply Forall_impl; [|exact H] end.
    cbn beta. intros a [->| ->]; eauto.
  - (* array *)
    inversion Ht; subst. inversion Hw; subst. cbn [depth] in Hd.
    match goal with H : context [fold_right _ _ ?l] |- _ =>
      destruct (fold_depth l n) as (Hsh & _); [lia|] end.
    constructor; auto. apply Forall2_of_nth; [congruence|].
    intros i x y Hx Hy. eapply Hall; eauto using nth_error_In.
  - (* list *)
    inversion Ht; subst. inversion Hw; subst. cbn [depth] in Hd.
    match goal with H : context [fold_right _ _ ?l] |- _ =>
      destruct (fold_depth l n) as (Hsh & _); [lia|] end.
    constructor; auto. apply pairwise_of_forall. eapply Hall; eauto. tauto.
  - (* pair *)
    inversion Ht; subst. inversion Hw; subst. cbn [depth fold_right] in Hd.
    constructor; apply IHn; try tauto; lia.
  - (* tuple *)
    inversion Ht; subst. inversion Hw; subst. cbn [depth] in Hd.
    match goal with H : context [fold_right _ _ ?l] |- _ =>
      destruct (fold_depth l n) as (Hsh & _); [lia|] end.
    match goal with H1 : Forall2 (has_ty E) ?ts ?a, H2 : Forall2 (valid E) ?ts ?b |- _ =>
      destruct (Hflds ts a b Hp H1 H2 Hsh) end.
    constructor; auto.
  - inversion Hw; subst; constructor.
  - inversion Hw; subst; [now constructor|now constructor|now constructor].
  - (* unique_ptr *)
    inversion Hw; subst; [constructor| |congruence].
    inversion Ht; subst; [constructor| |congruence]. cbn [depth] in Hd.
    apply TgUnique; auto. apply IHn; auto; [lia|]. now apply Hp.
  - (* class *)
    inversion Ht; subst.
    + inversion Hw; subst; [econstructor; eauto|].
      match goal with H1 : cls E c = Some ?a, H2 : cls E c = Some ?b |- _ =>
        assert (a = b) by congruence; subst end.
      exfalso. match goal with H : cbyte _ = true -> _ |- _ => specialize (H ltac:(assumption)) end.
      congruence.
    + match goal with H : Forall2 _ (chain E c) ls |- _ => rename H into HF end.
      match goal with H : chain E c <> [] |- _ => rename H into Hne end.
      inversion Hw; subst.
      { exfalso. pose proof (chain_self _ _ wf _ Hne) as Hin.
        destruct (In_nth_error _ _ Hin) as (i & Hi).
        destruct (nth_error ls i) as [fs|] eqn:Efs.
        - destruct (Forall2_nth _ _ _ _ _ _ _ _ HF Hi Efs) as (k' & Hk' & Hb' & _). congruence.
        - apply nth_error_None in Efs. pose proof (Forall2_length _ _ _ _ _ HF).
          assert (i < length (chain E c))%nat by (apply nth_error_Some; congruence). lia. }
      match goal with H : Forall2 _ (chain E c) ls0 |- _ => rename H into HFv end.
      destruct Hp as (_ & Hp).
      cbn [depth] in Hd. destruct (fold_depth2 ls n) as (Hsh & _); [lia|].
      pose proof (Forall2_length _ _ _ _ _ HF). pose proof (Forall2_length _ _ _ _ _ HFv).
      constructor; [lia|].
      apply (Forall2_combine3_intro _ _ _ (fun c' fs ws => exists k0, cls E c' = Some k0 /\
        length fs = length ws /\
        Forall2 (fun t q => target anyC E t (fst q) (snd q)) (cfields k0) (combine fs ws))); try lia.
      intros i c' fs ws Hc Hv Hw'.
      destruct (Forall2_nth _ _ _ _ _ _ _ _ HF Hc Hv) as (k1 & Hk1 & Hb1 & _ & HF1).
      destruct (Forall2_nth _ _ _ _ _ _ _ _ HFv Hc Hw') as (k2 & Hk2 & [(Hb2 & _)|(_ & HF2)]);
        assert (k2 = k1) by congruence; subst k2; [congruence|].
      exists k1. rewrite Forall_forall in Hsh.
      destruct (Hp c' k1 (nth_error_In _ _ Hc) Hk1) as (HpT & _).
      destruct (Hflds _ _ _ HpT HF1 HF2 (Hsh _ (nth_error_In _ _ Hv))). auto.
Qed.

Lemma valid_target : forall t v w, T t -> has_ty E t v -> valid E t w -> target anyC E t v w.
Proof. intros. eapply valid_target_n; eauto. Qed.
End Again.
