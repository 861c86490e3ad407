(** C50: what the file calls leave open. *)
From Coq Require Import List NArith Arith Bool Lia.
From Verif Require Import Base Syntax Prog Serializers Traverse Spec ApiFacts Api Examples IO IOFacts PropFile.
Import ListNotations.
Local Open Scope N_scope.

(** The call ended by returning or by throwing: the caller goes on. *)
Definition goes_on {A} (r : res A) : Prop :=
  match r with Ok _ => True | Err e => is_exception e = true end.

(** The last thing the call did was to prepare the file, which failed: it was opened, and
    one of the calls between opening and mapping it, or mapping it, failed. *)
Definition setup_failed (w : world) : Prop :=
  exists tr s e, w_trace w = (SOpen, None) :: tr ++ [(s, Some e)] /\
    (s = SFstat \/ s = SFallocate \/ s = SFtruncate \/ s = SFsync \/ s = SMmap).

Section Release.
Variable oracle : nat -> option N.

Lemma destroy_released : forall wr w w', w_fd w = true -> destroy oracle wr w = (Ok tt, w') ->
  w_fd w' = false /\ w_map w' = false /\
  exists tr, w_trace w' = w_trace w ++ tr ++ [(SClose, None)].
Proof.
  intros wr w w' Hfd H. unfold destroy, close_file in H. rewrite Hfd in H.
  match type of H with (match ?p w with _ => _ end) = _ => destruct (p w) as [[[]|e] w1] eqn:E; [|discriminate] end.
  inversion H; subst; clear H.
  apply ibind_ok in E. destruct E as ([] & w1 & E1 & E).
  apply ibind_ok in E. destruct E as ([] & w2 & E2 & E3).
  apply or_throw_ok in E2. destruct E2 as (_ & _ & ->).
  apply or_throw_ok in E3. destruct E3 as (_ & _ & ->).
  split; [reflexivity|]. split; [reflexivity|].
  destruct wr.
  - apply or_throw_ok in E1. destruct E1 as (_ & _ & ->). cbn [w_trace called synced snap set_map set_fd].
    exists [(SMsync, None); (SMunmap, None)]. now rewrite <- !app_assoc.
  - inversion E1; subst. cbn [w_trace called synced snap set_map set_fd].
    exists [(SMunmap, None)]. now rewrite <- !app_assoc.
Qed.

Lemma scoped_released : forall A wr (p : io A) w r w', w_fd w = true ->
  (forall r1 w1, p w = (r1, w1) -> w_fd w1 = w_fd w) ->
  scoped oracle wr p w = (r, w') -> goes_on r ->
  w_fd w' = false /\ w_map w' = false /\ exists tr, w_trace w' = tr ++ [(SClose, None)].
Proof.
  intros A wr p w r w' Hfd Hp H Hg. unfold scoped in H.
  destruct (p w) as [[a|e] w1] eqn:Ep.
  - unfold ibind in H. destruct (destroy oracle wr w1) as [[[]|e] w2] eqn:Ed.
    + inversion H; subst. destruct (destroy_released wr w1 w') as (H1 & H2 & tr & H3).
      * rewrite <- Hfd. eauto.
      * exact Ed.
      * split; auto. split; auto. exists (w_trace w1 ++ tr). rewrite H3. now rewrite app_assoc.
    + inversion H; subst. unfold destroy in Ed. destruct (close_file oracle wr w1) as [[[]|e'] w3]; inversion Ed; subst.
      discriminate Hg.
  - destruct (is_exception e) eqn:He.
    + unfold ibind in H. destruct (destroy oracle wr w1) as [[[]|e'] w2] eqn:Ed.
      * inversion H; subst. destruct (destroy_released wr w1 w') as (H1 & H2 & tr & H3).
        -- rewrite <- Hfd. eauto.
        -- exact Ed.
        -- split; auto. split; auto. exists (w_trace w1 ++ tr). rewrite H3. now rewrite app_assoc.
      * inversion H; subst. unfold destroy in Ed. destruct (close_file oracle wr w1) as [[[]|e''] w3]; inversion Ed; subst.
        discriminate Hg.
    + inversion H; subst. cbn in Hg. congruence.
Qed.

(** The outcome of preparing the file. *)
Definition prepared (r : res unit) (w : world) : Prop :=
  match r with
  | Ok _ => w_fd w = true
  | Err _ => w_map w = false /\ (w_fd w = true <-> setup_failed w)
  end.

Lemma open_failed : forall w e, w_fd w = false -> w_map w = false -> w_trace w = [(SOpen, Some e)] ->
  prepared (Err RtErr) w.
Proof.
  intros w e Hf Hm Ht. split; auto. split; [congruence|]. intros (tr & s & e' & H & _).
  rewrite Ht in H. discriminate.
Qed.
Lemma later_failed : forall w tr s e, w_fd w = true -> w_map w = false ->
  w_trace w = (SOpen, None) :: tr ++ [(s, Some e)] ->
  s = SFstat \/ s = SFallocate \/ s = SFtruncate \/ s = SFsync \/ s = SMmap ->
  prepared (Err RtErr) w.
Proof. intros w tr s e Hf Hm Ht Hs. split; auto. split; auto. intros _. exists tr, s, e. auto. Qed.

Lemma read_prepared : forall c r w, setup_for_read oracle (boot c) = (r, w) -> prepared r w.
Proof.
  intros c r w H. unfold setup_for_read in H. destruct r as [[]|e].
  - apply ibind_ok in H. destruct H as ([] & w1 & E1 & H).
    apply ibind_ok in H. destruct H as ([] & w2 & E2 & E3).
    apply or_throw_ok in E1. destruct E1 as (_ & _ & ->).
    apply or_throw_ok in E2. destruct E2 as (_ & _ & ->).
    apply or_throw_ok in E3. destruct E3 as (_ & _ & ->). reflexivity.
  - apply ibind_err in H. destruct H as [E|([] & w1 & E1 & H)].
    { apply or_throw_err in E. destruct E as (-> & er & ->). eapply open_failed; reflexivity. }
    apply or_throw_ok in E1. destruct E1 as (_ & _ & ->).
    apply ibind_err in H. destruct H as [E|([] & w2 & E2 & E)].
    { apply or_throw_err in E. destruct E as (-> & er & ->).
      eapply (later_failed _ [] SFstat er); try reflexivity. auto. }
    apply or_throw_ok in E2. destruct E2 as (_ & _ & ->).
    apply or_throw_err in E. destruct E as (-> & er & ->).
    eapply (later_failed _ [(SFstat, None)] SMmap er); try reflexivity. auto.
Qed.

Lemma write_prepared : forall hf c size r w, setup_for_write oracle hf size (boot c) = (r, w) -> prepared r w.
Proof.
  intros hf c size r w H. unfold setup_for_write in H.
  assert (K : forall w0 tr0 r w, w_fd w0 = true -> w_map w0 = false -> w_trace w0 = (SOpen, None) :: tr0 ->
    (or_throw (syscall oracle SFtruncate None
                (fun w => set_file (Some (fit (N.to_nat size) (contents w))) w));;;
     or_throw (syscall oracle SFsync None synced);;;
     or_throw (syscall oracle SMmap (if size =? 0 then Some EINVAL else None) (set_map true)))%io w0 = (r, w) ->
    prepared r w).
  { clear. intros w0 tr0 r w Hf Hm Ht H. destruct r as [[]|e].
    - apply ibind_ok in H. destruct H as ([] & w1 & E1 & H).
      apply ibind_ok in H. destruct H as ([] & w2 & E2 & E3).
      apply or_throw_ok in E1. destruct E1 as (_ & _ & ->).
      apply or_throw_ok in E2. destruct E2 as (_ & _ & ->).
      apply or_throw_ok in E3. destruct E3 as (_ & _ & ->). exact Hf.
    - apply ibind_err in H. destruct H as [E|([] & w1 & E1 & H)].
      { apply or_throw_err in E. destruct E as (-> & er & ->).
        eapply (later_failed _ tr0 SFtruncate er); auto. cbn [called w_trace]. now rewrite Ht. }
      apply or_throw_ok in E1. destruct E1 as (_ & _ & ->).
      apply ibind_err in H. destruct H as [E|([] & w2 & E2 & E)].
      { apply or_throw_err in E. destruct E as (-> & er & ->).
        eapply (later_failed _ (tr0 ++ [(SFtruncate, None)]) SFsync er); auto.
        cbn [called w_trace set_file snap]. now rewrite Ht. }
      apply or_throw_ok in E2. destruct E2 as (_ & _ & ->).
      apply or_throw_err in E. destruct E as (-> & er & ->).
      eapply (later_failed _ ((tr0 ++ [(SFtruncate, None)]) ++ [(SFsync, None)]) SMmap er); auto 6.
      cbn [called w_trace set_file synced snap]. now rewrite Ht. }
  unfold ibind at 1 in H.
  match type of H with (match ?p (boot c) with _ => _ end) = _ => destruct (p (boot c)) as [[[]|e] w1] eqn:E1 end.
  2:{ inversion H; subst. apply or_throw_err in E1. destruct E1 as (-> & er & ->).
      eapply open_failed; reflexivity. }
  apply or_throw_ok in E1. destruct E1 as (_ & _ & ->).
  unfold ibind at 1 in H. destruct hf.
  - unfold ibind at 1 in H. unfold syscall at 1 in H.
    match type of H with context [match ?o with Some e => if e =? ENOSPC then _ else _ | None => _ end] => destruct o as [e|] eqn:Eo end.
    + destruct (e =? ENOSPC).
      * inversion H; subst. eapply (later_failed _ [] SFallocate e); try reflexivity. auto.
      * eapply K in H; [exact H| | |]; reflexivity.
    + eapply K in H; [exact H| | |]; reflexivity.
  - eapply K in H; [exact H| | |]; reflexivity.
Qed.

Lemma prepared_then : forall A wr (p : io A) w r w',
  (forall w r1 w1, p w = (r1, w1) -> w_fd w1 = w_fd w) ->
  forall (q : io unit), (forall r1 w1, q w = (r1, w1) -> prepared r1 w1) ->
  (q;;; scoped oracle wr p)%io w = (r, w') -> goes_on r ->
  w_map w' = false /\ (w_fd w' = true <-> setup_failed w').
Proof.
  intros A wr p w r w' Hp q Hq H Hg. unfold ibind in H. destruct (q w) as [[[]|e] w1] eqn:Eq.
  - pose proof (Hq _ _ eq_refl) as Hr. cbn in Hr.
    destruct (scoped_released A wr p w1 r w' Hr (Hp w1) H Hg) as (H1 & H2 & tr & H3).
    split; auto. rewrite H1. split; [discriminate|]. intros (tr' & s & e & H4 & _).
    rewrite H3 in H4. change ((SOpen, None) :: tr' ++ [(s, Some e)]) with (((SOpen, None) :: tr') ++ [(s, Some e)]) in H4.
    apply app_inj_tail in H4. destruct H4 as (_ & H4). discriminate.
  - inversion H; subst. exact (Hq _ _ eq_refl).
Qed.
End Release.

(** A file call that returns or throws leaves no mapping behind, and leaves the descriptor
    open exactly when the file could be opened but not prepared.  (After std::terminate or
    undefined behaviour nothing is claimed.)  Full statement: the descriptor is closed in
    that case as well; see [C50_refuted]. *)
Theorem C50_write_partial : forall oracle hf page E f t v c r w,
  serialize_to_file oracle hf page E f t v (boot c) = (r, w) -> goes_on r ->
  w_map w = false /\ (w_fd w = true <-> setup_failed w).
Proof.
  intros oracle hf page E f t v c r w H Hg. unfold serialize_to_file in H.
  destruct (get_size E f t v) as [[v1 size]|e].
  - eapply (prepared_then oracle); [| |exact H|exact Hg].
    + intros w0 r1 w1 Hp. unfold pack_file, pack_mapping in Hp.
      destruct (interp hpacker _ _ _) as [[[v' vf] [s h]]|e]; inversion Hp; subst; auto.
      generalize (rev h). intros ms. revert w0 Hp. induction ms as [|m ms IH]; intros w0 Hp; cbn [fold_left]; auto.
      clear Hp. assert (G : forall ms w0 n, w_fd (fold_left (fun w m => set_file (Some (firstn n m)) w) ms w0) = w_fd w0).
      { clear. induction ms; intros; cbn [fold_left]; auto. rewrite IHms. reflexivity. }
      rewrite G. reflexivity.
    + intros r1 w1. apply write_prepared.
  - inversion H; subst. split; [reflexivity|]. split; [discriminate|].
    intros (tr & s & e' & H1 & _). discriminate.
Qed.
Print Assumptions C50_write_partial.

Theorem C50_read_partial : forall oracle page E f t o c r w,
  deserialize_in_place_from_file oracle page E f t o (boot c) = (r, w) -> goes_on r ->
  w_map w = false /\ (w_fd w = true <-> setup_failed w).
Proof.
  intros oracle page E f t o c r w H Hg. unfold deserialize_in_place_from_file in H.
  eapply (prepared_then oracle); [| |exact H|exact Hg].
  - intros w0 r1 w1 Hp. unfold unpack_file in Hp.
    destruct (unpack_memory _ _ _ _ _ _) as [[x n]|e]; inversion Hp; subst; auto.
  - intros r1 w1. apply read_prepared.
Qed.
Print Assumptions C50_read_partial.

Theorem C50_read_new_partial : forall oracle page E f t c r w,
  deserialize_from_file oracle page E f t (boot c) = (r, w) -> goes_on r ->
  w_map w = false /\ (w_fd w = true <-> setup_failed w).
Proof.
  intros oracle page E f t c r w H Hg. unfold deserialize_from_file in H.
  destruct (recon E t); [eapply C50_read_partial; eauto|].
  inversion H; subst. discriminate Hg.
Qed.
Print Assumptions C50_read_new_partial.

(** Reading an empty file, which can be opened but not mapped, throws and leaves it open;
    so does writing when the disk is full. *)
Theorem C50_refuted :
  (exists w, deserialize_from_file no_faults pg (ex true) 12 t_shapes (boot (Some [])) = (Err RtErr, w) /\
     w_fd w = true) /\
  (exists oracle w, serialize_to_file oracle true pg (ex true) 12 t_shapes v_shapes (boot None) = (Err RtErr, w) /\
     w_fd w = true).
Proof.
  split.
  - eexists. split; [vm_compute; reflexivity|]. reflexivity.
  - exists (fun n => if Nat.eqb n 1 then Some ENOSPC else None). eexists.
    split; [vm_compute; reflexivity|]. reflexivity.
Qed.
Print Assumptions C50_refuted.

(** Released after success, and after an exception thrown by the traversal (the file holds
    a node, a vector of shapes is expected). *)
Example C50_case :
  (let '(r, w) := serialize_to_file no_faults true pg (ex true) 12 t_shapes v_shapes (boot None) in
   match r with Ok _ => w_fd w = false /\ w_map w = false | Err _ => False end) /\
  (let '(_, w) := serialize_to_file no_faults true pg (ex true) 12 (TClass 0) v_node (boot None) in
   let '(r, w1) := deserialize_from_file no_faults pg (ex true) 12 t_shapes (boot (w_file w)) in
   match r with
   | Err e => is_exception e = true /\ w_fd w1 = false /\ w_map w1 = false
   | Ok _ => False
   end).
Proof. vm_compute. auto. Qed.
