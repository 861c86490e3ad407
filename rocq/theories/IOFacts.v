(** Facts about the file entry points. *)
From Coq Require Import List NArith Arith Bool Lia.
From Coq.Strings Require Import Byte.
From Verif Require Import Base Syntax Prog Serializers Traverse Spec ProgFacts EnvFacts ValFacts
  Pack Unpack Api ApiFacts Registry RegistryFacts IO.
Import ListNotations.
Local Open Scope N_scope.

Definition zeros (n : nat) : bytes := repeat x00 n.

(** [k] bytes of [out] written over zeros. *)
Definition partly (k : nat) (out : bytes) : bytes := firstn k out ++ zeros (length out - k).

Lemma zeros_len : forall n, length (zeros n) = n.
Proof. intros. apply repeat_length. Qed.
Lemma zeros_app : forall a b, zeros a ++ zeros b = zeros (a + b).
Proof. intros. unfold zeros. symmetry. apply repeat_app. Qed.
Lemma zeros_firstn : forall k n, firstn k (zeros n) = zeros (Nat.min k n).
Proof.
  induction k; intros [|n]; cbn; auto. now rewrite IHk.
Qed.
Lemma zeros_skipn : forall k n, skipn k (zeros n) = zeros (n - k).
Proof. induction k; intros [|n]; cbn; auto. Qed.
Lemma partly_len : forall k out, length (partly k out) = length out.
Proof. intros. unfold partly. rewrite app_length, firstn_length, zeros_len. lia. Qed.
Lemma partly_all : forall k out, (length out <= k)%nat -> partly k out = out.
Proof.
  intros. unfold partly. rewrite firstn_all2 by lia.
  replace (length out - k)%nat with 0%nat by lia. apply app_nil_r.
Qed.
Lemma partly_0 : forall out, partly 0 out = zeros (length out).
Proof. intros. unfold partly. cbn. now rewrite Nat.sub_0_r. Qed.

Lemma emits_hpacker : forall A (p : prog A) vf a vf' out,
  emits p vf a vf' out ->
  forall before old after n u h, length old = length out -> n = length before ->
  exists h',
  interp hpacker p vf
    ({| p_buf := before ++ old ++ after; p_cur := n; p_used := wrap64 u |}, h)
  = Ok (a, vf', ({| p_buf := before ++ out ++ after; p_cur := n + length out;
                   p_used := wrap64 (u + len out) |}, h' ++ h)) /\
  Forall (fun m => exists k, m = before ++ (firstn k out ++ skipn k old) ++ after) h' /\
  match h' with [] => out = [] | m :: _ => m = before ++ out ++ after end.
Proof.
  intros A p. induction p; intros vf x vf' out He before old after n0 u h Hl Hn; cbn [interp].
  - specialize (He []). cbn in He. inversion He; subst.
    destruct old; [|discriminate]. rewrite len_nil, N.add_0_r, Nat.add_0_r.
    exists []. split; [reflexivity|]. split; [constructor|reflexivity].
  - apply emits_inv_contig in He. destruct He as (o & -> & He).
    rewrite app_length in Hl.
    assert (Hold : exists o1 o2, old = o1 ++ o2 /\ length o1 = length b /\ length o2 = length o).
    { exists (firstn (length b) old), (skipn (length b) old).
      rewrite firstn_skipn, firstn_length, skipn_length. split; [reflexivity|lia]. }
    destruct Hold as (o1 & o2 & -> & Hl1 & Hl2).
    cbn [contig hpacker packer p_buf p_cur p_used fst snd].
    rewrite <- app_assoc. rewrite write_at_next by auto.
    rewrite (app_assoc before b (o2 ++ after)).
    rewrite wrap64_add.
    destruct (H _ _ _ _ _ He (before ++ b) o2 after (n0 + length b)%nat (u + len b)
                (((before ++ b) ++ o2 ++ after) :: h)) as (h' & Hi & Hf & Hlast); auto.
    { rewrite app_length. lia. }
    cbn [p_buf]. exists (h' ++ [(before ++ b) ++ o2 ++ after]). split; [|split].
    + refine (eq_trans Hi _). rewrite <- !app_assoc. cbn [app]. rewrite app_length, len_app.
      do 2 f_equal. f_equal. f_equal; try lia. f_equal; lia.
    + apply Forall_app. split.
      * eapply Forall_impl; [|exact Hf]. intros m (k0 & ->).
        exists (length b + k0)%nat. rewrite firstn_app_2.
        rewrite (skipn_app _ o1 o2), (@skipn_all2 _ (length b + k0) o1) by lia. cbn [app].
        replace (length b + k0 - length o1)%nat with k0 by lia.
        now rewrite <- !app_assoc.
      * constructor; [|constructor]. exists (length b).
        rewrite firstn_app, Nat.sub_diag, firstn_all, firstn_O, app_nil_r.
        rewrite <- Hl1, skipn_app, skipn_all, Nat.sub_diag, skipn_O. cbn [app].
        now rewrite <- !app_assoc.
    + destruct h' as [|m h']; cbn [app].
      * subst o. destruct o2; [|discriminate]. rewrite app_nil_r. now rewrite <- app_assoc.
      * rewrite Hlast. now rewrite <- !app_assoc.
  - apply IHp; auto.
  - apply H; auto.
  - apply IHp; auto.
  - apply IHp; auto.
  - specialize (He []). discriminate.
Qed.

(** ** The buffer *)

(** A call that succeeded, or whose failure io_buffer.cc:152-157 tolerates. *)
Definition benign (c : sys * option N) : Prop :=
  snd c = None \/ (fst c = SFallocate /\ exists e, snd c = Some e /\ e <> ENOSPC).

Ltac io_unfold :=
  unfold or_throw, ibind, iret, ifail, syscall in *.

Section Buffer.
Variable oracle : nat -> option N.
Variable hf : bool.

Lemma or_throw_ok : forall s forced eff w u w',
  or_throw (syscall oracle s forced eff) w = (Ok u, w') ->
  forced = None /\ oracle (w_n w) = None /\ w' = eff (called s None w).
Proof.
  intros s forced eff w u w' H. io_unfold.
  destruct forced as [e|]; [discriminate|]. destruct (oracle (w_n w)) as [e|]; [discriminate|].
  inversion H; auto.
Qed.
Lemma or_throw_err : forall s forced eff w e w',
  or_throw (syscall oracle s forced eff) w = (Err e, w') ->
  e = RtErr /\ exists er, w' = called s (Some er) w.
Proof.
  intros s forced eff w e w' H. io_unfold.
  destruct forced as [e1|]; [inversion H; subst; eauto|].
  destruct (oracle (w_n w)) as [e1|]; inversion H; subst; eauto.
Qed.
Lemma or_throw_run : forall s eff w,
  oracle (w_n w) = None ->
  or_throw (syscall oracle s None eff) w = (Ok tt, eff (called s None w)).
Proof. intros s eff w H. io_unfold. now rewrite H. Qed.

Lemma ibind_ok : forall A B (p : io A) (f : A -> io B) w b w',
  ibind p f w = (Ok b, w') -> exists a w1, p w = (Ok a, w1) /\ f a w1 = (Ok b, w').
Proof.
  intros A B p f w b w' H. unfold ibind in H. destruct (p w) as [[a|e] w1]; [eauto|discriminate].
Qed.
Lemma ibind_err : forall A B (p : io A) (f : A -> io B) w e w',
  ibind p f w = (Err e, w') ->
  p w = (Err e, w') \/ exists a w1, p w = (Ok a, w1) /\ f a w1 = (Err e, w').
Proof.
  intros A B p f w e w' H. unfold ibind in H.
  destruct (p w) as [[a|e1] w1]; [right; eauto|left; inversion H; auto].
Qed.

(** Versions of the file before the first flush: emptied, then filled with zeros. *)
Definition emptied (out : bytes) (dirty : list (option bytes)) : Prop :=
  exists r, dirty = Some [] :: r /\
    Forall (fun d => d = Some [] \/ d = Some (zeros (length out))) r.

Lemma emptied_snoc : forall out dirty d, emptied out dirty ->
  d = Some [] \/ d = Some (zeros (length out)) -> emptied out (dirty ++ [d]).
Proof.
  intros out dirty d (r & -> & Hr) Hd. exists (r ++ [d]). split; auto.
  apply Forall_app. auto.
Qed.

(** States a crash can meet while new contents [out] replace [old]. *)
Definition snap_ok (old : option bytes) (out : bytes) (s : option bytes * list (option bytes)) : Prop :=
  (fst s = old /\ emptied out (snd s)) \/
  (fst s = Some (zeros (length out)) /\
     Forall (fun d => exists k, d = Some (partly k out)) (snd s)) \/
  (fst s = Some out /\ snd s = []).

Lemma fit_zeros : forall n c, c = [] \/ c = zeros n -> fit n c = zeros n.
Proof.
  intros n c [->| ->]; unfold fit.
  - rewrite firstn_nil. cbn. now rewrite Nat.sub_0_r.
  - rewrite zeros_firstn, zeros_len, Nat.min_id, Nat.sub_diag. cbn. apply app_nil_r.
Qed.

(** What setupForWrite achieves, whatever fails. *)
Lemma setup_write : forall out old w r w',
  out <> [] ->
  w_disk w = old -> w_dirty w = [] ->
  setup_for_write oracle hf (len out) w = (r, w') ->
  (exists tr, w_trace w' = w_trace w ++ tr /\
     (r = Ok tt -> Forall benign tr /\ (hf = false -> Forall (fun c => snd c = None) tr)) /\
     (forall e, r = Err e -> e = RtErr /\ exists c, In c tr /\ snd c <> None)) /\
  (exists sn, w_snaps w' = w_snaps w ++ sn /\ Forall (snap_ok old out) sn) /\
  (r = Ok tt ->
     w_file w' = Some (zeros (length out)) /\ w_disk w' = Some (zeros (length out)) /\
     w_dirty w' = [] /\ w_fd w' = true /\ w_map w' = true).
Proof.
  intros out old w r w' Hne Hd Hdirty H. unfold setup_for_write in H.
  assert (Hz : (len out =? 0) = false).
  { apply N.eqb_neq. unfold len. destruct out; [congruence|cbn [length]; lia]. }
  rewrite Hz, len_nat in H. clear Hz.
  set (w1 := set_file (Some []) (set_fd true (called SOpen None w))) in *.
  assert (S1 : snap_ok old out (old, [Some []])).
  { left. cbn. split; auto. exists []. auto. }
  destruct (or_throw (syscall oracle SOpen None (fun w => set_file (Some []) (set_fd true w))) w)
    as [[[]|e] w1'] eqn:E1.
  2:{ unfold ibind at 1 in H. rewrite E1 in H. inversion H; subst; clear H.
      apply or_throw_err in E1. destruct E1 as (-> & er & ->).
      split; [|split].
      - exists [(SOpen, Some er)]. split; [reflexivity|]. split; [discriminate|].
        intros e He. inversion He. split; auto. exists (SOpen, Some er). split; [left; auto|discriminate].
      - exists []. cbn. rewrite app_nil_r. split; auto.
      - discriminate. }
  unfold ibind at 1 in H. rewrite E1 in H.
  apply or_throw_ok in E1. destruct E1 as (_ & _ & E1). fold w1 in E1. subst w1'.
  assert (Hw1 : w_file w1 = Some [] /\ w_disk w1 = old /\ w_dirty w1 = [Some []] /\
                w_fd w1 = true /\ w_trace w1 = w_trace w ++ [(SOpen, None)] /\
                w_snaps w1 = w_snaps w ++ [(old, [Some []])]).
  { cbn. rewrite Hd, Hdirty. cbn. repeat split; auto. }
  destruct Hw1 as (F1 & D1 & Y1 & O1 & T1 & N1). clearbody w1.
  (* fallocate *)
  match type of H with ibind ?p _ _ = _ => destruct (p w1) as [[[]|e] w2] eqn:E2 end.
  2:{ unfold ibind at 1 in H. rewrite E2 in H. inversion H; subst r w'; clear H.
      destruct hf; [|discriminate].
      unfold ibind, syscall, ifail, iret in E2.
      destruct (oracle (w_n w1)) as [er|]; [|discriminate].
      destruct (er =? ENOSPC) eqn:Eer; [|discriminate]. inversion E2; subst; clear E2.
      split; [|split].
      - exists [(SOpen, None); (SFallocate, Some er)]. cbn. rewrite T1, <- app_assoc.
        split; [reflexivity|]. split; [discriminate|].
        intros e He. inversion He. split; auto.
        exists (SFallocate, Some er). split; [right; left; auto|discriminate].
      - cbn. rewrite N1. eexists. split; [reflexivity|]. constructor; auto.
      - discriminate. }
  unfold ibind at 1 in H. rewrite E2 in H.
  assert (Hw2 : exists tr, w_trace w2 = w_trace w1 ++ tr /\ Forall benign tr /\
            (hf = false -> tr = []) /\
            (contents w2 = [] \/ contents w2 = zeros (length out)) /\
            w_disk w2 = old /\
            emptied out (w_dirty w2) /\
            w_fd w2 = true /\
            exists sn, w_snaps w2 = w_snaps w1 ++ sn /\ Forall (snap_ok old out) sn).
  { destruct hf.
    - unfold ibind, syscall, ifail, iret in E2.
      destruct (oracle (w_n w1)) as [er|].
      + destruct (er =? ENOSPC) eqn:Eer; [discriminate|]. inversion E2; subst; clear E2.
        exists [(SFallocate, Some er)]. split; [reflexivity|].
        split. { constructor; auto. right. split; auto. exists er. split; auto.
                 apply N.eqb_neq; auto. }
        split; [discriminate|]. unfold contents. cbn. rewrite F1. split; auto. split; auto.
        rewrite Y1. split; [exists []; auto|]. split; auto. exists []. rewrite app_nil_r. auto.
      + inversion E2; subst; clear E2. exists [(SFallocate, None)]. split; [reflexivity|].
        split; [constructor; auto; left; auto|]. split; [discriminate|].
        unfold contents, called. cbn. rewrite F1. cbn. rewrite Nat.sub_0_r.
        split; [right; reflexivity|]. split; auto. rewrite Y1. cbn.
        assert (HF : emptied out [Some []; Some (repeat x00 (length out))]).
        { eexists. split; [reflexivity|]. constructor; [right; reflexivity|constructor]. }
        split; [exact HF|]. split; auto.
        eexists. split; [reflexivity|]. constructor; auto. left. cbn. split; auto.
    - inversion E2; subst; clear E2. exists []. rewrite app_nil_r. split; auto. split; auto.
      split; auto. unfold contents. rewrite F1. split; auto. split; auto. rewrite Y1.
      split; [exists []; auto|]. split; auto. exists []. rewrite app_nil_r. auto. }
  destruct Hw2 as (tr2 & T2 & B2 & Hf2 & C2 & D2 & Y2 & O2 & sn2 & N2 & S2).
  clear E2 F1 D1 Y1 O1. rewrite T1 in T2. rewrite N1 in N2. clear T1 N1 w1.
  assert (Htr : exists tr, w_trace w2 = w_trace w ++ tr /\ Forall benign tr /\
            (hf = false -> Forall (fun c => snd c = None) tr)).
  { exists ([(SOpen, None)] ++ tr2). rewrite T2, <- app_assoc. split; auto. split.
    - constructor; auto. left; auto.
    - intros Hf. rewrite (Hf2 Hf). constructor; auto. }
  assert (Hsn : exists sn, w_snaps w2 = w_snaps w ++ sn /\ Forall (snap_ok old out) sn).
  { exists ([(old, [Some []])] ++ sn2). rewrite N2, <- app_assoc. split; auto. constructor; auto. }
  clear T2 B2 Hf2 N2 S1 S2 tr2 sn2.
  destruct Htr as (tr & T2 & B2' & B2f). destruct Hsn as (sn & N2 & S2').
  (* ftruncate *)
  match type of H with ibind ?p _ _ = _ => destruct (p w2) as [[[]|e] w3] eqn:E3 end.
  2:{ unfold ibind at 1 in H. rewrite E3 in H. inversion H; subst r w'; clear H.
      apply or_throw_err in E3. destruct E3 as (-> & er & ->).
      split; [|split].
      - exists (tr ++ [(SFtruncate, Some er)]). cbn. rewrite T2, <- app_assoc.
        split; [reflexivity|]. split; [discriminate|]. intros e He. inversion He. split; auto.
        exists (SFtruncate, Some er). split; [apply in_or_app; right; left; auto|discriminate].
      - exists sn. cbn. split; auto.
      - discriminate. }
  unfold ibind at 1 in H. rewrite E3 in H.
  apply or_throw_ok in E3. destruct E3 as (_ & _ & E3).
  assert (Hw3 : w_file w3 = Some (zeros (length out)) /\ w_disk w3 = old /\ w_fd w3 = true /\
            w_trace w3 = w_trace w ++ (tr ++ [(SFtruncate, None)]) /\
            exists sn', w_snaps w3 = w_snaps w ++ sn' /\ Forall (snap_ok old out) sn').
  { subst w3. cbn [w_file w_disk w_dirty w_fd w_trace w_snaps set_file snap called].
    change (contents (called SFtruncate None w2)) with (contents w2).
    rewrite fit_zeros by auto. rewrite T2, <- app_assoc.
    repeat split; auto. rewrite N2. exists (sn ++ [(old, w_dirty w2 ++ [Some (zeros (length out))])]).
    rewrite D2, <- app_assoc. split; auto. apply Forall_app. split; auto. constructor; auto.
    left. cbn. split; auto. apply emptied_snoc; auto. }
  clear E3 C2 D2 Y2 O2 T2 N2 S2' w2.
  destruct Hw3 as (F3 & D3 & O3 & T3 & sn3 & N3 & S3).
  assert (B3 : Forall benign (tr ++ [(SFtruncate, None)])).
  { apply Forall_app; split; auto. constructor; auto. left; auto. }
  assert (B3f : hf = false -> Forall (fun c => snd c = None) (tr ++ [(SFtruncate, @None N)])).
  { intros Hf. apply Forall_app; split; auto. }
  set (tr3 := tr ++ [(SFtruncate, @None N)]) in *. clearbody tr3. clear B2' B2f sn.
  (* fsync *)
  match type of H with ibind ?p _ _ = _ => destruct (p w3) as [[[]|e] w4] eqn:E4 end.
  2:{ unfold ibind at 1 in H. rewrite E4 in H. inversion H; subst r w'; clear H.
      apply or_throw_err in E4. destruct E4 as (-> & er & ->).
      split; [|split].
      - exists (tr3 ++ [(SFsync, Some er)]). cbn. rewrite T3, <- app_assoc.
        split; [reflexivity|]. split; [discriminate|]. intros e He. inversion He. split; auto.
        exists (SFsync, Some er). split; [apply in_or_app; right; left; auto|discriminate].
      - exists sn3. cbn. split; auto.
      - discriminate. }
  unfold ibind at 1 in H. rewrite E4 in H.
  apply or_throw_ok in E4. destruct E4 as (_ & _ & E4).
  assert (Hw4 : w_file w4 = Some (zeros (length out)) /\ w_disk w4 = Some (zeros (length out)) /\
            w_dirty w4 = [] /\ w_fd w4 = true /\
            w_trace w4 = w_trace w ++ (tr3 ++ [(SFsync, None)]) /\
            exists sn', w_snaps w4 = w_snaps w ++ sn' /\ Forall (snap_ok old out) sn').
  { subst w4. cbn. rewrite T3, <- app_assoc, F3. repeat split; auto.
    rewrite N3. exists (sn3 ++ [(Some (zeros (length out)), [])]).
    rewrite <- app_assoc. split; auto. apply Forall_app. split; auto. constructor; auto.
    right. left. cbn. split; auto. }
  clear E4 F3 D3 O3 T3 N3 S3 w3 sn3.
  destruct Hw4 as (F4 & D4 & Y4 & O4 & T4 & sn4 & N4 & S4).
  assert (B4 : Forall benign (tr3 ++ [(SFsync, None)])).
  { apply Forall_app; split; auto. constructor; auto. left; auto. }
  assert (B4f : hf = false -> Forall (fun c => snd c = None) (tr3 ++ [(SFsync, @None N)])).
  { intros Hf. apply Forall_app; split; auto. }
  set (tr4 := tr3 ++ [(SFsync, @None N)]) in *. clearbody tr4. clear B3 B3f.
  (* mmap *)
  destruct r as [[]|e].
  - apply or_throw_ok in H. destruct H as (_ & _ & ->).
    split; [|split].
    + exists (tr4 ++ [(SMmap, None)]). cbn. rewrite T4, <- app_assoc. split; [reflexivity|].
      split; [|discriminate]. intros _. split.
      * apply Forall_app; split; auto. constructor; auto. left; auto.
      * intros Hf. apply Forall_app; split; auto.
    + exists sn4. cbn. split; auto.
    + intros _. cbn. repeat split; auto.
  - apply or_throw_err in H. destruct H as (-> & er & ->).
    split; [|split].
    + exists (tr4 ++ [(SMmap, Some er)]). cbn. rewrite T4, <- app_assoc.
      split; [reflexivity|]. split; [discriminate|]. intros e He. inversion He. split; auto.
      exists (SMmap, Some er). split; [apply in_or_app; right; left; auto|discriminate].
    + exists sn4. cbn. split; auto.
    + discriminate.
Qed.

(** The destructor. *)
Lemma destroy_ok : forall wr w w', w_fd w = true ->
  destroy oracle wr w = (Ok tt, w') ->
  w_fd w' = false /\ w_map w' = false /\ w_file w' = w_file w /\
  (exists tr, w_trace w' = w_trace w ++ tr /\ Forall (fun c => snd c = None) tr) /\
  if wr then w_disk w' = w_file w /\ w_dirty w' = [] /\ w_snaps w' = w_snaps w ++ [(w_file w, [])]
  else w_disk w' = w_disk w /\ w_dirty w' = w_dirty w /\ w_snaps w' = w_snaps w.
Proof.
  intros wr w w' Hfd H. unfold destroy, close_file in H. rewrite Hfd in H.
  match type of H with (match ?p w with _ => _ end) = _ => destruct (p w) as [[[]|e] w1] eqn:E; [|discriminate] end.
  inversion H; subst; clear H.
  apply ibind_ok in E. destruct E as ([] & w1 & E1 & E).
  apply ibind_ok in E. destruct E as ([] & w2 & E2 & E3).
  apply or_throw_ok in E2. destruct E2 as (_ & _ & ->).
  apply or_throw_ok in E3. destruct E3 as (_ & _ & ->).
  destruct wr.
  - apply or_throw_ok in E1. destruct E1 as (_ & _ & ->). cbn.
    repeat split; auto. rewrite <- !app_assoc. eexists. split; [reflexivity|]. repeat constructor.
  - inversion E1; subst. cbn. repeat split; auto. rewrite <- !app_assoc.
    eexists. split; [reflexivity|]. repeat constructor.
Qed.

Lemma destroy_err : forall wr w e w', w_fd w = true ->
  destroy oracle wr w = (Err e, w') ->
  e = Terminate /\ (exists tr, w_trace w' = w_trace w ++ tr /\ exists c, In c tr /\ snd c <> None) /\
  (w_snaps w' = w_snaps w \/ (wr = true /\ w_snaps w' = w_snaps w ++ [(w_file w, [])])).
Proof.
  intros wr w e w' Hfd H. unfold destroy, close_file in H. rewrite Hfd in H.
  match type of H with (match ?p w with _ => _ end) = _ => destruct (p w) as [[[]|e1] w1] eqn:E; [discriminate|] end.
  inversion H; subst; clear H. split; auto.
  apply ibind_err in E. destruct E as [E|([] & w1 & E1 & E)].
  { destruct wr; [|discriminate]. apply or_throw_err in E. destruct E as (_ & er & ->).
    cbn. split; [|left; reflexivity]. eexists. split; [reflexivity|].
    eexists. split; [left; reflexivity|discriminate]. }
  assert (H1 : (exists tr, w_trace w1 = w_trace w ++ tr) /\
     (w_snaps w1 = w_snaps w \/ (wr = true /\ w_snaps w1 = w_snaps w ++ [(w_file w, [])]))).
  { destruct wr.
    - apply or_throw_ok in E1. destruct E1 as (_ & _ & ->). cbn. split; [eauto|]. right. auto.
    - inversion E1; subst. split; [exists []; now rewrite app_nil_r|left; auto]. }
  destruct H1 as ((tr & T1) & N1).
  apply ibind_err in E. destruct E as [E|([] & w2 & E2 & E)].
  { apply or_throw_err in E. destruct E as (_ & er & ->). cbn. split; [|exact N1].
    exists (tr ++ [(SMunmap, Some er)]). rewrite T1, app_assoc. split; auto.
    eexists. split; [apply in_or_app; right; left; reflexivity|discriminate]. }
  apply or_throw_ok in E2. destruct E2 as (_ & _ & ->).
  apply or_throw_err in E. destruct E as (_ & er & ->). cbn. split; [|exact N1].
  exists (tr ++ [(SMunmap, None); (SClose, Some er)]). rewrite T1, <- !app_assoc. split; auto.
  eexists. split; [apply in_or_app; right; right; left; reflexivity|discriminate].
Qed.

(** setupForRead *)
Lemma setup_read : forall w r w',
  setup_for_read oracle w = (r, w') ->
  (exists tr, w_trace w' = w_trace w ++ tr /\
     (r = Ok tt -> Forall (fun c => snd c = None) tr) /\
     (forall e, r = Err e -> e = RtErr /\ exists c, In c tr /\ snd c <> None)) /\
  (r = Ok tt -> w_file w' = w_file w /\ contents w <> [] /\ w_fd w' = true).
Proof.
  intros w r w' H. unfold setup_for_read in H.
  destruct r as [[]|e].
  - apply ibind_ok in H. destruct H as ([] & w1 & E1 & H).
    apply ibind_ok in H. destruct H as ([] & w2 & E2 & E3).
    apply or_throw_ok in E1. destruct E1 as (Ef & _ & ->).
    apply or_throw_ok in E2. destruct E2 as (_ & _ & ->).
    apply or_throw_ok in E3. destruct E3 as (Ec & _ & ->).
    split.
    + cbn. rewrite <- !app_assoc. eexists. split; [reflexivity|]. split; [|discriminate].
      intros _. repeat constructor.
    + intros _. cbn. split; auto. split; auto. intros Hc. rewrite Hc in Ec. discriminate.
  - split; [|discriminate].
    apply ibind_err in H. destruct H as [E|([] & w1 & E1 & H)].
    { apply or_throw_err in E. destruct E as (-> & er & ->). cbn. eexists. split; [reflexivity|].
      split; [discriminate|]. intros e He. inversion He. split; auto.
      eexists. split; [left; reflexivity|discriminate]. }
    apply or_throw_ok in E1. destruct E1 as (Ef & _ & ->).
    apply ibind_err in H. destruct H as [E|([] & w2 & E2 & E)].
    { apply or_throw_err in E. destruct E as (-> & er & ->). cbn. rewrite <- !app_assoc.
      eexists. split; [reflexivity|].
      split; [discriminate|]. intros e He. inversion He. split; auto.
      eexists. split; [right; left; reflexivity|discriminate]. }
    apply or_throw_ok in E2. destruct E2 as (_ & _ & ->).
    apply or_throw_err in E. destruct E as (-> & er & ->). cbn. rewrite <- !app_assoc.
    eexists. split; [reflexivity|].
    split; [discriminate|]. intros e He. inversion He. split; auto.
    eexists. split; [right; right; left; reflexivity|discriminate].
Qed.
End Buffer.

(** ** Whole calls *)
Section Calls.
Variable oracle : nat -> option N.
Variable hf : bool.
Variable page : nat.
Variable E : env.
Hypothesis wf : wf_env any E.

Lemma map_mem_eq : forall c, exists n, map_mem page c = c ++ zeros n.
Proof. intros c. unfold map_mem. eexists. reflexivity. Qed.

Lemma fold_versions : forall out ms w,
  w_disk w = Some (zeros (length out)) ->
  Forall (fun d => exists k, d = Some (partly k out)) (w_dirty w) ->
  Forall (fun m => exists k, firstn (length out) m = partly k out) ms ->
  let w' := fold_left (fun w m => set_file (Some (firstn (length out) m)) w) ms w in
  w_disk w' = w_disk w /\ w_fd w' = w_fd w /\ w_map w' = w_map w /\ w_trace w' = w_trace w /\
  w_n w' = w_n w /\
  Forall (fun d => exists k, d = Some (partly k out)) (w_dirty w') /\
  (exists sn, w_snaps w' = w_snaps w ++ sn /\ Forall (fun s => fst s = Some (zeros (length out)) /\
      Forall (fun d => exists k, d = Some (partly k out)) (snd s)) sn).
Proof.
  intros out ms. induction ms as [|m ms IH]; intros w Hd Hy Hm; cbn [fold_left].
  - repeat split; auto. exists []. rewrite app_nil_r. auto.
  - inversion Hm as [|? ? (k & Hk) Hm']; subst.
    set (w1 := set_file (Some (firstn (length out) m)) w).
    assert (Hy1 : Forall (fun d => exists k, d = Some (partly k out)) (w_dirty w1)).
    { cbn. apply Forall_app. split; auto. constructor; auto. exists k. now rewrite Hk. }
    specialize (IH w1 Hd Hy1 Hm'). cbn zeta in IH.
    destruct IH as (A & B & C & D & G & F & sn & S1 & S2).
    repeat split; auto.
    exists ((w_disk w1, w_dirty w1) :: sn). cbn zeta. rewrite S1. cbn [w1 set_file snap w_snaps].
    rewrite <- app_assoc. split; [reflexivity|]. constructor; auto.
Qed.

Lemma fold_last : forall n ms m w,
  w_file (fold_left (fun w m => set_file (Some (firstn n m)) w) (ms ++ [m]) w)
  = Some (firstn n m).
Proof. intros. rewrite fold_left_app. reflexivity. Qed.

Lemma pack_mapping_ok : forall T (p : prog T) v out w,
  emits p false v false out -> out <> [] ->
  w_file w = Some (zeros (length out)) -> w_disk w = Some (zeros (length out)) ->
  w_dirty w = [] ->
  exists w', pack_mapping page p w = (Ok v, w') /\
    w_file w' = Some out /\ w_disk w' = w_disk w /\ w_fd w' = w_fd w /\ w_map w' = w_map w /\
    w_trace w' = w_trace w /\ w_n w' = w_n w /\
    (exists sn, w_snaps w' = w_snaps w ++ sn /\
       Forall (fun s => fst s = Some (zeros (length out)) /\
         Forall (fun d => exists k, d = Some (partly k out)) (snd s)) sn).
Proof.
  intros T p v out w Hem Hne Hf Hdisk Hdirty. unfold pack_mapping, contents. rewrite Hf.
  destruct (map_mem_eq (zeros (length out))) as (n & Hn). rewrite Hn.
  pose proof (emits_hpacker _ _ _ _ _ _ Hem
    [] (zeros (length out)) (zeros n) 0%nat 0 [] (zeros_len _) eq_refl) as (h & Hi & Hh & Hlast).
  cbn [app] in Hi. change (wrap64 0) with 0 in Hi.
  change (state hpacker) with (pmem * list bytes)%type in *.
  rewrite Hi. rewrite app_nil_r, zeros_len.
  destruct h as [|m h]; [contradiction|].
  assert (Hms : Forall (fun m => exists k, firstn (length out) m = partly k out) (rev (m :: h))).
  { apply Forall_rev. eapply Forall_impl; [|exact Hh]. intros a (k & ->). exists k. cbn [app].
    rewrite zeros_skipn. fold (partly k out). rewrite firstn_app, partly_len, Nat.sub_diag, firstn_O.
    rewrite app_nil_r. apply firstn_all2. rewrite partly_len. lia. }
  destruct (fold_versions out (rev (m :: h)) w Hdisk) as (A & B & C & D & G & F & Sn); auto.
  { rewrite Hdirty. constructor. }
  eexists. split; [reflexivity|]. split.
  - cbn [rev]. rewrite fold_last. rewrite Hlast. cbn [app].
    rewrite firstn_app, Nat.sub_diag, firstn_all, firstn_O, app_nil_r. reflexivity.
  - repeat split; auto.
Qed.

Lemma pack_file_ok : forall f t v w,
  has_ty E t v -> (depth v < f)%nat -> enc_root E t v <> [] ->
  let out := enc_root E t v in
  w_file w = Some (zeros (length out)) -> w_disk w = Some (zeros (length out)) ->
  w_dirty w = [] ->
  exists w', pack_file page E f t v w = (Ok v, w') /\
    w_file w' = Some out /\ w_disk w' = w_disk w /\ w_fd w' = w_fd w /\ w_map w' = w_map w /\
    w_trace w' = w_trace w /\ w_n w' = w_n w /\
    (exists sn, w_snaps w' = w_snaps w ++ sn /\
       Forall (fun s => fst s = Some (zeros (length out)) /\
         Forall (fun d => exists k, d = Some (partly k out)) (snd s)) sn).
Proof.
  intros f t v w Ht Hd Hne out. apply pack_mapping_ok; auto.
  now apply (pack_root any E wf MPacking (or_introl eq_refl)).
Qed.

Lemma enc_root_nonempty : forall t v, enc_root E t v <> [].
Proof.
  intros t v. unfold enc_root, enc, framed. destruct (chk E); cbn [le app]; discriminate.
Qed.

(** Writing a file, whatever fails. *)
Lemma to_mapping : forall T (p : prog T) v out w r w',
  emits p false v false out -> out <> [] ->
  w_dirty w = [] ->
  write_mapping oracle hf page (len out) p w = (r, w') ->
  (exists tr, w_trace w' = w_trace w ++ tr /\
     (forall x, r = Ok x -> Forall benign tr /\ (hf = false -> Forall (fun c => snd c = None) tr)) /\
     (forall e, r = Err e -> (e = RtErr \/ e = Terminate) /\ exists c, In c tr /\ snd c <> None)) /\
  (exists sn, w_snaps w' = w_snaps w ++ sn /\ Forall (snap_ok (w_disk w) (out)) sn) /\
  (forall x, r = Ok x -> x = v /\
     w_file w' = Some (out) /\ w_disk w' = Some (out) /\ w_dirty w' = [] /\
     w_fd w' = false /\ w_map w' = false).
Proof.
  intros T p v out w r w' Hem Hne Hdirty H. unfold write_mapping in H.
  unfold ibind at 1 in H.
  destruct (setup_for_write oracle hf (len out) w) as [r1 w1] eqn:E1.
  destruct (setup_write oracle hf out (w_disk w) w r1 w1 Hne eq_refl Hdirty E1)
    as ((tr1 & T1 & Tok1 & Ter1) & (sn1 & N1 & S1) & Hw1).
  destruct r1 as [[]|e1].
  2:{ inversion H; subst r w'. split; [|split].
      - exists tr1. split; auto. split; [discriminate|]. intros e He.
        destruct (Ter1 e1 eq_refl) as (-> & Hc). inversion He; subst. auto.
      - eauto.
      - discriminate. }
  destruct (Hw1 eq_refl) as (F1 & D1 & Y1 & O1 & M1). destruct (Tok1 eq_refl) as (B1 & B1f).
  destruct (pack_mapping_ok T p v out w1 Hem Hne F1 D1 Y1)
    as (w2 & P2 & F2 & D2 & O2 & M2 & T2 & _ & sn2 & N2 & S2).
  unfold scoped in H. rewrite P2 in H. rewrite T1 in T2. rewrite N1 in N2.
  rewrite O1 in O2.
  assert (S2' : Forall (snap_ok (w_disk w) out) sn2).
  { eapply Forall_impl; [|exact S2]. intros s Hs. right. left. exact Hs. }
  assert (S3 : snap_ok (w_disk w) out (Some out, [])).
  { right. right. cbn. auto. }
  unfold ibind at 1 in H. destruct (destroy oracle true w2) as [[[]|e] w3] eqn:E3.
  - inversion H; subst r w'. apply (destroy_ok oracle true w2 w3 O2) in E3.
    destruct E3 as (O3 & M3 & F3 & (tr3 & T3 & A3) & D3 & Y3 & N3).
    rewrite T2, <- app_assoc in T3. rewrite N2, <- !app_assoc, F2 in N3.
    split; [|split].
    + exists (tr1 ++ tr3). split; auto. split; [|discriminate]. intros x _. split.
      * apply Forall_app. split; auto. eapply Forall_impl; [|exact A3]. intros c Hc. left. exact Hc.
      * intros Hf. apply Forall_app. split; auto.
    + exists (sn1 ++ sn2 ++ [(Some out, [])]). split; auto.
      apply Forall_app. split; auto. apply Forall_app. split; auto.
    + intros x Hx. inversion Hx. rewrite F3, D3, F2. repeat split; auto.
  - inversion H; subst r w'. apply (destroy_err oracle true w2 _ w3 O2) in E3.
    destruct E3 as (-> & (tr3 & T3 & c & Hc & Hcn) & N3).
    rewrite T2, <- app_assoc in T3.
    split; [|split].
    + exists (tr1 ++ tr3). split; auto. split; [discriminate|]. intros e He. inversion He. split; auto.
      exists c. split; auto. apply in_or_app. auto.
    + destruct N3 as [N3|(_ & N3)].
      * exists (sn1 ++ sn2). rewrite N3, N2, <- app_assoc. split; auto. apply Forall_app. auto.
      * exists (sn1 ++ sn2 ++ [(Some out, [])]). rewrite N3, N2, <- !app_assoc, F2. split; auto.
        apply Forall_app. split; auto. apply Forall_app. auto.
    + discriminate.
Qed.

(** serializeToFile, whatever fails. *)
Lemma to_file : forall f t v w r w',
  has_ty E t v -> (depth v < f)%nat -> len (enc_root E t v) < two64 ->
  w_dirty w = [] ->
  serialize_to_file oracle hf page E f t v w = (r, w') ->
  (exists tr, w_trace w' = w_trace w ++ tr /\
     (forall x, r = Ok x -> Forall benign tr /\ (hf = false -> Forall (fun c => snd c = None) tr)) /\
     (forall e, r = Err e -> (e = RtErr \/ e = Terminate) /\ exists c, In c tr /\ snd c <> None)) /\
  (exists sn, w_snaps w' = w_snaps w ++ sn /\ Forall (snap_ok (w_disk w) (enc_root E t v)) sn) /\
  (forall x, r = Ok x -> x = v /\
     w_file w' = Some (enc_root E t v) /\ w_disk w' = Some (enc_root E t v) /\ w_dirty w' = [] /\
     w_fd w' = false /\ w_map w' = false).
Proof.
  intros f t v w r w' Ht Hd Hl Hdirty H. unfold serialize_to_file in H.
  rewrite (size_len E wf f t v Ht Hd Hl) in H.
  eapply to_mapping; eauto; [|apply enc_root_nonempty].
  now apply (pack_root any E wf MPacking (or_introl eq_refl)).
Qed.

(** Without faults it succeeds. *)
Lemma ibind_run : forall A B (p : io A) (g : A -> io B) w a w1,
  p w = (Ok a, w1) -> ibind p g w = g a w1.
Proof. intros. unfold ibind. now rewrite H. Qed.

Lemma to_mapping_run : forall T (p : prog T) v out w,
  emits p false v false out -> out <> [] ->
  w_dirty w = [] -> (forall n, oracle n = None) ->
  exists w', write_mapping oracle hf page (len out) p w = (Ok v, w').
Proof.
  intros T p v out w Hem Hne Hdirty Ho.
  destruct (write_mapping oracle hf page (len out) p w) as [r w'] eqn:Er.
  destruct (to_mapping T p v out w r w' Hem Hne Hdirty Er) as ((tr & Ht0 & _ & Terr) & _ & Hok).
  destruct r as [x|e].
  - destruct (Hok x eq_refl) as (-> & _). eauto.
  - exfalso. clear Hok Hdirty.
    (* with no faults no call fails *)
    unfold write_mapping in Er.
    assert (Hz : (len out =? 0) = false).
    { apply N.eqb_neq. unfold len. destruct out; [congruence|cbn [length]; lia]. }
    unfold setup_for_write in Er. rewrite Hz, len_nat in Er.
    assert (H1 : forall s eff w, or_throw (syscall oracle s None eff) w = (Ok tt, eff (called s None w))).
    { intros. apply or_throw_run. auto. }
    assert (HF : forall w, exists w1,
      (if hf
       then (r <- syscall oracle SFallocate None
               (fun w => set_file (Some (contents w ++ repeat x00 (length out - length (contents w)))) w);;
             match r with
             | Some e => if e =? ENOSPC then ifail RtErr else iret tt
             | None => iret tt
             end)%io
       else iret tt) w = (Ok tt, w1) /\
      w_file w1 = (if hf then Some (contents w ++ repeat x00 (length out - length (contents w))) else w_file w)).
    { intros w0. destruct hf; [|eexists; split; reflexivity].
      unfold ibind, syscall. rewrite Ho. eexists. split; reflexivity. }
    set (P0 := scoped oracle true (pack_mapping page p)) in *.
    set (w1 := set_file (Some []) (set_fd true (called SOpen None w))).
    destruct (HF w1) as (w2 & E2 & F2).
    assert (C2 : contents w2 = [] \/ contents w2 = zeros (length out)).
    { assert (Hc : contents w2 = match w_file w2 with Some c => c | None => [] end) by reflexivity.
      rewrite Hc, F2. destruct hf; cbn.
      - right. now rewrite Nat.sub_0_r.
      - left. reflexivity. }
    set (w3 := set_file (Some (fit (length out) (contents (called SFtruncate None w2))))
                 (called SFtruncate None w2)).
    set (w4 := synced (called SFsync None w3)).
    set (w5 := set_map true (called SMmap None w4)).
    assert (Hs : (or_throw (syscall oracle SOpen None (fun w => set_file (Some []) (set_fd true w)));;;
      (if hf
       then (r <- syscall oracle SFallocate None
               (fun w => set_file (Some (contents w ++ repeat x00 (length out - length (contents w)))) w);;
             match r with
             | Some e => if e =? ENOSPC then ifail RtErr else iret tt
             | None => iret tt
             end)
       else iret tt);;;
      or_throw (syscall oracle SFtruncate None
              (fun w => set_file (Some (fit (length out) (contents w))) w));;;
      or_throw (syscall oracle SFsync None synced);;;
      or_throw (syscall oracle SMmap None (set_map true)))%io w = (Ok tt, w5)).
    { erewrite ibind_run; [|apply H1]. erewrite ibind_run; [|exact E2].
      erewrite ibind_run; [|apply H1]. erewrite ibind_run; [|apply H1]. apply H1. }
    unfold ibind at 1 in Er. unfold bytes in *. rewrite Hs in Er. clear Hs.
    assert (F5 : w_file w5 = Some (zeros (length out))).
    { cbn. unfold w3. change (contents (called SFtruncate None w2)) with (contents w2).
      now rewrite fit_zeros. }
    assert (D5 : w_disk w5 = Some (zeros (length out))) by exact F5.
    assert (Y5 : w_dirty w5 = []) by reflexivity.
    destruct (pack_mapping_ok T p v out w5 Hem Hne F5 D5 Y5) as (w6 & P6 & F6 & D6 & O6 & _).
    unfold P0, scoped in Er. rewrite P6 in Er.
    assert (Hd6 : exists w7, destroy oracle true w6 = (Ok tt, w7)).
    { unfold destroy, close_file. rewrite O6.
      assert (Ofd : w_fd w5 = true).
      { cbn [w5 w4 w3 w_fd set_map called synced snap set_file].
        clear - E2 F2 Ho. destruct hf.
        - unfold ibind, syscall in E2. rewrite Ho in E2. inversion E2. reflexivity.
        - inversion E2. reflexivity. }
      rewrite Ofd. eexists.
      erewrite ibind_run; [|apply H1]. erewrite ibind_run; [|apply H1]. rewrite H1. reflexivity. }
    destruct Hd6 as (w7 & E7). unfold ibind in Er. rewrite E7 in Er. discriminate.
Qed.

Lemma to_file_run : forall f t v w,
  has_ty E t v -> (depth v < f)%nat -> len (enc_root E t v) < two64 ->
  w_dirty w = [] -> (forall n, oracle n = None) ->
  exists w', serialize_to_file oracle hf page E f t v w = (Ok v, w').
Proof.
  intros f t v w Ht Hd Hl Hdirty Ho. unfold serialize_to_file.
  rewrite (size_len E wf f t v Ht Hd Hl).
  refine (to_mapping_run _ _ v _ w _ _ Hdirty Ho); [|apply enc_root_nonempty].
  now apply (pack_root any E wf MPacking (or_introl eq_refl)).
Qed.

(** Reading the file back. *)
Lemma scoped_read : forall f t o w r w',
  w_fd w = true ->
  scoped oracle false (unpack_file page E f t o) w = (r, w') ->
  (exists tr, w_trace w' = w_trace w ++ tr /\
     (forall x, r = Ok x -> Forall (fun c => snd c = None) tr)) /\
  (forall x, r = Ok x -> exists n, unpack_memory E f t (map_mem page (contents w)) 0 o = Ok (x, n)) /\
  ((exists c, In c (skipn (length (w_trace w)) (w_trace w')) /\ snd c <> None) -> r = Err Terminate).
Proof.
  intros f t o w r w' Hfd H. unfold scoped, unpack_file in H.
  destruct (unpack_memory E f t (map_mem page (contents w)) 0 o) as [[x n]|e] eqn:Eu.
  - unfold ibind in H. destruct (destroy oracle false w) as [[[]|e] w1] eqn:Ed.
    + inversion H; subst. apply destroy_ok in Ed; auto.
      destruct Ed as (_ & _ & _ & (tr & T & A) & _).
      split; [eauto|]. split; [intros y Hy; inversion Hy; eauto|].
      intros (c & Hc & Hn). rewrite T, skipn_app, skipn_all, Nat.sub_diag, skipn_O in Hc.
      cbn [app] in Hc. rewrite Forall_forall in A. specialize (A _ Hc). contradiction.
    + inversion H; subst. apply destroy_err in Ed; auto.
      destruct Ed as (-> & (tr & T & _) & _). split; [exists tr; split; [auto|discriminate]|].
      split; [discriminate|auto].
  - destruct (is_exception e).
    + unfold ibind in H. destruct (destroy oracle false w) as [[[]|e'] w1] eqn:Ed.
      * inversion H; subst. apply destroy_ok in Ed; auto.
        destruct Ed as (_ & _ & _ & (tr & T & A) & _).
        split; [exists tr; split; [auto|discriminate]|]. split; [discriminate|].
        intros (c & Hc & Hn). rewrite T, skipn_app, skipn_all, Nat.sub_diag, skipn_O in Hc.
        cbn [app] in Hc. rewrite Forall_forall in A. specialize (A _ Hc). contradiction.
      * inversion H; subst. apply destroy_err in Ed; auto.
        destruct Ed as (-> & (tr & T & _) & _). split; [exists tr; split; [auto|discriminate]|].
        split; [discriminate|auto].
    + inversion H; subst. split; [exists []; rewrite app_nil_r; split; [auto|discriminate]|].
      split; [discriminate|]. intros (c & Hc & _). rewrite skipn_all in Hc. destruct Hc.
Qed.

Lemma from_file : forall f t w r w',
  deserialize_from_file oracle page E f t w = (r, w') ->
  (exists tr, w_trace w' = w_trace w ++ tr /\
     (forall x, r = Ok x -> Forall (fun c => snd c = None) tr) /\
     ((exists c, In c tr /\ snd c <> None) -> r = Err RtErr \/ r = Err Terminate)) /\
  (forall x, r = Ok x -> contents w <> [] /\
     exists n, deserialize E f t (map_mem page (contents w)) 0 = Ok (x, n)).
Proof.
  intros f t w r w' H. unfold deserialize_from_file, deserialize in *.
  destruct (recon E t) as [o|].
  2:{ inversion H; subst. split; [|discriminate]. exists []. rewrite app_nil_r. split; auto.
      split; [discriminate|]. intros (c & [] & _). }
  unfold deserialize_in_place_from_file, ibind in H.
  destruct (setup_for_read oracle w) as [r1 w1] eqn:E1.
  destruct (setup_read oracle w r1 w1 E1) as ((tr1 & T1 & A1 & B1) & Hw1).
  destruct r1 as [[]|e1].
  2:{ inversion H; subst. split; [|discriminate]. exists tr1. split; auto. split; [discriminate|].
      intros _. destruct (B1 e1 eq_refl) as (-> & _). auto. }
  destruct (Hw1 eq_refl) as (F1 & C1 & O1). specialize (A1 eq_refl).
  destruct (scoped_read f t o w1 r w' O1 H) as ((tr2 & T2 & A2) & Hx & Ht).
  assert (Hc1 : contents w1 = contents w) by (unfold contents; now rewrite F1).
  rewrite Hc1 in Hx. split.
  - exists (tr1 ++ tr2). rewrite T2, T1, <- app_assoc. split; auto. split.
    + intros x Hr. apply Forall_app. split; eauto.
    + intros (c & Hc & Hn). apply in_app_or in Hc. destruct Hc as [Hc|Hc].
      * rewrite Forall_forall in A1. specialize (A1 _ Hc). contradiction.
      * right. apply Ht. exists c. split; auto.
        rewrite T2, skipn_app, skipn_all, Nat.sub_diag, skipn_O. exact Hc.
  - intros x Hr. split; auto.
Qed.

Lemma from_file_run : forall f t w x n,
  (forall k, oracle k = None) -> contents w <> [] ->
  deserialize E f t (map_mem page (contents w)) 0 = Ok (x, n) ->
  exists w', deserialize_from_file oracle page E f t w = (Ok x, w').
Proof.
  intros f t w x n Ho Hc H. unfold deserialize_from_file, deserialize in *.
  destruct (recon E t) as [o|]; [|discriminate].
  unfold deserialize_in_place_from_file, setup_for_read.
  destruct (w_file w) as [c|] eqn:Ef; [|unfold contents in Hc; rewrite Ef in Hc; congruence].
  assert (H1 : forall s eff w, or_throw (syscall oracle s None eff) w = (Ok tt, eff (called s None w))).
  { intros. apply or_throw_run. auto. }
  destruct (contents w) as [|b0 c0] eqn:Ec; [congruence|].
  set (w3 := set_map true (called SMmap None (called SFstat None (set_fd true (called SOpen None w))))).
  assert (Hs : (fun w0 => (or_throw (syscall oracle SOpen
        (match w_file w0 with None => Some ENOENT | _ => None end) (set_fd true));;;
      or_throw (syscall oracle SFstat None (fun w => w));;;
      or_throw (syscall oracle SMmap (match contents w0 with [] => Some EINVAL | _ => None end)
        (set_map true)))%io w0) w = (Ok tt, w3)).
  { cbn beta. rewrite Ef, Ec. erewrite ibind_run; [|apply H1].
    erewrite ibind_run; [|apply H1]. apply H1. }
  cbn beta in Hs. unfold ibind at 1. rewrite Hs.
  assert (Hc3 : contents w3 = b0 :: c0) by exact Ec.
  unfold scoped, unpack_file. rewrite Hc3, H.
  unfold destroy, close_file. change (w_fd w3) with true. cbn match.
  eexists. unfold ibind, iret. rewrite !H1. reflexivity.
Qed.
End Calls.
