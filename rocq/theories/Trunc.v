(** Reading data that was cut short and continues with zeros. *)
From Coq Require Import List NArith Arith Bool Lia.
From Coq.Strings Require Import Byte.
From Verif Require Import Base Syntax Prog Serializers Traverse Spec ProgFacts EnvFacts ValFacts
  Pack Unpack Api ApiFacts Registry RegistryFacts IO IOFacts.
Import ListNotations.
Local Open Scope N_scope.

Lemma app_prefix_cases : forall A (x i j l : list A), x ++ i = j ++ l ->
  (exists j', j = x ++ j' /\ i = j' ++ l) \/ (exists m, x = j ++ m /\ m <> [] /\ l = m ++ i).
Proof.
  intros A x. induction x as [|a x IH]; intros i j l H.
  - left. exists j. auto.
  - destruct j as [|b j].
    + right. exists (a :: x). cbn in *. repeat split; auto; congruence.
    + inversion H; subst. destruct (IH _ _ _ H2) as [(j' & -> & ->)|(m & -> & Hm & ->)].
      * left. exists j'. auto.
      * right. exists m. auto.
Qed.

(** A program that consumes [i], run on a strict prefix [j] of [i] followed by
    [z], consumes all of [j]: what it leaves is a suffix of [z]. *)
Lemma reader_cut : forall A (p : prog A) vf i a vf',
  reads p vf i a vf' ->
  forall e j l z a' vf1 r, i = j ++ l -> l <> [] ->
  interp (reader e) p vf (j ++ z) = Ok (a', vf1, r) ->
  exists k, r = skipn k z.
Proof.
  intros A p. induction p; intros vf i x vf' Hr er j l z a' vf1 r Hi Hl H0; cbn [interp] in H0.
  - specialize (Hr UB []). cbn in Hr. inversion Hr. subst i.
    rewrite app_nil_r in *. destruct j; destruct l; cbn in *; congruence.
  - apply reads_inv_contig in Hr. destruct Hr as (y & i' & -> & Hy & Hr).
    cbn [contig reader] in H0.
    destruct (split_at (length b) (j ++ z)) as [[u s']|] eqn:Es; [|discriminate].
    apply split_at_inv in Es. destruct Es as (Es & Eu).
    destruct (app_prefix_cases _ _ _ _ _ Hi) as [(j' & -> & ->)|(m & -> & Hm & ->)].
    + rewrite <- app_assoc in Es.
      assert (Hyu : y = u /\ j' ++ z = s').
      {
        clear -Es Hy Eu. revert u Eu Es. rewrite <- Hy. clear Hy b.
        induction y; destruct u; cbn; intros Eu Es; try discriminate; auto.
        inversion Es; subst. destruct (IHy u) as (-> & ->); auto. }
      destruct Hyu as (-> & <-). eapply H; eauto.
    + (* the read crosses the cut *)
      rewrite app_length in Hy.
      assert (Hs : s' = skipn (length b - length j) z).
      { assert (s' = skipn (length b) (j ++ z)).
        { rewrite Es, <- Eu, skipn_app, skipn_all, Nat.sub_diag, skipn_O. reflexivity. }
        rewrite H1, skipn_app, skipn_all2 by lia. reflexivity. }
      apply reader_local in H0. destruct H0 as (i0 & Hi0 & _).
      exists (length b - length j + length i0)%nat.
      rewrite skipn_plus, <- Hs, Hi0, skipn_app, skipn_all, Nat.sub_diag, skipn_O. reflexivity.
  - exact (IHp _ _ _ _ Hr er j l z a' vf1 r Hi Hl H0).
  - exact (H _ _ _ _ _ Hr er j l z a' vf1 r Hi Hl H0).
  - exact (IHp _ _ _ _ Hr er j l z a' vf1 r Hi Hl H0).
  - exact (IHp _ _ _ _ Hr er j l z a' vf1 r Hi Hl H0).
  - discriminate.
Qed.

Definition single (vs : list val) : prog val :=
  match vs with [x] => Ret x | _ => Fail Stuck end.

(** Everything up to the size word that ends the root object. *)
Definition root_body (E : env) (f : nat) (t : ty) (v : val) : prog (list val) :=
  if chk E
  then bind (with_type_idx E MUnpacking t) (fun _ => catch (tix E t) (ap E MUnpacking (with_ E MUnpacking f) t [v]))
  else bind (with_type_idx E MUnpacking t)
         (fun _ => bind (ser (with_ E MUnpacking (S f)) t v) (fun x => Ret [x])).

Lemma root_split : forall E f t v,
  peq (with_root E MUnpacking (S f) t v)
      (bind (root_body E f t v)
         (fun vs => bind (with_mem_used E MUnpacking t 1) (fun _ => single vs))).
Proof.
  intros E f t v H vf s. unfold with_root, root_body. destruct (chk E) eqn:Ec.
  - unfold ser. cbn [with_]. unfold traverse. rewrite Ec.
    rewrite !interp_bind. destruct (interp H (with_type_idx E MUnpacking t) vf s) as [[[[] vf1] s1]|]; auto.
    rewrite !interp_bind.
    destruct (interp H (catch (tix E t) (ap E MUnpacking (with_ E MUnpacking f) t [v])) vf1 s1)
      as [[[vs vf2] s2]|]; auto.
    cbn [length]. rewrite !interp_bind.
    destruct (interp H (with_mem_used E MUnpacking t 1) vf2 s2) as [[[[] vf3] s3]|]; auto.
  - rewrite !interp_bind. destruct (interp H (with_type_idx E MUnpacking t) vf s) as [[[[] vf1] s1]|]; auto.
    rewrite !interp_bind.
    destruct (interp H (ser (with_ E MUnpacking (S f)) t v) vf1 s1) as [[[x vf2] s2]|]; auto.
Qed.

Lemma unle_zeros : forall n, unle (zeros n) = 0.
Proof. induction n; cbn [zeros repeat unle]; auto. fold (zeros n). now rewrite IHn. Qed.

Lemma trailer_zeros : forall E t e vf n x,
  wrap64 (sizeof E t) <> 0 ->
  interp (reader e) (with_mem_used E MUnpacking t 1) vf (zeros n) <> Ok x.
Proof.
  intros E t e vf n x Hs H. unfold with_mem_used in H. cbn [interp contig reader] in H.
  destruct (split_at (length (le 8 0)) (zeros n)) as [[u r]|] eqn:Eu; [|discriminate].
  apply split_at_inv in Eu. destruct Eu as (Eu & El).
  assert (Hu : u = zeros (length u)).
  { assert (firstn (length u) (zeros n) = u).
    { rewrite Eu, firstn_app, Nat.sub_diag, firstn_all, firstn_O. apply app_nil_r. }
    rewrite zeros_firstn in H0. rewrite <- H0 at 1. f_equal.
    assert (length (zeros n) = length u + length r)%nat by (rewrite Eu; apply app_length).
    rewrite zeros_len in H1. lia. }
  rewrite Hu, unle_zeros in H. change (N.of_nat 1) with 1 in H. rewrite N.mul_1_r in H.
  destruct (0 =? wrap64 (sizeof E t)) eqn:E0; [|discriminate].
  apply N.eqb_eq in E0. congruence.
Qed.

Section Trunc.
Variable E : env.
Hypothesis wf : wf_env any E.

Notation anyC := (fun _ _ : N => True).

(** Deserializing a prefix of an encoding followed by zeros yields the original
    object or nothing. *)
Lemma cut_zeros : forall f t v w j l n e x vf' r,
  has_ty E t v -> target anyC E t v w -> (depth v < f)%nat -> wrap64 (sizeof E t) <> 0 ->
  enc_root E t v = j ++ l ->
  interp (reader e) (with_root E MUnpacking f t w) false (j ++ zeros n) = Ok (x, vf', r) ->
  copy_of v x.
Proof.
  intros f t v w j l n e x vf' r Ht HT Hd Hs Hj H.
  destruct (unpack_reads E wf f t v w Ht HT Hd) as (x0 & Hc & Hr).
  destruct f as [|f]; [lia|].
  pose proof (Hr UB []) as H0. rewrite app_nil_r in H0.
  rewrite root_split, interp_bind in H0, H.
  destruct (interp (reader UB) (root_body E f t w) false (enc_root E t v)) as [[[vs vf1] s1]|] eqn:E1;
    [|discriminate].
  apply reader_local in E1. destruct E1 as (i1 & Hi1 & Hr1).
  rewrite interp_bind in H0.
  destruct (interp (reader UB) (with_mem_used E MUnpacking t 1) vf1 s1) as [[[[] vf2] s2]|] eqn:E2;
    [|discriminate].
  rewrite Hj in Hi1. symmetry in Hi1.
  destruct (app_prefix_cases _ _ _ _ _ Hi1) as [(j' & -> & ->)|(m & -> & Hm & ->)].
  - rewrite <- app_assoc in H. rewrite Hr1 in H. rewrite interp_bind in H.
    destruct (interp (reader e) (with_mem_used E MUnpacking t 1) vf1 (j' ++ zeros n))
      as [[[[] vf3] s3]|]; [|discriminate].
    unfold single in *. destruct vs as [|y [|? ?]]; try discriminate.
    cbn [interp] in *. inversion H0; inversion H; subst. exact Hc.
  - destruct (interp (reader e) (root_body E f t w) false (j ++ zeros n)) as [[[vs' vf3] s3]|] eqn:E3;
      [|discriminate].
    destruct (reader_cut _ _ _ _ _ _ Hr1 e j m (zeros n) vs' vf3 s3 eq_refl Hm E3) as (k & ->).
    rewrite interp_bind, zeros_skipn in H.
    destruct (interp (reader e) (with_mem_used E MUnpacking t 1) vf3 (zeros (n - k)))
      as [[[[] vf4] s4]|] eqn:E4; [|discriminate].
    exfalso. eapply trailer_zeros; eauto.
Qed.

(** Fewer than four bytes of the encoding, then zeros: the root's type index is
    not recognised. *)
Lemma cut_index : forall f t v w j l n e,
  (0 < f)%nat -> enc_root E t v = j ++ l -> (length j < 4)%nat -> (4 <= length j + n)%nat ->
  interp (reader e) (with_root E MUnpacking f t w) false (j ++ zeros n) =
    Err (SerErr 0 [WrongType (tix E t) (unle (j ++ zeros (4 - length j))) (tix E t)]).
Proof.
  intros f t v w j l n e Hf Hj Hl Hn.
  destruct f as [|f]; [lia|]. rewrite root_split, interp_bind.
  assert (H : interp (reader e) (root_body E f t w) false (j ++ zeros n) =
    Err (SerErr 0 [WrongType (tix E t) (unle (j ++ zeros (4 - length j))) (tix E t)])).
  2:{ now rewrite H. }
  assert (HT : interp (reader e) (with_type_idx E MUnpacking t) false (j ++ zeros n) =
    Err (SerErr 0 [WrongType (tix E t) (unle (j ++ zeros (4 - length j))) (tix E t)])).
  2:{ unfold root_body. destruct (chk E); now rewrite interp_bind, HT. }
  unfold with_type_idx. cbn [interp contig reader].
  replace (length (le 4 0)) with 4%nat by reflexivity.
  assert (Hsp : split_at 4 (j ++ zeros n) = Some (j ++ zeros (4 - length j), zeros (n - (4 - length j)))).
  { replace (j ++ zeros n) with ((j ++ zeros (4 - length j)) ++ zeros (n - (4 - length j))).
    - apply split_at_app. rewrite app_length, zeros_len. lia.
    - rewrite <- app_assoc, zeros_app. do 2 f_equal. lia. }
  rewrite Hsp.
  assert (Hv : validate_index (unle (j ++ zeros (4 - length j))) = false).
  2:{ rewrite Hv. reflexivity. }
  (* the top byte is missing *)
  destruct (validate_index (unle (j ++ zeros (4 - length j)))) eqn:Ev; auto.
  assert (Hb : unle (j ++ zeros (4 - length j)) < 16777216).
  { destruct j as [|b0 [|b1 [|b2 [|b3 j]]]]; cbn [length] in Hl; try lia;
      cbn [length Nat.sub zeros repeat app unle].
    - cbn. lia.
    - pose proof (Byte.to_N_bounded b0). change (Byte.to_N x00) with 0. lia.
    - pose proof (Byte.to_N_bounded b0). pose proof (Byte.to_N_bounded b1).
      change (Byte.to_N x00) with 0. lia.
    - pose proof (Byte.to_N_bounded b0). pose proof (Byte.to_N_bounded b1).
      pose proof (Byte.to_N_bounded b2). change (Byte.to_N x00) with 0. lia. }
  apply validate_iff in Ev; [|lia]. destruct Ev as (_ & Ev).
  rewrite N.div_small in Ev by lia. discriminate.
Qed.

(** The same for memory holding a cut encoding. *)
Lemma deserialize_cut : forall f t v j l n x k,
  has_ty E t v -> constructible E t -> (depth v < f)%nat -> wrap64 (sizeof E t) <> 0 ->
  enc_root E t v = j ++ l ->
  deserialize E f t (j ++ zeros n) 0 = Ok (x, k) -> copy_of v x.
Proof.
  intros f t v j l n x k Ht Hc Hd Hs Hj H. unfold deserialize, constructible in *.
  destruct (recon E t) as [o|] eqn:Er; [|congruence]. unfold unpack_memory in H.
  pose proof (unpacker_reader _ (with_root E MUnpacking f t o) false (j ++ zeros n) 0 0
                (Nat.le_0_l _)) as U.
  rewrite skipn_O in U. change (wrap64 0) with 0 in U.
  destruct (interp (reader UB) (with_root E MUnpacking f t o) false (j ++ zeros n))
    as [[[a vf'] r]|e] eqn:Ei.
  - destruct U as (cur' & _ & _ & Hu). rewrite Hu in H. inversion H; subst.
    eapply cut_zeros; eauto. now apply recon_target.
  - rewrite U in H. discriminate.
Qed.

Lemma deserialize_cut_index : forall f t v j l n,
  constructible E t -> (0 < f)%nat ->
  enc_root E t v = j ++ l -> (length j < 4)%nat -> (4 <= length j + n)%nat ->
  deserialize E f t (j ++ zeros n) 0 =
    Err (SerErr 0 [WrongType (tix E t) (unle (j ++ zeros (4 - length j))) (tix E t)]).
Proof.
  intros f t v j l n Hc Hf Hj Hl Hn. unfold deserialize, constructible in *.
  destruct (recon E t) as [o|] eqn:Er; [|congruence]. unfold unpack_memory.
  pose proof (unpacker_reader _ (with_root E MUnpacking f t o) false (j ++ zeros n) 0 0
                (Nat.le_0_l _)) as U.
  rewrite skipn_O in U. change (wrap64 0) with 0 in U.
  rewrite (cut_index f t v o j l n UB) in U by auto. now rewrite U.
Qed.

End Trunc.

(** ** Crashes while a file is being written *)
Lemma bytes_ext : forall (a b : bytes), length a = length b ->
  (forall k, (k < length a)%nat -> nth_error a k = Some (nth k b x00)) -> a = b.
Proof.
  intros a b Hl H. apply nth_ext with (d := x00) (d' := x00); auto. intros k Hk.
  specialize (H k Hk). now apply nth_error_nth with (d := x00) in H.
Qed.

Lemma zeros_nth : forall k n, nth k (zeros n) x00 = x00.
Proof. induction k; intros [|n]; cbn; auto. Qed.

Lemma page_start : forall page k n, (0 < page)%nat -> (k < n)%nat -> (k / page * page < n)%nat.
Proof. intros. pose proof (Nat.mul_div_le k page ltac:(lia)). lia. Qed.

Section Crash.
Variable page : nat.
Hypothesis Hpage : (0 < page)%nat.

(** A flushed file survives a crash. *)
Lemma crash_clean : forall old c, crash_state page old [] c -> c = old.
Proof.
  intros old c (i & v & Hi & Hc). destruct i as [|i]; cbn [nth_error] in Hi; [|destruct i; discriminate].
  inversion Hi; subst v. destruct old as [b|]; [|exact Hc].
  destruct Hc as (b' & -> & Hl & Hpg). f_equal. apply bytes_ext; auto. intros k Hk.
  destruct (Hpg (k / page)%nat (page_start _ _ _ Hpage Hk)) as (j & bj & _ & Hj & _ & Hb).
  rewrite (Hb k Hk eq_refl). destruct j as [|j]; cbn in Hj; [|destruct j; discriminate].
  inversion Hj; auto.
Qed.

Lemma crash_one_page : forall old out disk dirty c,
  snap_ok old out (disk, dirty) -> (length out <= page)%nat ->
  crash_state page disk dirty c ->
  c = old \/ c = Some [] \/ exists k, c = Some (partly k out).
Proof.
  intros old out disk dirty c Hs Hone Hcr.
  destruct Hs as [(H1 & H2)|[(H1 & H2)|(H1 & H2)]]; cbn [fst snd] in *; subst.
  - (* before the first flush *)
    destruct Hcr as (i & v & Hi & Hc). destruct H2 as (r & -> & Hr).
    destruct i as [|i]; cbn [nth_error] in Hi.
    + inversion Hi; subst v. left. destruct old as [b|]; [|exact Hc].
      destruct Hc as (b' & -> & Hl & Hpg). f_equal. apply bytes_ext; auto. intros k Hk.
      destruct (Hpg (k / page)%nat (page_start _ _ _ Hpage Hk)) as (j & bj & _ & Hj & Hbet & Hb).
      rewrite (Hb k Hk eq_refl).
      destruct j as [|j]; [cbn in Hj; inversion Hj; reflexivity|].
      specialize (Hbet 1%nat [] ltac:(lia) eq_refl). cbn in Hbet. lia.
    + right.
      assert (Hall : Forall (fun d => d = Some [] \/ d = Some (zeros (length out))) (Some [] :: r)).
      { constructor; auto. }
      assert (Hv : v = Some [] \/ v = Some (zeros (length out))).
      { rewrite Forall_forall in Hall. apply Hall. eapply nth_error_In; eauto. }
      destruct Hv as [->| ->]; destruct Hc as (b' & -> & Hl & Hpg).
      * left. destruct b'; [auto|discriminate].
      * right. exists 0%nat. rewrite partly_0. f_equal. apply bytes_ext; auto. intros k Hk.
        destruct (Hpg (k / page)%nat (page_start _ _ _ Hpage Hk)) as (j & bj & Hij & Hj & _ & Hb).
        rewrite (Hb k Hk eq_refl), zeros_nth.
        destruct j as [|j]; [lia|]. cbn [nth_error] in Hj. apply nth_error_In in Hj.
        rewrite Forall_forall in Hall. destruct (Hall _ Hj) as [Hbj|Hbj]; inversion Hbj; subst.
        -- destruct k; reflexivity.
        -- now rewrite zeros_nth.
  - (* after it *)
    destruct Hcr as (i & v & Hi & Hc). right. right.
    assert (Hall : Forall (fun d => exists k, d = Some (partly k out))
                     (Some (zeros (length out)) :: dirty)).
    { constructor; auto. exists 0%nat. now rewrite partly_0. }
    rewrite Forall_forall in Hall.
    destruct (Hall v (nth_error_In _ _ Hi)) as (k0 & ->).
    destruct Hc as (b' & -> & Hl & Hpg). rewrite partly_len in Hl.
    destruct (Nat.eq_dec (length out) 0) as [Hz|Hz].
    + exists 0%nat. rewrite partly_0, Hz. destruct b'; [reflexivity|cbn in Hl; lia].
    + destruct (Hpg 0%nat ltac:(cbn; lia)) as (j & bj & _ & Hj & _ & Hb).
      destruct (Hall _ (nth_error_In _ _ Hj)) as (kj & Hkj). inversion Hkj; subst bj.
      exists kj. f_equal. apply bytes_ext; [now rewrite partly_len|]. intros k Hk.
      apply Hb; auto. apply Nat.div_small. lia.
  - apply crash_clean in Hcr. right. right. exists (length out). now rewrite partly_all.
Qed.

(** The process stops but the machine goes on: the file is what it was. *)
Lemma stop_state : forall old out disk dirty,
  snap_ok old out (disk, dirty) ->
  last (disk :: dirty) None = Some [] \/ exists k, last (disk :: dirty) None = Some (partly k out).
Proof.
  intros old out disk dirty Hs.
  assert (Hl : forall (d : option bytes) l, In (last (d :: l) None) (d :: l)).
  { intros d l. revert d. induction l as [|x l IH]; intros d; [left; reflexivity|].
    right. apply (IH x). }
  destruct Hs as [(H1 & H2)|[(H1 & H2)|(H1 & H2)]]; cbn [fst snd] in *; subst.
  - destruct H2 as (r & -> & Hr).
    assert (Hin : In (last (Some [] :: r) None) (Some [] :: r)) by apply Hl.
    change (last (old :: Some [] :: r) None) with (last (Some [] :: r) None).
    destruct Hin as [Hin|Hin]; [left; auto|]. rewrite Forall_forall in Hr.
    destruct (Hr _ Hin) as [H|H]; [auto|right; exists 0%nat; now rewrite partly_0].
  - right. assert (Hall : Forall (fun d => exists k, d = Some (partly k out))
                     (Some (zeros (length out)) :: dirty)).
    { constructor; auto. exists 0%nat. now rewrite partly_0. }
    rewrite Forall_forall in Hall. apply Hall. apply Hl.
  - right. exists (length out). now rewrite partly_all.
Qed.
End Crash.

(** ** Further facts about the file entry points *)
Section More.
Variable oracle : nat -> option N.
Variable hf : bool.
Variable page : nat.
Variable E : env.

(** Reading does not change the file. *)
Definition keeps {A} (p : io A) : Prop := forall w r w', p w = (r, w') -> w_file w' = w_file w.

Lemma keeps_bind : forall A B (p : io A) (f : A -> io B),
  keeps p -> (forall a, keeps (f a)) -> keeps (ibind p f).
Proof.
  intros A B p f Hp Hf w r w' H. unfold ibind in H. destruct (p w) as [[a|e] w1] eqn:Ep.
  - rewrite (Hf a _ _ _ H). eapply Hp; eauto.
  - inversion H; subst. eapply Hp; eauto.
Qed.
Lemma keeps_ret : forall A (a : A), keeps (iret a).
Proof. intros A a w r w' H. now inversion H. Qed.
Lemma keeps_fail : forall A e, keeps (@ifail A e).
Proof. intros A e w r w' H. now inversion H. Qed.
Lemma keeps_throw : forall s forced eff, (forall w, w_file (eff w) = w_file w) ->
  keeps (or_throw (syscall oracle s forced eff)).
Proof.
  intros s forced eff He w r w' H. unfold or_throw, ibind, syscall, iret, ifail in H.
  destruct forced as [e|]; [inversion H; reflexivity|].
  destruct (oracle (w_n w)); inversion H; subst; [reflexivity|]. now rewrite He.
Qed.

Lemma keeps_setup_read : keeps (setup_for_read oracle).
Proof.
  intros w r w' H. unfold setup_for_read in H. revert H.
  match goal with |- ?p w = _ -> _ => assert (K : keeps p); [|intros H; exact (K _ _ _ H)] end.
  apply keeps_bind; [apply keeps_throw; reflexivity|intros _].
  apply keeps_bind; [|intros _]; apply keeps_throw; reflexivity.
Qed.

Lemma keeps_destroy_read : keeps (destroy oracle false).
Proof.
  intros w r w' H. unfold destroy, close_file in H.
  match type of H with (match (if ?b then ?p w else ?q w) with _ => _ end) = _ =>
    assert (K : keeps p); [|assert (K' : keeps q);
      [apply keeps_ret|destruct b; [destruct (p w) as [[[]|e] w1] eqn:Ep
                                   |destruct (q w) as [[[]|e] w1] eqn:Ep]]] end.
  - apply keeps_bind; [apply keeps_ret|intros].
    apply keeps_bind; [|intros]; apply keeps_throw; reflexivity.
  - inversion H; subst. eapply K; eauto.
  - inversion H; subst. eapply K; eauto.
  - inversion H; subst. eapply K'; eauto.
  - inversion H; subst. eapply K'; eauto.
Qed.

Lemma from_file_keeps : forall f t, keeps (deserialize_from_file oracle page E f t).
Proof.
  intros f t. unfold deserialize_from_file. destruct (recon E t) as [o|]; [|apply keeps_fail].
  unfold deserialize_in_place_from_file. apply keeps_bind; [apply keeps_setup_read|intros _].
  intros w r w' H. unfold scoped in H.
  assert (Ku : keeps (unpack_file page E f t o)).
  { intros w0 r0 w0' H0. unfold unpack_file in H0.
    destruct (unpack_memory E f t (map_mem page (contents w0)) 0 o) as [[x n]|e]; now inversion H0. }
  destruct (unpack_file page E f t o w) as [[x|e] w1] eqn:Eu.
  - apply Ku in Eu. rewrite <- Eu.
    exact (keeps_bind _ _ _ _ keeps_destroy_read (fun _ => keeps_ret _ _) _ _ _ H).
  - apply Ku in Eu. rewrite <- Eu. destruct (is_exception e).
    + exact (keeps_bind _ _ _ _ keeps_destroy_read (fun _ => keeps_fail _ _) _ _ _ H).
    + now inversion H.
Qed.

(** The calls that end a successful serializeToFile. *)
Lemma destroy_trace : forall w w', w_fd w = true -> destroy oracle true w = (Ok tt, w') ->
  w_trace w' = w_trace w ++ [(SMsync, None); (SMunmap, None); (SClose, None)].
Proof.
  intros w w' Hfd H. unfold destroy, close_file in H. rewrite Hfd in H.
  match type of H with (match ?p w with _ => _ end) = _ => destruct (p w) as [[[]|e] w1] eqn:Ew; [|discriminate] end.
  inversion H; subst; clear H.
  apply ibind_ok in Ew. destruct Ew as ([] & w1 & E1 & Ew).
  apply ibind_ok in Ew. destruct Ew as ([] & w2 & E2 & E3).
  apply or_throw_ok in E1. destruct E1 as (_ & _ & ->).
  apply or_throw_ok in E2. destruct E2 as (_ & _ & ->).
  apply or_throw_ok in E3. destruct E3 as (_ & _ & ->).
  cbn. now rewrite <- !app_assoc.
Qed.

Lemma to_file_trace : forall f t v w x w', wf_env any E ->
  has_ty E t v -> (depth v < f)%nat -> len (enc_root E t v) < two64 -> w_dirty w = [] ->
  serialize_to_file oracle hf page E f t v w = (Ok x, w') ->
  exists tr, w_trace w' = tr ++ [(SMsync, None); (SMunmap, None); (SClose, None)].
Proof.
  intros f t v w x w' wf Ht Hd Hl Hdirty H. unfold serialize_to_file in H.
  rewrite (size_len E wf f t v Ht Hd Hl) in H.
  set (out := enc_root E t v) in *.
  assert (Hne : out <> []) by apply enc_root_nonempty.
  apply ibind_ok in H. destruct H as ([] & w1 & E1 & H).
  destruct (setup_write oracle hf out (w_disk w) w _ w1 Hne eq_refl Hdirty E1) as (_ & _ & Hw1).
  destruct (Hw1 eq_refl) as (F1 & D1 & Y1 & O1 & M1).
  destruct (pack_file_ok page E wf f t v w1 Ht Hd Hne F1 D1 Y1)
    as (w2 & P2 & F2 & D2 & O2 & M2 & T2 & _).
  unfold scoped in H. rewrite P2 in H. apply ibind_ok in H. destruct H as ([] & w3 & E3 & H).
  unfold iret in H. inversion H; subst w3.
  rewrite O1 in O2. apply (destroy_trace w2 w' O2) in E3. eauto.
Qed.

(** A file too short to hold the type index is reported. *)
Lemma map_mem_short : (4 <= page)%nat -> forall c, c <> [] ->
  exists n, map_mem page c = c ++ zeros n /\ (4 <= length c + n)%nat.
Proof.
  intros Hp c Hc. unfold map_mem. eexists. split; [reflexivity|].
  assert (1 <= length c)%nat by (destruct c; [congruence|cbn; lia]).
  pose proof (Nat.mod_upper_bound (length c) page ltac:(lia)) as Hm.
  pose proof (Nat.div_mod (length c) page ltac:(lia)) as Hdm.
  destruct (Nat.eq_dec (length c mod page) 0) as [Hz|Hz].
  - rewrite Hz in *. destruct (length c / page)%nat; [lia|].
    assert (page <= length c)%nat by nia. lia.
  - rewrite (Nat.mod_small (page - length c mod page)) by lia.
    assert (length c mod page <= length c)%nat by (apply Nat.mod_le; lia). lia.
Qed.

Lemma file_short : forall f t v k r w', wf_env any E -> constructible E t -> (0 < f)%nat ->
  (4 <= page)%nat -> (k < 4)%nat ->
  deserialize_from_file oracle page E f t (boot (Some (firstn k (enc_root E t v)))) = (r, w') ->
  exists e, r = Err e /\ (is_exception e = true \/ e = Terminate).
Proof.
  intros f t v k r w' wf Hc Hf Hp Hk H.
  set (c := firstn k (enc_root E t v)) in *.
  assert (Hcl : (length c < 4)%nat) by (unfold c; rewrite firstn_length; lia).
  pose proof H as H0. unfold deserialize_from_file in H.
  destruct (recon E t) as [o|] eqn:Er; [|unfold constructible in Hc; congruence].
  unfold deserialize_in_place_from_file, ibind in H.
  destruct (setup_for_read oracle (boot (Some c))) as [[[]|e] w1] eqn:Es.
  - destruct (setup_read oracle _ _ _ Es) as (_ & Hs). destruct (Hs eq_refl) as (Hf1 & Hne & Hfd).
    cbn [w_file boot contents] in Hf1, Hne.
    destruct (map_mem_short Hp c Hne) as (n & Hn & Hn4).
    assert (Hd : deserialize E f t (c ++ zeros n) 0 =
      Err (SerErr 0 [WrongType (tix E t) (unle (c ++ zeros (4 - length c))) (tix E t)])).
    { apply (deserialize_cut_index E f t v c (skipn k (enc_root E t v))); auto.
      unfold c. now rewrite firstn_skipn. }
    unfold deserialize in Hd. rewrite Er in Hd.
    unfold scoped, unpack_file in H. unfold contents in H. rewrite Hf1, Hn, Hd in H.
    cbn [is_exception] in H. unfold ibind, ifail, destroy in H.
    destruct (close_file oracle false w1) as [[[]|e] w2].
    + inversion H; subst. eexists. split; [reflexivity|auto].
    + inversion H; subst. eauto.
  - inversion H; subst. destruct (setup_read oracle _ _ _ Es) as ((tr & _ & _ & He) & _).
    destruct (He e eq_refl) as (-> & _). exists RtErr. auto.
Qed.
End More.
