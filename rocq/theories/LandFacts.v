(** Reading the bytes of [v] into [w] yields exactly [land E t v w].  The proof
    follows Unpack.v, with the result as a function of both objects.  Used for
    property C35. *)
From Coq Require Import List NArith Arith Bool Lia Permutation.
From Coq.Strings Require Import Byte.
From Verif Require Import Base Syntax Prog Serializers Traverse Spec ProgFacts EnvFacts
  ValFacts Pack Unpack Stable ApiFacts Land.
Import ListNotations.
Local Open Scope N_scope.

Lemma zip_of_nth : forall f vs ts ws xs, length ts = length vs -> length ws = length vs ->
  length xs = length vs ->
  (forall i t v w x, nth_error ts i = Some t -> nth_error vs i = Some v ->
     nth_error ws i = Some w -> nth_error xs i = Some x -> f t v w = Some x) ->
  zip f ts vs ws = Some xs.
Proof.
  induction vs; intros [|t ts] [|w ws] [|x xs] H1 H2 H3 H; cbn in *; try discriminate; auto.
  rewrite (H O t a w x) by reflexivity. rewrite (IHvs ts ws xs); auto.
  intros i. apply (H (S i)).
Qed.

Lemma zips_of_nth : forall f vs ts ws xs, length ts = length vs -> length ws = length vs ->
  length xs = length vs ->
  (forall i t v w x, nth_error ts i = Some t -> nth_error vs i = Some v ->
     nth_error ws i = Some w -> nth_error xs i = Some x -> zip f t v w = Some x) ->
  zips f ts vs ws = Some xs.
Proof.
  induction vs; intros [|t ts] [|w ws] [|x xs] H1 H2 H3 H; cbn in *; try discriminate; auto.
  rewrite (H O t a w x) by reflexivity. rewrite (IHvs ts ws xs); auto.
  intros i. apply (H (S i)).
Qed.

Lemma all_cons : forall f t v vs w ws, all f t (v :: vs) (w :: ws) =
  match f t v w, all f t vs ws with Some x, Some xs => Some (x :: xs) | _, _ => None end.
Proof. reflexivity. Qed.

Lemma all_repeat : forall f t d vs xs, Forall2 (fun v x => f t v d = Some x) vs xs ->
  all f t vs (repeat d (length vs)) = Some xs.
Proof.
  intros f t d vs xs H. induction H; [reflexivity|]. cbn [length repeat]. rewrite all_cons.
  rewrite H, IHForall2. reflexivity.
Qed.

Lemma resize_nil : forall A n (d : A), resize n d [] = repeat d n.
Proof. intros. unfold resize. rewrite firstn_nil. cbn. now rewrite Nat.sub_0_r. Qed.

(** An array read element by element. *)
Lemma reads_all : forall (f : val -> prog val) (h : val -> bytes) g t vf vs ws,
  Forall2 (fun v w => exists x, g t v w = Some x /\ reads (f w) vf (h v) x vf) vs ws ->
  exists xs, all g t vs ws = Some xs /\ reads (mapP f ws) vf (concat (map h vs)) xs vf.
Proof.
  intros f h g t vf vs ws H. induction H; cbn [mapP map concat].
  - exists []. split; [reflexivity|]. apply reads_ret.
  - destruct H as (b & Hq & Hr). destruct IHForall2 as (xs & Hqs & Hrs).
    exists (b :: xs). split; [rewrite all_cons, Hq, Hqs; reflexivity|]. eapply reads_eq.
    + eapply reads_bind; [exact Hr|]. eapply reads_bind; [exact Hrs|]. apply reads_ret.
    + now rewrite app_nil_r.
Qed.

Definition Cno (a b : N) : Prop := True.
Lemma Cno_any : forall c w, any w -> Cno c w.
Proof. intros. exact I. Qed.
Lemma Cno_true : forall c w, Cno c w -> (fun _ _ : N => True) c (N.max w c).
Proof. intros. exact I. Qed.

Section Land.
Variable E : env.
Hypothesis wf : wf_env any E.
Notation m := MUnpacking.
Notation C := Cno.
Notation R := (fun _ _ : N => True).

(** ** One level of the traversal *)
Section Level.
Variable rec : ty -> list val -> prog (list val).
Variable n : nat.
Hypothesis Hsim : forall t vs ws, arr_ok E t vs -> Forall2 (tgt E C t) vs ws -> fits n t vs ->
  exists vs', Forall2 (sim R) vs vs' /\
    reads (rec t ws) false (framed E t (length vs) (concat (map (encb E t) vs))) vs' false.
Hypothesis Hrec : forall t vs ws, arr_ok E t vs -> Forall no_bags vs ->
  Forall2 (tgt E C t) vs ws -> fits n t vs ->
  exists vs', all (land E) t vs ws = Some vs' /\
    reads (rec t ws) false (framed E t (length vs) (concat (map (encb E t) vs))) vs' false.

Lemma l_ser : forall t v w, holds E t v -> no_bags v -> tgt E C t v w -> (depth v < n)%nat ->
  exists x, land E t v w = Some x /\ reads (ser rec t w) false (enc E t v) x false.
Proof.
  intros t v w Hv Hn Hw Hd.
  destruct (Hrec t [v] [w]) as (vs' & Hs & Hr).
  - repeat split; auto. discriminate.
  - auto.
  - auto.
  - left. constructor; auto.
  - rewrite all_cons in Hs. destruct (land E t v w) as [x|]; [|discriminate].
    cbn in Hs. inversion Hs; subst. exists x. split; auto.
    unfold ser. eapply reads_eq.
    + eapply reads_bind; [exact Hr|]. apply reads_ret.
    + cbn [map concat length]. now rewrite !app_nil_r.
Qed.

Lemma l_array : forall t vs ws, Forall (has_ty E t) vs -> Forall no_bags vs ->
  (is_virtual E t = true -> (length vs <= 1)%nat) -> shallow n vs ->
  Forall2 (target C E t) vs ws ->
  exists vs', all (land E) t vs ws = Some vs' /\
    reads (ser_array rec t ws) false (warray E t (map (encb E t) vs)) vs' false.
Proof.
  intros t vs ws Ht Hn Hv Hs HT. unfold ser_array, warray.
  destruct HT as [|v w vs ws Hvw HT].
  - exists []. split; [reflexivity|]. apply reads_ret.
  - cbn [map]. destruct (Hrec t (v :: vs) (w :: ws)) as (vs' & Hl & Hr).
    + repeat split.
      * eapply Forall_impl; [|exact Ht]. intros; now constructor.
      * discriminate.
      * intros H. apply Hv in H. cbn in *. lia.
    + auto.
    + constructor; [now apply TgtTy|]. clear - HT. induction HT; constructor; auto.
      now apply TgtTy.
    + now left.
    + exists vs'. split; auto. eapply reads_eq; [exact Hr|].
      cbn [length map]. now rewrite map_length.
Qed.

Lemma l_fresh_ser : forall t v d, recon E t = Some d -> has_ty E t v -> no_bags v ->
  (depth v < n)%nat ->
  exists x, land E t v d = Some x /\
    forall A (k : val -> prog A) i a vf', reads (k x) false i a vf' ->
    reads (bind (construct E t) (fun d => bind (ser rec t d) k)) false (enc E t v ++ i) a vf'.
Proof.
  intros t v d Ed Ht Hn Hd.
  assert (Hc : constructible E t) by (unfold constructible; congruence).
  destruct (u_construct _ _ Hc) as (d' & Ed' & Hr).
  assert (d' = d) by congruence. subst d'.
  destruct (l_ser t v d) as (x & Hs & Hrx); auto.
  - now constructor.
  - apply TgtTy. eapply (recon_tgt any E wf C Cno_any); eauto.
  - exists x. split; auto. intros A k i a vf' Hk.
    change (enc E t v ++ i) with ([] ++ enc E t v ++ i).
    eapply reads_bind; [apply Hr|]. eapply reads_bind; eauto.
Qed.

Lemma l_push_elems : forall t vs d acc, recon E t = Some d -> Forall (has_ty E t) vs ->
  Forall no_bags vs -> shallow n vs ->
  exists xs, all (land E) t vs (slots (recon E t) (length vs) []) = Some xs /\
    reads (foldP (fun acc (_ : unit) =>
             bind (construct E t) (fun d => bind (ser rec t d) (fun x => leave E t x (Ret (acc ++ [x])))))
             (repeat tt (length vs)) acc) false (concat (map (enc E t) vs)) (acc ++ xs) false.
Proof.
  intros t vs d acc Ed Ht Hn Hs.
  destruct (reads_push val val (fun acc (_ : unit) =>
      bind (construct E t) (fun d => bind (ser rec t d) (fun x => leave E t x (Ret (acc ++ [x])))))
    (enc E t) (fun v x => land E t v d = Some x) false vs) with (acc := acc) as (xs & HF & Hr).
  - intros a v Hv. rewrite Forall_forall in Ht, Hn.
    destruct (l_fresh_ser t v d) as (x & Hsx & Hr); auto.
    { eapply shallow_in; eauto. }
    exists x. split; auto. eapply reads_eq; [apply Hr, reads_leave, reads_ret|apply app_nil_r].
  - exists xs. split; [|exact Hr]. unfold slots. rewrite Ed, resize_nil. now apply all_repeat.
Qed.

Lemma l_tuple : forall ts vs ws, Forall2 (has_ty E) ts vs -> Forall no_bags vs -> shallow n vs ->
  length vs = length ws ->
  Forall2 (fun t p => target C E t (fst p) (snd p)) ts (combine vs ws) ->
  exists vs', zip (land E) ts vs ws = Some vs' /\
    reads (ser_tuple rec ts ws) false (concat (zipenc E ts vs)) vs' false.
Proof.
  intros ts vs ws H. revert ws. induction H; intros ws Hn Hs Hl HT; cbn [zipenc concat].
  - destruct ws; [|discriminate]. exists []. split; [reflexivity|]. apply reads_ret.
  - destruct ws as [|w ws]; [discriminate|]. inversion Hs; subst. inversion HT; subst.
    inversion Hn; subst. cbn [fst snd] in *.
    destruct (l_ser x y w) as (x' & Hsx & Hrx); auto; [now constructor|now apply TgtTy|].
    destruct (IHForall2 ws) as (vs' & Hvs & Hrs); auto.
    exists (x' :: vs'). split; [cbn [zip]; rewrite Hsx, Hvs; reflexivity|].
    cbn [ser_tuple]. eapply reads_eq.
    + eapply reads_bind; [exact Hrx|]. eapply reads_bind; [exact Hrs|]. apply reads_ret.
    + now rewrite app_nil_r.
Qed.

Lemma l_members : forall ts fs is_ ws,
  Forall2 (has_ty E) ts fs -> Forall no_bags fs -> shallow n fs -> length fs = length ws ->
  Forall2 (fun t p => target C E t (fst p) (snd p)) ts (combine fs ws) ->
  NoDup is_ -> (forall i, In i is_ <-> (i < length ts)%nat) ->
  exists fs', zip (land E) ts fs ws = Some fs' /\
    reads (ser_members rec ts is_ ws) false
      (concat (map (fun i => nth i (zipenc E ts fs) []) is_)) fs' false.
Proof.
  intros ts fs is_ ws Ht Hnb Hs Hl HT Hnd Hall.
  pose proof (Forall2_length _ _ _ _ _ Ht) as Hlt.
  destruct (reads_slots nat val (list val) (fun l => l)
    (fun fs i => match nth_error ts i, nth_error fs i with
                 | Some t, Some v => bind (ser rec t v) (fun x => Ret (upd fs i x))
                 | _, _ => Fail Stuck
                 end) (fun i => i) (fun i => nth i (zipenc E ts fs) [])
    (fun i w => nth_error ws i = Some w)
    (fun i x => forall t v w, nth_error ts i = Some t -> nth_error fs i = Some v ->
       nth_error ws i = Some w -> land E t v w = Some x) false is_)
    with (cur := ws) as (cur' & Hl' & HQ & _ & Hr).
  - now rewrite map_id.
  - intros i cur x Hi Hx HP.
    destruct (nth_error ts i) as [t|] eqn:Et.
    2: { apply nth_error_None in Et. apply Hall in Hi. lia. }
    destruct (nth_error fs i) as [v|] eqn:Ev.
    2: { apply nth_error_None in Ev. apply Hall in Hi. lia. }
    rewrite Hx. destruct (l_ser t v x) as (x' & Hsx & Hrx).
    + constructor. exact (Forall2_nth _ _ _ _ _ _ _ _ Ht Et Ev).
    + rewrite Forall_forall in Hnb. apply Hnb. eapply nth_error_In; eauto.
    + apply TgtTy. eapply (Forall2_combine3 _ _ _ (target C E)); eauto.
    + eapply shallow_in; eauto using nth_error_In.
    + exists x'. split; [intros; congruence|].
      rewrite (zipenc_nth _ _ _ _ _ _ Et Ev). eapply reads_eq; [|apply app_nil_r].
      eapply reads_bind; [exact Hrx|]. apply reads_ret.
  - intros i Hi. apply Hall in Hi.
    destruct (nth_error ws i) as [w|] eqn:Ew.
    2: { apply nth_error_None in Ew. lia. }
    exists w. split; auto.
  - exists cur'. split; [|exact Hr].
    apply zip_of_nth; try lia. intros i t v w x Hi Hv Hw Hx.
    destruct (HQ i) as (y' & Hy' & Hq).
    + apply Hall. apply nth_error_Some. congruence.
    + assert (y' = x) by congruence. subst. auto.
Qed.

Lemma l_static : forall d ls ls' c fs ws, In c (chain E d) ->
  Forall2 (lvl_ok E) (chain E d) ls -> Forall (shallow n) ls -> Forall no_bags fs ->
  nth_error ls (level E c) = Some fs -> nth_error ls' (level E c) = Some ws ->
  lvl_tgt E C c fs ws ->
  exists fs', zip (land E) (wfields E c) fs ws = Some fs' /\
    reads (apply_static E m rec c (VObj d ls')) false
      (wmembers E (c, zipenc E (wfields E c) fs)) (VObj d (upd ls' (level E c) fs')) false.
Proof.
  intros d ls ls' c fs ws Hin HF Hs Hnb Hfs Hws (k & Hk & Hl & HT).
  destruct (obj_level _ _ wf _ _ _ Hin HF) as (k' & fs0 & Hk' & _ & Hn & Hft).
  assert (k' = k) by congruence. subst k'. assert (fs0 = fs) by congruence. subst fs0.
  destruct (lvl_wf _ _ _ _ _ HF Hin Hk) as [_ Hun Hnd Hall].
  destruct (l_members (cfields k) fs (cser k MPacking) ws) as (fs' & Hz & Hr); auto.
  { rewrite Forall_forall in Hs. apply Hs. eapply nth_error_In; eauto. }
  exists fs'. unfold apply_static, wmembers, wfields. cbn [fst snd].
  rewrite Hk. split; auto. rewrite Hws, Hun. apply reads_note. eapply reads_eq; [|apply app_nil_r].
  eapply reads_bind; [exact Hr|]. apply reads_note, reads_ret.
Qed.

Lemma l_vector_data : forall t vs ws, Forall (has_ty E t) vs -> elem_constructible E t ->
  (defc E t = true \/ copyc E t = true \/ ws = []) -> pairwise (target C E t) vs ws ->
  Forall2 (target C E t) vs (slots (elem_of E t) (length vs) ws) /\
  reads (construct_vector_data E t (length vs) ws) false []
    (slots (elem_of E t) (length vs) ws) false.
Proof.
  intros t vs ws Ht Hc Hw HP. unfold construct_vector_data.
  unfold elem_constructible in Hc. unfold elem_of.
  assert (Hres : forall d, (forall v, has_ty E t v -> target C E t v d) ->
            Forall2 (target C E t) vs (resize (length vs) d ws)).
  { intros d Hd. apply resize_pairwise; auto. intros v Hv. apply Hd.
    rewrite Forall_forall in Ht. auto. }
  destruct (defc E t) eqn:Edc.
  - destruct (dflt E t) as [d|] eqn:Ed; [|congruence]. cbn [slots]. split.
    + apply Hres. intros. eapply (dflt_tgt any E wf C Cno_any); eauto.
    + cbn [of_opt bind]. apply reads_ret.
  - destruct (u_construct E t Hc) as (d & Ed & Hr). rewrite Ed. cbn [slots].
    split; [apply Hres; intros; eapply (recon_tgt any E wf C Cno_any); eauto|].
    destruct (copyc E t) eqn:Ecc.
    + change (@nil Byte.byte) with (@nil Byte.byte ++ []). eapply reads_bind; [apply Hr|].
      apply reads_note, reads_ret.
    + destruct Hw as [Hw|[Hw|Hw]]; try discriminate. subst ws. rewrite resize_nil.
      destruct (reads_push val val
        (fun acc _ => bind (construct E t) (fun d => leave E t d (Ret (acc ++ [d]))))
        (fun _ => []) (fun _ x => x = d) false vs) with
        (acc := @nil val) as (xs & HF & Hrs).
      * intros acc v Hv. exists d. split; auto.
        change (@nil Byte.byte) with (@nil Byte.byte ++ []). eapply reads_bind; [apply Hr|].
        apply reads_leave, reads_ret.
      * assert (xs = repeat d (length vs)).
        { clear - HF. induction HF; cbn; f_equal; auto. }
        subst xs. eapply reads_eq; [exact Hrs|]. clear. induction vs; auto.
Qed.

Lemma l_elems : forall t vs ws, Forall (has_ty E t) vs -> Forall no_bags vs -> shallow n vs ->
  Forall2 (target C E t) vs ws ->
  exists vs', all (land E) t vs ws = Some vs' /\
    reads (mapP (ser rec t) ws) false (concat (map (enc E t) vs)) vs' false.
Proof.
  intros t vs ws Ht Hn Hs HT. apply reads_all.
  induction HT; constructor; inversion Ht; inversion Hs; inversion Hn; subst; auto.
  apply l_ser; auto; [now constructor | now apply TgtTy].
Qed.

Lemma land_same : forall t v w x, has_ty E t v -> land E t v w = Some x -> same v x.
Proof. intros t v w x Ht Hx. eapply sim_same. eapply land_sim; eauto using has_ty_roomy. Qed.

Lemma l_elem : forall t v w, has_ty E t v -> no_bags v -> target C E t v w ->
  bytecopy E t = false -> is_virtual E t = false -> (depth v < S n)%nat ->
  exists x, land E t v w = Some x /\ reads (apply_elem E m rec t w) false (encb E t v) x false.
Proof.
  intros t v w Ht Hnb HT Hb Hv Hd.
  pose proof (u_size E C R rec n Hsim) as u_size.
  pose proof (u_bool E C R rec n Hsim) as u_bool.
  pose proof (u_int E C R rec n Hsim) as u_int.
  pose proof (u_prim E C R rec n Hsim) as u_prim.
  inversion Ht; subst; cbn [bytecopy] in Hb; try discriminate.
  - (* enum *)
    inversion HT; subst. exists (VB b). split; [reflexivity|]. cbn [apply_elem encb].
    apply u_prim; auto. cbn in Hd; lia.
  - (* duration *)
    inversion HT; subst. exists (VB b). split; [reflexivity|]. cbn [apply_elem encb].
    apply u_prim; auto. cbn in Hd; lia.
  - (* string *)
    inversion HT; subst. cbn [depth] in Hd. cbn [apply_elem encb land]. unfold ser_string.
    cbn [is_footprinting].
    destruct (u_array E C R rec n Hsim CHAR (chars b) (chars (resize (length b) Byte.x00 b0)))
      as (vs' & Hss & Hr).
    + unfold chars. apply Forall_forall. intros x Hx. apply in_map_iff in Hx.
      destruct Hx as (y & <- & _). now constructor.
    + cbn. discriminate.
    + unfold chars, shallow. apply Forall_forall. intros x Hx. apply in_map_iff in Hx.
      destruct Hx as (y & <- & _). cbn. lia.
    + unfold chars. apply Forall2_of_nth; [rewrite !map_length, resize_length; auto|].
      intros i x y Hx Hy. apply nth_error_In in Hy. apply in_map_iff in Hy.
      destruct Hy as (z & <- & _). now constructor.
    + assert (vs' = chars b).
      { clear - Hss. revert vs' Hss. induction b; cbn; intros vs' H; inversion H; subst; auto.
        inversion H2; subst. f_equal. auto. }
      subst vs'. exists (VStr (N.max cap0 (len b)) b). split; [reflexivity|].
      eapply reads_bind; [apply u_size; lia|]. cbn zeta.
      unfold len at 1. rewrite Nat2N.id.
      eapply reads_eq; [eapply reads_bind; [exact Hr|]|].
      * rewrite unchars_chars. cbn [of_opt bind]. apply reads_ret.
      * rewrite app_nil_r. unfold chars. rewrite map_map. reflexivity.
  - (* vector *)
    inversion HT; subst. cbn [depth] in Hd. destruct (fold_depth l n) as (Hs & H1n); [lia|].
    cbn [no_bags] in Hnb. apply all_no_bags_forall in Hnb.
    cbn [apply_elem encb land]. unfold ser_vector. cbn [is_footprinting is_unpacking].
    destruct (l_vector_data t0 l ws) as (HT' & Hrd); auto.
    destruct (l_array t0 l (slots (elem_of E t0) (length l) ws)) as (vs' & Hz & Hra); auto.
    assert (Hlen : len vs' = len l) by (unfold len; now rewrite (zip_length _ _ _ _ _ Hz)).
    exists (VVec (N.max (N.max cap0 cap) (len vs')) vs'). split.
    + rewrite Hz, Hlen. reflexivity.
    + unfold ser_vector_meta. rewrite app_assoc. eapply reads_bind.
      { eapply reads_bind; [apply u_size; auto; lia|].
        eapply reads_eq; [|apply app_nil_r].
        eapply reads_bind; [apply u_size with (x := len l); auto; lia|]. apply reads_ret. }
      cbn beta iota. unfold len at 1. rewrite Nat2N.id.
      change (warray E t0 (map (encb E t0) l)) with ([] ++ warray E t0 (map (encb E t0) l)).
      eapply reads_bind; [exact Hrd|].
      eapply reads_eq; [|apply app_nil_r]. eapply reads_bind; [exact Hra|]. apply reads_ret.
  - (* vector<bool> *)
    inversion HT; subst. cbn [depth] in Hd. destruct (fold_depth l n) as (Hs & H1n); [lia|].
    cbn [apply_elem encb land]. unfold ser_vecbool. cbn [is_footprinting is_unpacking].
    destruct (reads_mapP val val val
      (fun _ => bind (ser_bool rec false) (fun b => Ret (VB (le 1 (if b then 1 else 0)))))
      (fun x => framed E BOOL 1 (encb E BOOL x)) eq false l
      (resize (length l) (VB (le 1 0)) ws)) as (xs & Heq & Hr).
    { apply Forall2_of_nth; [now rewrite resize_length|]. intros i x y Hx _.
      apply nth_error_In in Hx. rewrite Forall_forall in H1. apply H1 in Hx.
      destruct (bool_byte E _ Hx) as (b & -> & Hw). rewrite Hw.
      exists (VB (le 1 (if b then 1 else 0))). split; [reflexivity|].
      eapply reads_eq; [|apply app_nil_r].
      eapply reads_bind; [apply u_bool with (b := b); lia|]. apply reads_ret. }
    assert (xs = l) by (clear - Heq; induction Heq; f_equal; auto). subst xs.
    exists (VVec (N.max (N.max cap0 cap) (len l)) l). split.
    { do 2 f_equal. lia. }
    unfold ser_vector_meta. rewrite app_assoc. eapply reads_bind.
    { eapply reads_bind; [apply u_size; auto; lia|].
      eapply reads_eq; [|apply app_nil_r].
      eapply reads_bind; [apply u_size with (x := len l); auto; lia|]. apply reads_ret. }
    cbn beta iota zeta. unfold len at 1. rewrite Nat2N.id.
    eapply reads_eq; [|apply app_nil_r].
    eapply reads_bind; [exact Hr|]. apply reads_ret.
  - (* array *)
    inversion HT; subst. cbn [depth] in Hd. destruct (fold_depth l n) as (Hs & H1n); [lia|].
    cbn [no_bags] in Hnb. apply all_no_bags_forall in Hnb.
    destruct (l_array t0 l ws) as (vs' & Hz & Hra); auto.
    exists (VSeq vs'). split; [cbn [land]; rewrite Hz; reflexivity|].
    cbn [apply_elem encb]. unfold ser_stdarray.
    eapply reads_eq; [|apply app_nil_r]. eapply reads_bind; [exact Hra|]. apply reads_ret.
  - (* list, deque *)
    inversion HT; subst. cbn [depth] in Hd. destruct (fold_depth l n) as (Hs & H1n); [lia|].
    cbn [no_bags] in Hnb. apply all_no_bags_forall in Hnb.
    cbn [apply_elem encb land]. unfold ser_list, ser_container_size.
    cbn [is_footprinting is_unpacking].
    assert (Hr : exists vs', all (land E) t0 l (slots (recon E t0) (length l) ws) = Some vs' /\
       reads (deser_ordered E rec t0 (length l) ws) false (concat (map (enc E t0) l)) vs' false).
    { unfold deser_ordered. destruct (u_construct E t0) as (d & Ed & Hrd); auto.
      destruct (copyc E t0) eqn:Ecc.
      - rewrite Ed. cbn [slots].
        destruct (l_elems t0 l (resize (length l) d ws)) as (vs' & Hz & Hr); auto.
        + apply resize_pairwise; auto. intros v0 Hv0.
          eapply (recon_tgt any E wf C Cno_any); eauto.
          rewrite Forall_forall in H1. auto.
        + exists vs'. split; auto. change (concat (map (enc E t0) l)) with
            ([] ++ concat (map (enc E t0) l)). eapply reads_bind; [apply Hrd|].
          apply reads_note. exact Hr.
      - assert (ws = []) by (match goal with Ho : false = true \/ ws = [] |- _ => destruct Ho; congruence end). subst ws.
        destruct (l_push_elems t0 l d []) as (xs & Hz & Hr); auto.
        exists xs. auto. }
    destruct Hr as (vs' & Hz & Hr). exists (VSeq vs'). split; [rewrite Hz; reflexivity|].
    eapply reads_bind; [apply u_size with (x := len l); auto; lia|].
    unfold len at 1. rewrite Nat2N.id.
    eapply reads_eq; [|apply app_nil_r]. eapply reads_bind; [exact Hr|]. apply reads_ret.
  - (* queue *)
    inversion HT; subst. cbn [depth] in Hd. destruct (fold_depth l n) as (Hs & H1n); [lia|].
    cbn [no_bags] in Hnb. apply all_no_bags_forall in Hnb.
    cbn [apply_elem encb land]. unfold ser_queue, ser_container_size.
    cbn [is_footprinting is_unpacking].
    destruct (u_construct E t0) as (d & Ed & _); auto.
    destruct (l_push_elems t0 l d []) as (xs & Hz & Hr); auto.
    exists (VSeq xs). split; [rewrite Hz; reflexivity|].
    eapply reads_bind; [apply u_size with (x := len l); auto; lia|].
    unfold len at 1. rewrite Nat2N.id.
    eapply reads_eq; [|apply app_nil_r]. eapply reads_bind; [exact Hr|]. apply reads_ret.
  - (* ordered associative *)
    inversion HT; subst. cbn [depth] in Hd. destruct (fold_depth l n) as (Hs & H1n); [lia|].
    cbn [no_bags] in Hnb. apply all_no_bags_forall in Hnb.
    cbn [apply_elem encb land]. unfold ser_assoc, ser_container_size.
    cbn [is_footprinting is_unpacking elements of_opt bind].
    unfold deser_emplace. destruct (u_construct E t0) as (d & Ed & _); auto.
    destruct (reads_accum val val val
      (fun acc (_ : unit) => bind (construct E t0) (fun d => bind (ser rec t0 d)
         (fun x => leave_elem E (AOrd multi mp) t0 x (of_opt (emplace E (AOrd multi mp) t0 acc x)))))
      (enc E t0) (fun v x => land E t0 v d = Some x /\ same v x) (fun xs s => s = VSeq xs) false l)
      with (s0 := VSeq []) as (xs & s & Hxs & -> & Hr).
    + intros pre v0 suf xs s -> Hpre ->.
      assert (Hin0 : In v0 (pre ++ v0 :: suf)) by (apply in_or_app; right; now left).
      assert (Ht0 : has_ty E t0 v0) by (rewrite Forall_forall in H1; auto).
      destruct (l_fresh_ser t0 v0 d) as (x & Hsx & Hr); auto.
      { rewrite Forall_forall in Hnb; auto. }
      { eapply shallow_in; eauto. }
      pose proof (land_same _ _ _ _ Ht0 Hsx) as Hsame.
      exists x, (VSeq (xs ++ [x])). split; [auto|]. split; [auto|].
      eapply reads_eq; [apply Hr|apply app_nil_r].
      assert (Hlt : forall y, In y xs ->
        less E (TAssoc (AOrd multi mp) t0) x y = false /\
        (multi = false -> less E (TAssoc (AOrd multi mp) t0) y x = true)).
      { intros y Hy. destruct (Forall2_in_r _ _ _ _ _ _ Hpre Hy) as (z & Hz & _ & Hzy).
        destruct (sorted_by_split _ _ _ _ _ H2 z Hz) as (Ha & Hb').
        rewrite <- (wf_less _ _ wf _ v0 x z y) by eauto.
        rewrite <- (wf_less _ _ wf _ z y v0 x) by eauto. auto. }
      unfold emplace.
      assert (Hex : negb multi && existsb (fun y =>
         negb (less E (TAssoc (AOrd multi mp) t0) x y) && negb (less E (TAssoc (AOrd multi mp) t0) y x)) xs
         = false).
      { destruct multi; cbn [negb andb]; auto.
        apply not_true_iff_false. intros Hex. apply existsb_exists in Hex.
        destruct Hex as (y & Hy & Heq). destruct (Hlt y Hy) as (_ & Hyx).
        rewrite (Hyx eq_refl) in Heq. cbn in Heq. rewrite andb_false_r in Heq. discriminate. }
      rewrite Hex. rewrite insert_sorted_last by (intros; now apply Hlt).
      cbn [of_opt]. apply reads_leave_elem, reads_ret.
    + reflexivity.
    + exists (VSeq xs). split.
      { rewrite Ed. cbn [slots]. rewrite resize_nil, (all_repeat _ _ _ l xs); [reflexivity|].
        eapply Forall2_impl; [|exact Hxs]. intros a b (Hab & _). exact Hab. }
      eapply reads_bind; [apply u_size with (x := len l); auto; lia|].
      unfold len at 1. rewrite Nat2N.id. exact Hr.
  - (* unordered associative *) exact (False_ind _ Hnb).
  - (* pair *)
    inversion HT; subst. cbn [depth fold_right] in Hd. destruct Hnb as (Hnx & Hny & _).
    destruct (l_ser a x x') as (x1 & Hs1 & Hr1); [now constructor|auto|now apply TgtTy|lia|].
    destruct (l_ser b y y') as (y1 & Hs2 & Hr2); [now constructor|auto|now apply TgtTy|lia|].
    exists (VSeq [x1; y1]). split; [cbn [land zip]; rewrite Hs1, Hs2; reflexivity|].
    cbn [apply_elem encb]. unfold ser_pair. apply reads_count.
    eapply reads_bind; [exact Hr1|].
    eapply reads_eq; [|apply app_nil_r]. eapply reads_bind; [exact Hr2|]. apply reads_ret.
  - (* tuple *)
    inversion HT; subst. cbn [depth] in Hd. destruct (fold_depth l n) as (Hs & H1n); [lia|].
    cbn [no_bags] in Hnb. apply all_no_bags_forall in Hnb.
    destruct (l_tuple ts l ws) as (vs' & Hz & Hr); auto.
    exists (VSeq vs'). split; [cbn [land]; rewrite Hz; reflexivity|]. rewrite encb_tuple. cbn [apply_elem].
    eapply reads_eq; [|apply app_nil_r]. eapply reads_bind; [exact Hr|]. apply reads_ret.
  - (* optional, empty *)
    inversion HT; subst. cbn [depth] in Hd. exists (VOpt None). split; [reflexivity|].
    cbn [apply_elem encb]. unfold ser_optional. cbn [is_footprinting is_unpacking].
    eapply reads_eq; [|apply app_nil_r]. eapply reads_bind; [apply u_bool with (b := false); lia|].
    apply reads_ret.
  - (* optional, engaged *)
    inversion HT; subst. cbn [depth] in Hd. cbn [no_bags] in Hnb.
    destruct (u_construct E t0) as (d & Ed & _); auto.
    destruct (l_fresh_ser t0 v0 d) as (x & Hsx & Hr); auto; [lia|].
    exists (VOpt (Some x)). split; [cbn [land]; rewrite Ed, Hsx; reflexivity|].
    cbn [apply_elem encb]. unfold ser_optional. cbn [is_footprinting is_unpacking].
    eapply reads_bind; [apply u_bool with (b := true); lia|]. cbn beta iota.
    eapply reads_eq; [apply Hr|apply app_nil_r]. apply reads_note, reads_ret.
  - (* variant *)
    assert (Hx : exists j, variant_index w = Some j /\ apply_elem E m rec (TVariant ts) w =
        bind (ser_size rec j) (fun entry => ser_entry E m rec ts w entry 0)).
    { inversion HT; subst; [| |congruence]; eexists; split; reflexivity. }
    destruct Hx as (j & _ & ->).
    cbn [depth] in Hd. cbn [no_bags] in Hnb.
    destruct (u_construct E t0) as (d & Ed & _); auto.
    destruct (l_fresh_ser t0 v0 d) as (x & Hsx & Hr); auto; [lia|].
    exists (VVar i x). split; [cbn [land]; rewrite H0, Ed, Hsx; reflexivity|].
    cbn [encb]. rewrite H0. eapply reads_bind; [apply u_size with (x := N.of_nat i); lia|].
    assert (G : forall ts0 cur, nth_error ts0 (i - cur) = Some t0 -> (cur <= i)%nat ->
        reads (ser_entry E m rec ts0 w (N.of_nat i) cur) false (enc E t0 v0) (VVar i x) false).
    { induction ts0; intros cur Hn Hc; cbn [ser_entry].
      - destruct (i - cur)%nat; discriminate.
      - destruct (N.of_nat i =? N.of_nat cur) eqn:Ec.
        + apply N.eqb_eq in Ec. assert (i = cur) by lia. subst cur.
          rewrite Nat.sub_diag in Hn. inversion Hn; subst. cbn [is_unpacking].
          eapply reads_eq; [apply Hr|apply app_nil_r]. apply reads_leave, reads_ret.
        + apply N.eqb_neq in Ec. apply IHts0; [|lia].
          replace (i - cur)%nat with (S (i - S cur)) in Hn by lia. exact Hn. }
    apply G; [now rewrite Nat.sub_0_r|lia].
  - (* byte-copyable variant *)
    change (bytecopy E (TVariant ts) = false) in Hb. congruence.
  - (* null pointer *)
    cbn [depth] in Hd. exists (VOpt None). split; [reflexivity|].
    assert (Ho : exists o, w = VOpt o) by (inversion HT; subst; eauto).
    destruct Ho as (o & ->). cbn [apply_elem encb]. unfold ser_unique.
    cbn [is_footprinting is_unpacking].
    eapply reads_eq; [|apply app_nil_r].
    eapply reads_bind; [apply u_bool with (b := true); lia|]. apply reads_ret.
  - (* pointer to a non-polymorphic object *)
    cbn [depth] in Hd. cbn [encb]. rewrite H. cbn [app]. cbn [no_bags] in Hnb.
    assert (Hw : w = VOpt None \/ exists o, w = VOpt (Some o) /\ target C E t0 v0 o).
    { inversion HT; subst; eauto. cbn [is_virtual] in *. congruence. }
    destruct Hw as [-> | (o & -> & HTo)]; cbn [apply_elem]; unfold ser_unique;
      cbn [is_footprinting is_unpacking].
    + destruct (u_construct E t0) as (d & Ed & Hrd); auto.
      destruct (l_ser t0 v0 d) as (x & Hsx & Hrx); auto;
        [now constructor|apply TgtTy; eapply (recon_tgt any E wf C Cno_any); eauto|lia|].
      exists (VOpt (Some x)). split.
      { cbn [land]. unfold pointee. rewrite H, Ed, Hsx. reflexivity. }
      eapply reads_bind; [apply u_bool with (b := false); lia|]. cbn beta iota.
      assert (Hrp : reconstruct_pointed E m rec t0 None =
                    bind (construct E t0) (fun o => Ret (Some o))).
      { unfold reconstruct_pointed. destruct t0; auto. now rewrite H. }
      rewrite Hrp.
      change (framed E t0 1 (encb E t0 v0)) with (([] ++ []) ++ enc E t0 v0).
      eapply reads_bind; [eapply reads_bind; [apply Hrd|apply reads_ret]|]. cbn beta iota.
      eapply reads_eq; [|apply app_nil_r]. eapply reads_bind; [exact Hrx|]. apply reads_ret.
    + destruct (l_ser t0 v0 o) as (x & Hsx & Hrx); auto;
        [now constructor|now apply TgtTy|lia|].
      exists (VOpt (Some x)). split; [cbn [land]; rewrite Hsx; reflexivity|].
      eapply reads_bind; [apply u_bool with (b := false); lia|]. cbn beta iota.
      assert (Hrp : reconstruct_pointed E m rec t0 (Some o) = Ret (Some o)).
      { unfold reconstruct_pointed. destruct t0; auto. now rewrite H. }
      rewrite Hrp. cbn [bind].
      eapply reads_eq; [|apply app_nil_r]. eapply reads_bind; [exact Hrx|]. apply reads_ret.
  - (* pointer to a polymorphic object *)
    assert (Hdd : (depth (VObj d ls) < n)%nat) by (change (depth (VOpt (Some (VObj d ls))))
      with (S (Nat.max 1 (depth (VObj d ls)))) in Hd; lia).
    assert (H1n : (1 < n)%nat) by (cbn [depth] in Hdd; lia).
    rewrite (encb_unique_dyn _ _ _ _ _ H H1).
    assert (Hi32 : N.of_nat i < 2 ^ 32) by lia.
    assert (Hw : w = VOpt None \/ exists ls', w = VOpt (Some (VObj d ls')) /\
                   target C E (TClass d) (VObj d ls) (VObj d ls')).
    { inversion HT; subst; eauto. congruence. }
    assert (Hpt : exists ls', target C E (TClass d) (VObj d ls) (VObj d ls') /\
      (forall y, land E (TClass c) (VObj d ls) (VObj d ls') = Some y ->
         land E (TUnique (TClass c)) (VOpt (Some (VObj d ls))) w = Some (VOpt (Some y))) /\
      match w with VOpt p =>
        reads (reconstruct_pointed E m rec (TClass c) p) false (wint E (N.of_nat i))
          (Some (VObj d ls')) false
      | _ => False end).
    { destruct Hw as [-> | (ls' & -> & HT')].
      - unfold constructible in H4. destruct (recon E (TClass d)) as [o|] eqn:Eo; [|congruence].
        pose proof (recon_tgt any E wf C Cno_any _ _ _ H5 Eo) as HTo.
        assert (exists ls', o = VObj d ls').
        { inversion HTo; subst; eauto.
          destruct (has_obj_cls any E wf _ _ H5) as (k' & Hk' & Hb'). congruence. }
        destruct H6 as (ls' & ->). exists ls'. split; auto. split.
        { intros y Hy. remember (VObj d ls) as vo eqn:Evo. cbn [land]. unfold pointee. rewrite H.
          rewrite Evo at 1. rewrite Eo, Hy. reflexivity. }
        unfold reconstruct_pointed. rewrite H. unfold ser_virtual_type.
        cbn [is_footprinting is_unpacking bind].
        eapply reads_eq; [|apply app_nil_r]. eapply reads_bind.
        { eapply reads_eq; [|apply app_nil_r]. eapply reads_bind; [apply u_int; [exact Hi32|lia]|].
          apply reads_ret. }
        cbn beta iota. unfold construct_concrete. rewrite Nat2N.id.
        assert (Hnth : nth_error (oreg E (root E c)) i = Some d).
        { unfold obj_idx in H1. rewrite H3 in H1. revert H1. clear. revert i.
          induction (oreg E (root E c)); intros i H; cbn in H; [discriminate|].
          destruct (Nat.eqb a d) eqn:Ea.
          - apply Nat.eqb_eq in Ea. inversion H; subst. reflexivity.
          - destruct (index_of d l); cbn in H; [|discriminate]. inversion H; subst. cbn. auto. }
        rewrite Hnth, Eo. cbn [bind]. apply reads_note.
        assert (Hex : existsb (Nat.eqb c) (chain E d) = true).
        { apply existsb_exists. exists c. split; auto. apply Nat.eqb_refl. }
        rewrite Hex. cbn [bind]. apply reads_ret.
      - exists ls'. split; auto. split.
        { intros y Hy. remember (VObj d ls) as vo eqn:Evo. cbn [land]. rewrite Hy. reflexivity. }
        unfold reconstruct_pointed. rewrite H. unfold ser_virtual_type.
        cbn [is_footprinting is_unpacking bind].
        eapply reads_eq; [|apply app_nil_r]. eapply reads_bind.
        { eapply reads_eq; [|apply app_nil_r]. eapply reads_bind; [apply u_int; [exact Hi32|lia]|].
          cbn [dyn_type_idx]. rewrite H1. cbn [option_map of_opt bind]. rewrite N.eqb_refl.
          apply reads_ret. }
        apply reads_ret. }
    destruct Hpt as (ls' & HT' & Hland & Hr).
    destruct (l_ser (TClass c) (VObj d ls) (VObj d ls')) as (x & Hsx & Hrx); auto.
    { now apply HoldsDyn. }
    { now apply TgtDyn. }
    exists (VOpt (Some x)). split; [auto|].
    assert (Ho : exists p, w = VOpt p) by (destruct Hw as [-> | (? & -> & _)]; eauto).
    destruct Ho as (p & ->). cbn [apply_elem]. unfold ser_unique.
    cbn [is_footprinting is_unpacking].
    eapply reads_bind; [apply u_bool with (b := false); lia|]. cbn beta iota.
    eapply reads_bind; [exact Hr|]. cbn beta iota.
    eapply reads_eq; [|apply app_nil_r]. eapply reads_bind; [exact Hrx|]. apply reads_ret.
  - (* byte-copyable class *)
    rewrite H in Hb. congruence.
  - (* class *)
    assert (Hin : In c (chain E c)) by (eapply chain_self; eauto).
    destruct (chain_in_cls _ _ wf _ _ Hin) as (k & Hk).
    assert (Hst : chain E c = [c]).
    { eapply chain_static; eauto. cbn [is_virtual] in Hv. now rewrite Hk in Hv. }
    cbn [depth] in Hd. destruct (fold_depth2 ls n) as (Hs & H1n); [lia|].
    apply obj_no_bags_forall in Hnb.
    rewrite encb_obj, Hv.
    destruct (obj_level _ _ wf _ _ _ Hin H0) as (k' & fs & Hk' & Hkb & Hn & Hft).
    inversion HT; subst.
    { congruence. }
    match goal with H2 : Forall2 _ (chain E c) (combine ls ls') |- _ => rename H2 into HL end.
    match goal with H2 : length ls = length ls' |- _ => rename H2 into Hll end.
    destruct (nth_error ls' (level E c)) as [ws|] eqn:Ew.
    2: { apply nth_error_None in Ew. assert (level E c < length ls)%nat
           by (apply nth_error_Some; congruence). lia. }
    assert (Hlt : lvl_tgt E C c fs ws).
    { apply (Forall2_combine3 _ _ _ (lvl_tgt E C) (chain E c) ls ls' HL Hll (level E c)); auto.
      eapply chain_level; eauto. }
    destruct (l_static c ls ls' c fs ws) as (fs' & Hz & Hr); auto.
    { rewrite Forall_forall in Hnb. apply Hnb. eapply nth_error_In; eauto. }
    exists (VObj c (upd ls' (level E c) fs')).
    assert (Hlv : level E c = O) by (unfold level; now rewrite Hst).
    rewrite Hlv, Hst in *. cbn [nth_error] in *.
    destruct ls as [|fs0 [|? ?]]; inversion H0; subst; try discriminate; [|inversion H6].
    destruct ls' as [|ws0 [|? ?]]; try discriminate.
    cbn in Hn, Ew. inversion Hn; inversion Ew; subst.
    split.
    { cbn [land]. rewrite Hst. cbn [map zips]. rewrite Hz. reflexivity. }
    cbn [levelenc map concat]. rewrite app_nil_r. cbn [apply_elem]. exact Hr.
Qed.
End Level.

(** ** The recursive traversal *)
Definition land_level (f : nat) : Prop :=
  forall d ls ls' c fs ws, In c (chain E d) -> is_virtual E (TClass c) = true ->
     Forall2 (lvl_ok E) (chain E d) ls -> Forall (shallow (pred f)) ls -> (1 < f)%nat ->
     Forall no_bags fs ->
     nth_error ls (level E c) = Some fs -> nth_error ls' (level E c) = Some ws ->
     lvl_tgt E C c fs ws ->
     exists fs', zip (land E) (wfields E c) fs ws = Some fs' /\
       reads (ser (with_ E m f) (TClass c) (VObj d ls')) true
         (framed E (TClass c) 1 (wmembers E (c, zipenc E (wfields E c) fs)))
         (VObj d (upd ls' (level E c) fs')) false.
Definition land_ok (f : nat) : Prop :=
  (forall t vs ws, arr_ok E t vs -> Forall no_bags vs -> Forall2 (tgt E C t) vs ws ->
     fits f t vs ->
     exists vs', all (land E) t vs ws = Some vs' /\
       reads (with_ E m f t ws) false
         (framed E t (length vs) (concat (map (encb E t) vs))) vs' false) /\
  land_level f.

Lemma l_sim : forall f t vs ws, arr_ok E t vs -> Forall2 (tgt E C t) vs ws -> fits f t vs ->
  exists vs', Forall2 (sim R) vs vs' /\
    reads (with_ E m f t ws) false
      (framed E t (length vs) (concat (map (encb E t) vs))) vs' false.
Proof. intros f. exact (proj1 (unpack_all any E wf C R Cno_any Cno_true f)). Qed.

(** An object through its dynamic class. *)
Lemma l_dyn : forall f t d ls ls', land_level f ->
  is_virtual E t = true -> is_virtual E (TClass d) = true -> has_ty E (TClass d) (VObj d ls) ->
  no_bags (VObj d ls) ->
  target C E (TClass d) (VObj d ls) (VObj d ls') ->
  (depth (VObj d ls) < S f)%nat ->
  exists x, land E t (VObj d ls) (VObj d ls') = Some x /\
    reads (dyn_serialize E (with_ E m f) (VObj d ls')) false (encb E t (VObj d ls)) x false.
Proof.
  intros f t d ls ls' IH2 Hv Hvd Hty Hnb HTo Hd.
  apply obj_no_bags_forall in Hnb.
  destruct (has_obj _ _ _ _ Hty) as (_ & Hcn & HF). inversion HTo; subst.
  match goal with H2 : Forall2 _ (chain E d) (combine ls ls') |- _ => rename H2 into HL end.
  match goal with H2 : length ls = length ls' |- _ => rename H2 into Hll end.
  assert (Hlc : length (chain E d) = length ls) by (eapply Forall2_length; eauto).
  cbn [depth] in Hd. destruct (fold_depth2 ls (pred f)) as (Hsl & H1n); [lia|].
  assert (Hlv : forall c fs ws, In c (chain E d) -> nth_error ls (level E c) = Some fs ->
    nth_error ls' (level E c) = Some ws -> lvl_tgt E C c fs ws).
  { intros c fs ws Hc Hfs Hws.
    apply (Forall2_combine3 _ _ _ (lvl_tgt E C) (chain E d) ls ls' HL Hll (level E c)); auto.
    eapply chain_level; eauto. }
  destruct (reads_slots nat (list val) val (VObj d)
    (fun v c => Note (EvRegistry c) (SetV true (ser (with_ E m f) (TClass c) v))) (level E)
    (fun c => framed E (TClass c) 1
       (wmembers E (c, zipenc E (wfields E c) (nth (level E c) ls []))))
    (fun c ws => nth_error ls' (level E c) = Some ws)
    (fun c fs' => forall fs ws, nth_error ls (level E c) = Some fs ->
       nth_error ls' (level E c) = Some ws -> zip (land E) (wfields E c) fs ws = Some fs')
    false (chain E d)) with (cur := ls') as (cur' & Hl' & HQ & _ & Hr).
  * apply NoDup_nth_error. intros i j Hi Hij.
    rewrite !nth_error_map in Hij.
    rewrite map_length in Hi.
    destruct (nth_error (chain E d) i) as [ci|] eqn:Eci.
    2: { apply nth_error_None in Eci. lia. }
    destruct (nth_error (chain E d) j) as [cj|] eqn:Ecj; [|discriminate].
    cbn in Hij. inversion Hij.
    rewrite (chain_nth_level _ _ wf _ _ _ Eci), (chain_nth_level _ _ wf _ _ _ Ecj) in H0. auto.
  * intros c cur x Hc Hx Hws.
    destruct (obj_level _ _ wf _ _ _ Hc HF) as (k & fs & Hk & Hkb & Hn & Hft).
    rewrite (nth_error_nth _ _ _ Hn) in *.
    destruct (IH2 d ls cur c fs x) as (fs' & Hz & Hrf); auto.
    { rewrite (chain_virtual _ _ wf d c); auto. }
    { lia. }
    { rewrite Forall_forall in Hnb. apply Hnb. eapply nth_error_In; eauto. }
    exists fs'. split; [intros; congruence|]. apply reads_note, reads_setv. exact Hrf.
  * intros c Hc.
    destruct (obj_level _ _ wf _ _ _ Hc HF) as (k & fs & Hk & Hkb & Hn & Hft).
    destruct (nth_error ls' (level E c)) as [ws|] eqn:Ew.
    2: { apply nth_error_None in Ew. assert (level E c < length ls)%nat
           by (apply nth_error_Some; congruence). lia. }
    exists ws. split; auto.
  * exists (VObj d cur'). split.
    { cbn [land]. rewrite (zips_of_nth (land E) ls (map (wfields E) (chain E d)) ls' cur');
        [reflexivity|rewrite map_length; lia|lia|lia|].
      intros i ts fs ws x Hi Hfs Hws Hx. rewrite nth_error_map in Hi.
      destruct (nth_error (chain E d) i) as [c|] eqn:Ec; [|discriminate].
      cbn in Hi. inversion Hi; subst ts.
      destruct (HQ c) as (y & Hy & Hsy); [eapply nth_error_In; eauto|].
      rewrite (chain_nth_level _ _ wf _ _ _ Ec) in *.
      assert (y = x) by congruence. subst y. auto. }
    unfold dyn_serialize. rewrite Hvd.
    eapply reads_eq; [exact Hr|].
    rewrite encb_obj, Hv.
    symmetry. apply levels_by_chain; auto.
    intros; eapply chain_nth_level; eauto.
Qed.

(** An array without its frame. *)
Lemma l_ap : forall f, land_ok f -> forall t vs ws,
  arr_ok E t vs -> Forall no_bags vs -> Forall2 (tgt E C t) vs ws -> fits (S f) t vs ->
  exists vs', all (land E) t vs ws = Some vs' /\
    reads (ap E m (with_ E m f) t ws) false (concat (map (encb E t) vs)) vs' false.
Proof.
  intros f (IH1 & IH2) t vs ws (Ht & Hne & Hv1) Hnb HT Hs.
  pose proof (Forall2_length _ _ _ _ _ HT) as Hlen.
  unfold ap. destruct (bytecopy E t) eqn:Hb.
  { assert (HV : Forall2 (fun v w => v = VB (vb v) /\ exists b, w = VB b /\ len b = len (vb v)) vs ws).
    { clear - HT Ht Hb wf. induction HT; constructor; inversion Ht; subst; auto.
      destruct (bytecopy_vb _ _ _ _ wf H2 Hb) as (? & ? & ?).
      destruct (bytecopy_tgt any E wf C _ _ _ H2 H Hb) as (b & -> & Hl). split; auto.
      exists b. split; auto. congruence. }
    destruct (unflatten_read E t _ _ HV) as (Hu & Ho & Hl). rewrite Ho.
    exists vs. split.
    - clear - HV. induction HV as [|v w vs ws (Hv & _)]; [reflexivity|].
      rewrite all_cons, IHHV. rewrite Hv. reflexivity.
    - assert (Henc : map (encb E t) vs = map vb vs).
      { apply map_ext_in. intros v Hv. rewrite Forall_forall in Ht.
        destruct (bytecopy_vb _ _ _ _ wf (Ht _ Hv) Hb) as (? & ? & ?). auto. }
      rewrite Henc. eapply reads_eq; [|apply app_nil_r].
      apply reads_contig; [auto|]. rewrite Hu. apply reads_ret. }
  destruct Hs as [Hs|(Hs & _)]; [|destruct t; discriminate].
  destruct (is_virtual E t) eqn:Hv.
  + specialize (Hv1 eq_refl).
    destruct vs as [|v [|v' r]]; try discriminate. clear Hv1 Hne.
    destruct ws as [|w [|w' r]]; try discriminate. clear Hlen.
    inversion Ht as [|? ? Hh _]; subst. inversion Hs as [|? ? Hd _]; subst.
    inversion HT as [|? ? ? ? HTv _]; subst. inversion Hnb as [|? ? Hnv _]; subst.
    assert (Hobj : exists d ls, v = VObj d ls /\ has_ty E (TClass d) (VObj d ls) /\
                     is_virtual E (TClass d) = true).
    { inversion Hh; subst.
      - inversion H; subst; cbn in Hv; try discriminate.
        + rewrite H0 in Hv. congruence.
        + exists c, ls. auto.
      - exists d, ls. split; auto. split; auto. rewrite <- (chain_virtual _ _ wf d c); auto. }
    destruct Hobj as (d & ls & -> & Hty & Hvd).
    destruct (has_obj _ _ _ _ Hty) as (_ & Hcn & HF).
    assert (Hw : exists ls', w = VObj d ls' /\ target C E (TClass d) (VObj d ls) (VObj d ls')).
    { inversion HTv; subst; eauto.
      inversion H; subst; cbn [is_virtual] in Hv; try discriminate; eauto.
      rewrite H0 in Hv. congruence. }
    destruct Hw as (ls' & -> & HTo).
    destruct (l_dyn f t d ls ls') as (x & Hsx & Hr); auto.
    exists [x]. split; [rewrite all_cons, Hsx; reflexivity|]. apply reads_getv. cbn beta iota.
    eapply reads_eq; [eapply reads_bind; [exact Hr|apply reads_ret]|].
    cbn [map concat length]. reflexivity.
  + apply reads_all.
    clear Hne Hv1 Hlen.
    induction HT as [|v w vs ws Hvw HT IHT]; constructor; inversion Ht; inversion Hs;
      inversion Hnb; subst; auto.
    match goal with Hh : holds E t v |- _ => inversion Hh; subst; [|congruence] end.
    inversion Hvw; subst; [|congruence].
    apply (l_elem (with_ E m f) f (l_sim f) IH1); auto.
Qed.

Lemma land_all : forall f, land_ok f.
Proof.
  induction f as [|f IH].
  { split.
    - intros t vs ws (_ & Hne & _) _ _ [Hs|(_ & Hs)]; exfalso; [|lia].
      destruct vs; [congruence|]. inversion Hs; subst. lia.
    - intros until 5. lia. }
  destruct IH as (IH1 & IH2). split.
  - intros t vs ws (Ht & Hne & Hv1) Hnb HT Hs. cbn [with_]. unfold traverse.
    pose proof (Forall2_length _ _ _ _ _ HT) as Hlen. rewrite <- Hlen.
    destruct (l_ap f (conj IH1 IH2) t vs ws) as (vs' & Hz & Hr); auto.
    { repeat split; auto. }
    exists vs'. split; auto. now apply (reads_framed any E wf).
  - intros d ls ls' c fs ws Hin Hv HF Hs Hf Hnb Hfs Hws Hlt.
    destruct (obj_level _ _ wf _ _ _ Hin HF) as (k & fs0 & Hk & Hkb & Hn & Hft).
    destruct (l_static (with_ E m f) f IH1 d ls ls' c fs ws) as (fs' & Hz & Hr); auto.
    exists fs'. split; auto. unfold ser. cbn [with_]. unfold traverse.
    eapply reads_eq; [|apply app_nil_r].
    eapply reads_bind with (a := [VObj d (upd ls' (level E c) fs')]) (vf1 := false);
      [|apply reads_ret].
    apply (reads_framed any E wf). unfold ap. cbn [bytecopy]. rewrite Hk, Hkb, Hv.
    apply reads_getv. cbn beta iota. apply reads_setv.
    cbn [mapP apply_elem]. eapply reads_eq; [|apply app_nil_r].
    eapply reads_bind; [exact Hr|]. cbn [bind]. apply reads_ret.
Qed.

(** The root call: deserializing into [w]. *)
Lemma land_root : forall f t v w, has_ty E t v -> no_bags v -> target C E t v w ->
  (depth v < f)%nat ->
  exists x, land E t v w = Some x /\ reads (with_root E m f t w) false (enc_root E t v) x false.
Proof.
  intros f t v w Ht Hnb HT Hd. unfold with_root, enc_root.
  destruct (l_ser (with_ E m f) f (proj1 (land_all f)) t v w) as (x & Hsx & Hr); auto.
  { now constructor. }
  { now apply TgtTy. }
  exists x. split; auto.
  destruct (chk E) eqn:Ec; auto.
  destruct (tix_ok any E wf t) as (Hu & Hval).
  eapply reads_bind with (vf1 := false).
  { unfold with_type_idx. eapply reads_eq; [|apply app_nil_r].
    apply reads_contig; [now rewrite !le_length|].
    cbn zeta. rewrite Hu, Hval, N.eqb_refl. apply reads_ret. }
  eapply reads_bind.
  { unfold enc, framed in Hr. rewrite Ec in Hr. exact Hr. }
  eapply reads_eq; [|apply app_nil_r]. eapply reads_bind with (vf1 := false) (a := tt).
  - unfold with_mem_used. eapply reads_eq; [|apply app_nil_r].
    apply reads_contig; [now rewrite !le_length|]. rewrite N.mul_1_r.
    rewrite unle_le by apply wrap64_lt. rewrite N.eqb_refl. apply reads_ret.
  - apply reads_ret.
Qed.
End Land.
