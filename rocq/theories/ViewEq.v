(** What ViewEquality reports. *)
From Coq Require Import List NArith Arith Bool Lia.
From Verif Require Import Base Syntax Prog Spec ProgFacts EnvFacts Views ViewSpec ViewFacts ViewRound.
Import ListNotations.
Local Open Scope N_scope.

Lemma filter_length_le : forall A (f : A -> bool) l, (length (filter f l) <= length l)%nat.
Proof. induction l; cbn; auto. destruct (f a); cbn; lia. Qed.

Section Law.
Variable E : env.
Variable eq : val -> val -> bool.
Variables v1 v2 : view.

(** The two elements at an index tuple are equal. *)
Definition same_at (idx : list N) : Prop :=
  exists a b, at_ v1 idx = Some a /\ at_ v2 idx = Some b /\ eq a b = true.

(** [ext]: extents of the dimensions that are left after the index prefix [pre].
    Without a dimension left, the elements are equal; otherwise some index of the next
    dimension does not report. *)
Fixpoint report (ext pre : list N) : Prop :=
  match ext with
  | [] => same_at pre
  | e :: ext' => exists i, i < e /\ ~ report ext' (pre ++ [i])
  end.

Hypothesis Hm1 : has_memory v1.
Hypothesis Hm2 : has_memory v2.
Hypothesis Hext : v_ext v2 = v_ext v1.
Hypothesis H64 : Forall (fun e => e < two64) (v_ext v1).
Hypothesis Hrank : (length (v_ext v1) <= 8)%nat.

Lemma wrap32_sub : forall nd d k, nd < 4294967296 -> d < 4294967296 ->
  wrap32 (nd + 4294967296 - d) = k -> k + 1 < 4294967296 ->
  wrap32 (nd + 4294967296 - wrap32 (d + 4294967296 - 1)) = k + 1.
Proof.
  intros nd d k Hn Hd Hk Hk1. unfold wrap32 in *.
  destruct (N.eq_dec d 0) as [->|Hz].
  - change ((0 + 4294967296 - 1) mod 4294967296) with 4294967295.
    rewrite N.sub_0_r in Hk.
    replace (nd + 4294967296) with (nd + 1 * 4294967296) in Hk by lia.
    rewrite N.mod_add in Hk by lia. rewrite N.mod_small in Hk by lia. subst.
    replace (k + 4294967296 - 4294967295) with (k + 1) by lia. now apply N.mod_small.
  - replace (d + 4294967296 - 1) with (d - 1 + 1 * 4294967296) by lia.
    rewrite N.mod_add by lia. rewrite (N.mod_small (d - 1)) by lia.
    destruct (N.le_gt_cases d nd) as [Hle|Hgt].
    + replace (nd + 4294967296 - d) with (nd - d + 1 * 4294967296) in Hk by lia.
      rewrite N.mod_add in Hk by lia. rewrite N.mod_small in Hk by lia. subst.
      replace (nd + 4294967296 - (d - 1)) with (nd - d + 1 + 1 * 4294967296) by lia.
      rewrite N.mod_add by lia. now apply N.mod_small.
    + rewrite N.mod_small in Hk by lia. subst.
      replace (nd + 4294967296 - (d - 1)) with (nd + 4294967296 - d + 1) by lia.
      now apply N.mod_small.
Qed.

(** The loop: a counter of the indices whose recursive call returns 0. *)
Lemma count_loop : forall (g : nat -> res N) (P : nat -> Prop) l n0,
  (forall i, In i l -> exists r, g i = Ok r /\ (r <> 0 <-> P i)) -> n0 + len l < two64 ->
  exists n,
  fold_left (fun neq i =>
     match neq with
     | Err e => Err e
     | Ok n => match g i with
               | Ok ret => Ok (wrap64 (n + (if ret =? 0 then 1 else 0)))
               | Err e => Err e
               end
     end) l (Ok n0) = Ok n /\ n0 <= n /\ n <= n0 + len l /\
  (n <> n0 <-> exists i, In i l /\ ~ P i).
Proof.
  intros g P. induction l as [|i l IH]; intros n0 Hg Hn.
  - exists n0. rewrite len_nil, N.add_0_r. split; [reflexivity|]. split; [lia|]. split; [lia|].
    split; [congruence|intros (i & [] & _)].
  - destruct (Hg i (or_introl eq_refl)) as (r & Hr & HP). rewrite len_cons in *.
    cbn [fold_left]. rewrite Hr.
    set (b := if r =? 0 then 1 else 0) in *.
    assert (Hb : b <= 1) by (unfold b; destruct (r =? 0); lia).
    assert (Hw : wrap64 (n0 + b) = n0 + b) by (unfold wrap64; apply N.mod_small; lia).
    rewrite Hw. destruct (IH (n0 + b)) as (n & Hf & Hlo & Hhi & Hiff); [|lia|].
    { intros j Hj. apply Hg. now right. }
    exists n. split; [exact Hf|]. split; [lia|]. split; [lia|].
    unfold b in *. destruct (N.eqb_spec r 0) as [Hz|Hz].
    + split; [|lia]. intros _. exists i. split; [now left|]. intros Hp. now apply HP in Hp.
    + assert (Hpi : P i) by now apply HP. rewrite N.add_0_r in *. rewrite Hiff. split.
      * intros (j & Hj & Hnp). exists j. split; auto. now right.
      * intros (j & [<-|Hj] & Hnp); [contradiction|eauto].
Qed.

Lemma in_bounds_app : forall a b x y, in_bounds a x -> in_bounds b y -> in_bounds (a ++ b) (x ++ y).
Proof. intros. apply Forall2_app; auto. Qed.

Lemma recur_law : forall dims rest done nd d pre,
  length dims = length rest -> v_ext v1 = done ++ rest -> in_bounds pre done ->
  nd < 4294967296 -> d < 4294967296 ->
  wrap32 (nd + 4294967296 - d) = N.of_nat (length pre) ->
  exists n, recur E eq dims nd d v1 v2 pre = Ok n /\ (n <> 0 <-> report rest pre).
Proof.
  induction dims as [|b dims IH]; intros rest done nd d pre Hl He Hb Hnd Hd Hk.
  - destruct rest; [|discriminate]. rewrite app_nil_r in He. cbn [recur report].
    assert (Hb1 : in_bounds pre (v_ext v1)) by now rewrite He.
    assert (Hb2 : in_bounds pre (v_ext v2)) by now rewrite Hext.
    destruct (at_some v1 pre (Hm1 pre Hb1)) as (x & Hx).
    destruct (at_some v2 pre (Hm2 pre Hb2)) as (y & Hy).
    rewrite Hx, Hy. eexists. split; [reflexivity|]. unfold same_at. split.
    + intros Hn. exists x, y. repeat split; auto. destruct (eq x y); congruence.
    + intros (a & c & Ha & Hc & Hac). rewrite Hx in Ha. rewrite Hy in Hc.
      inversion Ha; inversion Hc; subst. rewrite Hac. discriminate.
  - destruct rest as [|e rest]; [discriminate|]. cbn [recur report].
    rewrite Hk, Nat2N.id.
    pose proof (Forall2_length _ _ _ _ _ Hb) as Hlp.
    assert (Hx1 : extent v1 (length pre) = e).
    { unfold extent. rewrite He, Hlp, app_nth2, Nat.sub_diag by lia. reflexivity. }
    assert (Hx2 : extent v2 (length pre) = e).
    { unfold extent in *. rewrite Hext. exact Hx1. }
    rewrite Hx1, Hx2, N.eqb_refl. cbn [negb andb].
    assert (He64 : e < two64).
    { rewrite He in H64. apply Forall_app in H64. destruct H64 as (_ & H6). now inversion H6. }
    destruct (count_loop
      (fun i => recur E eq dims nd (wrap32 (d + 4294967296 - 1)) v1 v2 (pre ++ [N.of_nat i]))
      (fun i => report rest (pre ++ [N.of_nat i])) (seq 0 (N.to_nat e)) 0) as (n & Hf & _ & _ & Hiff).
    + intros i Hi. apply in_seqN in Hi.
      apply (IH rest (done ++ [e])); auto.
      * now rewrite <- app_assoc.
      * apply in_bounds_app; auto. constructor; [auto|constructor].
      * apply N.mod_lt. discriminate.
      * rewrite app_length. cbn [length]. rewrite (wrap32_sub nd d (N.of_nat (length pre))); auto.
        -- lia.
        -- rewrite He, app_length in Hrank. lia.
    + unfold len. rewrite seq_length. lia.
    + exists n. split; [exact Hf|]. rewrite Hiff. split.
      * intros (i & Hi & Hnp). exists (N.of_nat i). split; auto. now apply in_seqN.
      * intros (i & Hi & Hnp). exists (N.to_nat i). rewrite N2Nat.id. split; auto.
        apply in_seqN. now rewrite N2Nat.id.
Qed.

Lemma compare_data_law : forall dims, length dims = length (v_ext v1) ->
  exists b, compare_data E eq dims v1 v2 = Ok b /\ (b = true <-> ~ report (v_ext v1) []).
Proof.
  intros dims Hl. unfold compare_data.
  assert (Hdy : dynamic dims < 4294967296).
  { unfold dynamic, len. pose proof (filter_length_le bool (fun b : bool => b) dims). lia. }
  destruct (recur_law dims (v_ext v1) [] (dynamic dims) (dynamic dims) []) as (n & Hr & Hn); auto.
  - constructor.
  - replace (dynamic dims + 4294967296 - dynamic dims) with 4294967296 by lia. reflexivity.
  - rewrite Hr. eexists. split; [reflexivity|]. rewrite <- Hn. rewrite N.eqb_eq. lia.
Qed.
End Law.

Lemma compare_rank1 : forall E eq v1 v2 b n, has_memory v1 -> has_memory v2 ->
  v_ext v1 = [n] -> v_ext v2 = [n] -> n < two64 ->
  exists r, compare_data E eq [b] v1 v2 = Ok r /\
    (r = true <-> forall i, i < n -> same_at eq v1 v2 [i]).
Proof.
  intros E eq v1 v2 b n Hm1 Hm2 H1 H2 Hn.
  destruct (compare_data_law E eq v1 v2) with (dims := [b]) as (r & Hr & Hiff); auto.
  - congruence.
  - rewrite H1. auto.
  - rewrite H1. cbn. lia.
  - now rewrite H1.
  - exists r. split; auto. rewrite Hiff, H1. cbn [report app].
    assert (Hdec : forall i, i < n -> same_at eq v1 v2 [i] \/ ~ same_at eq v1 v2 [i]).
    { intros i Hi.
      assert (Hb1 : in_bounds [i] (v_ext v1)) by (rewrite H1; constructor; auto; constructor).
      assert (Hb2 : in_bounds [i] (v_ext v2)) by (rewrite H2; constructor; auto; constructor).
      destruct (at_some v1 [i] (Hm1 _ Hb1)) as (x & Hx).
      destruct (at_some v2 [i] (Hm2 _ Hb2)) as (y & Hy).
      destruct (eq x y) eqn:He; [left; exists x, y; auto|right].
      intros (a & c & Ha & Hc & Hac). congruence. }
    split.
    + intros Hno i Hi. destruct (Hdec i Hi); auto. exfalso. apply Hno. eauto.
    + intros Hall (i & Hi & Hnot). apply Hnot. auto.
Qed.
