(** One plain value inside an object, and where its bytes are in the data of the
    object (for PropPatch.v).

    [hole] and [fill] are specification: they mention neither programs nor
    serializers nor the wire format. *)
From Coq Require Import List NArith Arith Bool Lia.
From Coq.Strings Require Import Byte.
From Verif Require Import Base Syntax Spec EnvFacts Pack.
Import ListNotations.
Local Open Scope N_scope.

(** An object with a place left open for the bytes of one arithmetic value, enum,
    duration or byte-copied object ([HHere]) or for some characters of a string
    ([HStr]). *)
Inductive hole :=
| HHere
| HStr (cap : N) (before after : bytes)
| HVec (cap : N) (before : list val) (h : hole) (after : list val)
| HSeq (before : list val) (h : hole) (after : list val)
| HBag (before : list val) (h : hole) (after : list val)
| HSome (h : hole)
| HVar (i : nat) (h : hole)
| HObj (d : nat) (above : list (list val)) (before : list val) (h : hole) (after : list val)
    (below : list (list val)).

(** The object with the bytes [b] in the open place. *)
Fixpoint fill (h : hole) (b : bytes) : val :=
  match h with
  | HHere => VB b
  | HStr cap l r => VStr cap (l ++ b ++ r)
  | HVec cap l h r => VVec cap (l ++ fill h b :: r)
  | HSeq l h r => VSeq (l ++ fill h b :: r)
  | HBag l h r => VBag (l ++ fill h b :: r)
  | HSome h => VOpt (Some (fill h b))
  | HVar i h => VVar i (fill h b)
  | HObj d u l h r w => VObj d (u ++ (l ++ fill h b :: r) :: w)
  end.

(** [F b] is [b] between two lists of bytes that do not depend on it. *)
Definition around (n : nat) (F : bytes -> bytes) : Prop :=
  exists p q, forall b, length b = n -> F b = p ++ b ++ q.

Lemma around_ext : forall n F G, (forall b, length b = n -> F b = G b) -> around n F -> around n G.
Proof. intros n F G H (p & q & HF). exists p, q. intros b Hb. rewrite <- H by auto. auto. Qed.

Lemma around_l : forall n F x, around n F -> around n (fun b => x ++ F b).
Proof.
  intros n F x (p & q & H). exists (x ++ p), q. intros b Hb. rewrite H by auto.
  now rewrite <- app_assoc.
Qed.
Lemma around_r : forall n F x, around n F -> around n (fun b => F b ++ x).
Proof.
  intros n F x (p & q & H). exists p, (q ++ x). intros b Hb. rewrite H by auto.
  now rewrite <- !app_assoc.
Qed.
Lemma around_id : forall n, around n (fun b => b).
Proof. intros n. exists [], []. intros b _. now rewrite app_nil_r. Qed.

Lemma around_concat : forall n F (l r : list bytes), around n F ->
  around n (fun b => concat (l ++ F b :: r)).
Proof.
  intros n F l r H. apply around_ext with (fun b => concat l ++ (F b ++ concat r)).
  - intros b _. now rewrite concat_app.
  - now apply around_l, around_r.
Qed.

Section Patch.
Variable E : env.

Lemma around_framed : forall n t k F, around n F -> around n (fun b => framed E t k (F b)).
Proof. intros n t k F H. unfold framed. destruct (chk E); auto. now apply around_l, around_r. Qed.

Lemma around_warray : forall n t F (l r : list bytes), around n F ->
  around n (fun b => warray E t (l ++ F b :: r)).
Proof.
  intros n t F l r H.
  apply around_ext with (fun b => framed E t (length l + S (length r)) (concat (l ++ F b :: r))).
  - intros b _. unfold warray.
    replace (length l + S (length r))%nat with (length (l ++ F b :: r))
      by (rewrite app_length; reflexivity).
    destruct l; reflexivity.
  - apply around_framed. now apply around_concat.
Qed.

Lemma len_hole : forall A (l r : list A) x y, len (l ++ x :: r) = len (l ++ y :: r).
Proof. intros. unfold len. now rewrite !app_length. Qed.

Lemma around_map : forall n (G : val -> bytes) h l r,
  around n (fun b => G (fill h b)) ->
  around n (fun b => concat (map G (l ++ fill h b :: r))).
Proof.
  intros n G h l r H.
  apply around_ext with (fun b => concat (map G l ++ G (fill h b) :: map G r)).
  - intros b _. now rewrite map_app.
  - apply (around_concat n (fun b => G (fill h b))); auto.
Qed.

Lemma around_sized : forall n (G : val -> bytes) h l r,
  around n (fun b => G (fill h b)) ->
  around n (fun b => wsize E (len (l ++ fill h b :: r)) ++ concat (map G (l ++ fill h b :: r))).
Proof.
  intros n G h l r H.
  apply around_ext with
    (fun b => wsize E (len (l ++ VVarNone :: r)) ++ concat (map G (l ++ fill h b :: r))).
  - intros b _. now rewrite (len_hole _ l r VVarNone (fill h b)).
  - apply around_l. now apply around_map.
Qed.

Lemma zipenc_app : forall ts1 l1 ts2 l2, length ts1 = length l1 ->
  zipenc E (ts1 ++ ts2) (l1 ++ l2) = zipenc E ts1 l1 ++ zipenc E ts2 l2.
Proof.
  induction ts1; intros [|x l1] ts2 l2 H; cbn in H; try discriminate; cbn [app zipenc]; auto.
  f_equal. apply IHts1. lia.
Qed.

Lemma zipenc_len : forall ts l, length ts = length l -> length (zipenc E ts l) = length l.
Proof.
  induction ts; intros [|x l] H; cbn in H; try discriminate; cbn [zipenc length]; auto.
Qed.

Lemma levelenc_app : forall cs1 l1 cs2 l2, length cs1 = length l1 ->
  levelenc E (cs1 ++ cs2) (l1 ++ l2) = levelenc E cs1 l1 ++ levelenc E cs2 l2.
Proof.
  induction cs1; intros [|x l1] ts2 l2 H; cbn in H; try discriminate; cbn [app levelenc]; auto.
  f_equal. apply IHcs1. lia.
Qed.

(** A list of typed values with one of them left open. *)
Lemma split_typed : forall (P : ty -> val -> Prop) ts l x r, Forall2 P ts (l ++ x :: r) ->
  exists ts1 t ts2, ts = ts1 ++ t :: ts2 /\ length ts1 = length l /\ length ts2 = length r /\ P t x.
Proof.
  intros P ts l x r H. apply Forall2_app_inv_r in H. destruct H as (ts1 & ts2' & H1 & H2 & ->).
  inversion H2; subst. exists ts1, x0, l0. repeat split; auto;
    eapply Forall2_length; eauto.
Qed.

Lemma nth_other : forall (l r : list bytes) i x y, i <> length l ->
  nth i (l ++ x :: r) [] = nth i (l ++ y :: r) [].
Proof.
  induction l; intros r [|i] x y H; cbn in *; auto; congruence.
Qed.

(** The members of a class, in whatever order they are written. *)
Lemma around_members : forall n F l r is_, around n F -> NoDup is_ -> In (length l) is_ ->
  around n (fun b => concat (map (fun i => nth i (l ++ F b :: r) []) is_)).
Proof.
  intros n F l r is_ H Hn Hin. destruct (in_split _ _ Hin) as (i1 & i2 & ->).
  apply NoDup_remove_2 in Hn.
  apply around_ext with
    (fun b => concat (map (fun i => nth i (l ++ [] :: r) []) i1 ++ F b ::
                      map (fun i => nth i (l ++ [] :: r) []) i2)).
  - intros b _. rewrite map_app. cbn [map]. rewrite nth_middle. f_equal. f_equal; [|f_equal];
      apply map_ext_in; intros i Hi; apply nth_other; intros ->; apply Hn; apply in_or_app; auto.
  - now apply around_concat.
Qed.

Lemma around_obj : forall n h t d u l r w b0,
  (forall t, has_ty E t (fill h b0) -> around n (fun b => encb E t (fill h b))) ->
  has_ty E (TClass d) (VObj d (u ++ (l ++ fill h b0 :: r) :: w)) ->
  around n (fun b => encb E t (VObj d (u ++ (l ++ fill h b :: r) :: w))).
Proof.
  intros n h t d u l r w b0 IH Ht. apply has_obj in Ht. destruct Ht as (_ & _ & HF).
  apply Forall2_app_inv_r in HF. destruct HF as (cs1 & cs2' & H1 & H2 & Hcs).
  inversion H2 as [|c fs cs2 ls2 (k & Hk & _ & Hw & Hfs) H4]; subst.
  destruct (split_typed _ _ _ _ _ Hfs) as (ts1 & t0 & ts2 & Hts & Hl1 & Hl2 & Ht0).
  assert (HM : around n (fun b => wmembers E (c, zipenc E (wfields E c) (l ++ fill h b :: r)))).
  { unfold wmembers, wfields. cbn [fst snd]. rewrite Hk, Hts.
    apply around_ext with (fun b => concat (map (fun i =>
       nth i (zipenc E ts1 l ++ enc E t0 (fill h b) :: zipenc E ts2 r) []) (cser k MPacking))).
    - intros b _. now rewrite zipenc_app by auto.
    - apply (around_members n (fun b => enc E t0 (fill h b))).
      + apply around_framed. apply IH; auto.
      + apply Hw.
      + apply (wfc_all _ Hw). rewrite zipenc_len, Hts, app_length by auto. cbn [length]. lia. }
  assert (HL : forall b, levelenc E (chain E d) (u ++ (l ++ fill h b :: r) :: w) =
     levelenc E cs1 u ++ (c, zipenc E (wfields E c) (l ++ fill h b :: r)) :: levelenc E cs2 w).
  { intros b. rewrite Hcs, levelenc_app by (eapply Forall2_length; eauto). reflexivity. }
  destruct (is_virtual E t) eqn:Hv.
  - apply around_ext with (fun b => concat
      (map (fun p => framed E (TClass (fst p)) 1 (wmembers E p)) (levelenc E cs1 u) ++
       framed E (TClass c) 1 (wmembers E (c, zipenc E (wfields E c) (l ++ fill h b :: r))) ::
       map (fun p => framed E (TClass (fst p)) 1 (wmembers E p)) (levelenc E cs2 w))).
    + intros b _. now rewrite encb_obj, Hv, HL, map_app.
    + apply (around_concat n (fun b => framed E (TClass c) 1 (wmembers E (c, zipenc E (wfields E c) (l ++ fill h b :: r))))).
      now apply around_framed.
  - apply around_ext with (fun b => concat
      (map (wmembers E) (levelenc E cs1 u) ++
       wmembers E (c, zipenc E (wfields E c) (l ++ fill h b :: r)) ::
       map (wmembers E) (levelenc E cs2 w))).
    + intros b _. now rewrite encb_obj, Hv, HL, map_app.
    + apply (around_concat n (fun b => wmembers E (c, zipenc E (wfields E c) (l ++ fill h b :: r)))); auto.
Qed.

Lemma in_mid : forall A (P : A -> Prop) l x r, Forall P (l ++ x :: r) -> P x.
Proof. intros A P l x r H. apply (proj1 (Forall_forall _ _) H). apply in_or_app. right. now left. Qed.

(** The data of the contents of an object as a function of the bytes in the open
    place. *)
Lemma around_encb : forall h b0 t, holds E t (fill h b0) ->
  around (length b0) (fun b => encb E t (fill h b)).
Proof.
  induction h; intros b0 t0 Hh; cbn [fill] in *;
    inversion Hh as [t1 v1 Ht|c1 d1 ls1 Hv1 Hc1 Ht]; subst.
  - (* here *)
    inversion Ht; subst; cbn [encb]; try apply around_framed; apply around_id.
  - (* string *)
    inversion Ht; subst. cbn [encb].
    apply around_ext with (fun b => wsize E (len (before ++ b0 ++ after)) ++
      match before ++ b0 ++ after with
      | [] => []
      | _ => framed E CHAR (length (before ++ b0 ++ after)) (before ++ (b ++ after))
      end).
    + intros b Hb.
      assert (HL : length (before ++ b ++ after) = length (before ++ b0 ++ after))
        by (rewrite !app_length; lia).
      unfold len. rewrite HL. f_equal. unfold warray.
      rewrite map_length. rewrite concat_singletons, HL.
      destruct (before ++ b ++ after), (before ++ b0 ++ after); try discriminate; reflexivity.
    + apply around_l. destruct (before ++ b0 ++ after) eqn:He.
      * exists [], []. intros b Hb. apply app_eq_nil in He. destruct He as (_ & He).
        apply app_eq_nil in He. destruct He as (-> & _). destruct b; [reflexivity|discriminate].
      * apply around_framed, around_l, around_r, around_id.
  - (* vector *)
    inversion Ht; subst; cbn [encb].
    + apply around_ext with (fun b => wsize E cap ++ wsize E (len (before ++ VVarNone :: after)) ++
        warray E t (map (encb E t) before ++ encb E t (fill h b) :: map (encb E t) after)).
      * intros b _. rewrite (len_hole _ before after VVarNone (fill h b)). now rewrite map_app.
      * apply around_l, around_l. apply (around_warray _ t (fun b => encb E t (fill h b))).
        apply IHh, HoldsTy. eapply in_mid; eauto.
    + apply around_l. apply (around_sized _ (fun x => framed E BOOL 1 (encb E BOOL x))).
      apply around_framed. apply IHh, HoldsTy.
      match goal with H : Forall _ (_ ++ _) |- _ => apply in_mid in H; destruct H as [->| ->] end;
        apply HtPrim; reflexivity.
  - (* sequences *)
    inversion Ht; subst; cbn [encb].
    + apply around_ext with (fun b =>
        warray E t (map (encb E t) before ++ encb E t (fill h b) :: map (encb E t) after)).
      * intros b _. now rewrite map_app.
      * apply (around_warray _ t (fun b => encb E t (fill h b))). apply IHh, HoldsTy. eapply in_mid; eauto.
    + apply (around_sized _ (fun x => framed E t 1 (encb E t x))). apply around_framed.
      apply IHh, HoldsTy. eapply in_mid; eauto.
    + apply (around_sized _ (fun x => framed E t 1 (encb E t x))). apply around_framed.
      apply IHh, HoldsTy. eapply in_mid; eauto.
    + apply (around_sized _ (fun x => framed E t 1 (encb E t x))). apply around_framed.
      apply IHh, HoldsTy. eapply in_mid; eauto.
    + destruct before as [|x' [|y' [|? before]]]; cbn [app] in *; try discriminate;
        match goal with H : [_; _] = _ |- _ => inversion H; subst end.
      * cbn [encb]. apply around_r, around_framed. apply IHh, HoldsTy. auto.
      * cbn [encb]. apply around_l, around_framed. apply IHh, HoldsTy. auto.
    + match goal with H : Forall2 _ _ _ |- _ =>
        destruct (split_typed _ _ _ _ _ H) as (ts1 & t & ts2 & -> & Hl1 & Hl2 & Ht0) end.
      apply around_ext with (fun b => concat (zipenc E ts1 before ++ enc E t (fill h b) :: zipenc E ts2 after)).
      * intros b _. change (concat (zipenc E ts1 before ++ enc E t (fill h b) :: zipenc E ts2 after) =
          concat (zipenc E (ts1 ++ t :: ts2) (before ++ fill h b :: after))).
        now rewrite zipenc_app by auto.
      * apply (around_concat _ (fun b => enc E t (fill h b))). apply around_framed. apply IHh, HoldsTy; auto.
  - (* unordered containers *)
    inversion Ht; subst; cbn [encb].
    apply (around_sized _ (fun x => framed E t 1 (encb E t x))). apply around_framed.
    apply IHh, HoldsTy. eapply in_mid; eauto.
  - (* optionals and pointers *)
    inversion Ht; subst.
    + cbn [encb]. apply around_l, around_framed. apply IHh, HoldsTy; auto.
    + cbn [encb]. match goal with H : is_virtual E t = false |- _ => rewrite H end.
      cbn [app]. apply around_l, around_framed. apply IHh, HoldsTy; auto.
    + destruct h; cbn [fill] in *; try discriminate.
      match goal with H : VObj _ _ = VObj _ _ |- _ => inversion H; subst end.
      specialize (IHh b0 (TClass c)). cbn [fill] in IHh.
      apply around_ext with (fun b => wbool E false ++ wint E (N.of_nat i) ++
        enc E (TClass c) (VObj d0 (above ++ (before ++ fill h b :: after) :: below))).
      * intros b _. now rewrite (encb_unique_dyn E c d0 _ i) by auto.
      * apply around_l, around_l, around_framed. apply IHh. now apply HoldsDyn.
  - (* variants *)
    inversion Ht; subst; cbn [encb].
    match goal with H : nth_error ts i = Some _ |- _ => rewrite H end.
    apply around_l, around_framed. apply IHh, HoldsTy; auto.
  - (* objects *)
    inversion Ht; subst. eapply around_obj; [|eauto]. intros t Hx. apply IHh. now apply HoldsTy.
  - eapply around_obj; [|eauto]. intros t Hx. apply IHh. now apply HoldsTy.
Qed.
End Patch.

(** ** Depth and types do not depend on the bytes in the open place *)
Lemma fold_hole : forall (l r : list val) x y n, depth x = depth y ->
  fold_right (fun x n => Nat.max (depth x) n) n (l ++ x :: r) =
  fold_right (fun x n => Nat.max (depth x) n) n (l ++ y :: r).
Proof. intros l r x y n H. induction l; cbn; congruence. Qed.

Lemma depth_fill : forall h b b', depth (fill h b) = depth (fill h b').
Proof.
  induction h; intros b b'; cbn [fill depth]; auto;
    try (f_equal; apply fold_hole; auto); try (rewrite (IHh b b'); reflexivity).
  do 2 f_equal. rewrite !fold_right_app. cbn [fold_right].
  now rewrite (fold_hole _ _ _ _ _ (IHh b b')).
Qed.

Section Free.
Variable E : env.

(** The open place is not inside an element of a set, a map or a vector of bools,
    where other bytes may not be allowed (equal keys, keys out of order, a bool that
    is neither true nor false). *)
Fixpoint free (t : ty) (h : hole) : bool :=
  match h with
  | HHere | HStr _ _ _ => true
  | HVec _ _ h _ => match t with TVector t' => free t' h | _ => false end
  | HSeq l h _ =>
    match t with
    | TArray _ t' | TList _ t' | TQueue t' => free t' h
    | TPair a b => free (match l with [] => a | _ => b end) h
    | TTuple ts => match nth_error ts (length l) with Some t' => free t' h | None => false end
    | _ => false
    end
  | HBag _ _ _ => false
  | HSome h => match t with TOptional t' | TUnique t' => free t' h | _ => false end
  | HVar i h =>
    match t with
    | TVariant ts => match nth_error ts i with Some t' => free t' h | None => false end
    | _ => false
    end
  | HObj d u l h _ _ =>
    match nth_error (chain E d) (length u) with
    | Some c => match nth_error (wfields E c) (length l) with Some t' => free t' h | None => false end
    | None => false
    end
  end.

Lemma forall_hole : forall A (P : A -> Prop) l x y r, Forall P (l ++ x :: r) -> (P x -> P y) ->
  Forall P (l ++ y :: r).
Proof.
  intros A P l x y r H Hxy. apply Forall_app in H. destruct H as (H1 & H2). inversion H2; subst.
  apply Forall_app. auto.
Qed.

Lemma forall2_hole : forall A B (P : A -> B -> Prop) ts l x y r,
  Forall2 P ts (l ++ x :: r) ->
  (forall t, nth_error ts (length l) = Some t -> P t x -> P t y) -> Forall2 P ts (l ++ y :: r).
Proof.
  intros A B P ts l. revert ts. induction l; intros ts x y r H Hxy; inversion H; subst; cbn [app].
  - constructor; auto.
  - constructor; auto. eapply IHl; eauto.
Qed.

Lemma length_hole : forall A (l r : list A) x y, length (l ++ x :: r) = length (l ++ y :: r).
Proof. intros. now rewrite !app_length. Qed.

Lemma fill_ty : forall h b0 b t, length b = length b0 -> free t h = true ->
  has_ty E t (fill h b0) -> has_ty E t (fill h b).
Proof.
  induction h; intros b0 b t0 Hb Hf Ht; cbn [fill] in *.
  - inversion Ht; subst; try (constructor; auto; fail).
    + apply HtVariantB; auto. unfold len in *. congruence.
    + eapply HtClassB; eauto. unfold len in *. congruence.
  - inversion Ht; subst.
    assert (HL : len (before ++ b ++ after) = len (before ++ b0 ++ after))
      by (unfold len; rewrite !app_length, Hb; reflexivity).
    apply HtString; rewrite HL; auto.
  - inversion Ht; subst; cbn [free] in Hf; try discriminate.
    apply HtVector; rewrite ?(len_hole _ before after (fill h b) (fill h b0)),
      ?(length_hole _ before after (fill h b) (fill h b0)); auto.
    eapply forall_hole; eauto.
  - inversion Ht; subst; cbn [free] in Hf; try discriminate.
    + apply HtArray; rewrite ?(length_hole _ before after (fill h b) (fill h b0)); auto.
      eapply forall_hole; eauto.
    + apply HtList; rewrite ?(len_hole _ before after (fill h b) (fill h b0)); auto.
      eapply forall_hole; eauto.
    + apply HtQueue; rewrite ?(len_hole _ before after (fill h b) (fill h b0)); auto.
      eapply forall_hole; eauto.
    + destruct before as [|x' [|y' [|? before]]]; cbn [app] in *; try discriminate;
        match goal with H : [_; _] = _ |- _ => inversion H; subst end; apply HtPair; eauto.
    + apply HtTuple. eapply forall2_hole; eauto. intros t Hn. rewrite Hn in Hf. eauto.
  - discriminate.
  - cbn [free] in Hf. inversion Ht; subst.
    + apply HtSome; eauto.
    + apply HtUnique; eauto.
    + destruct h; cbn [fill] in *; try discriminate.
      match goal with H : VObj _ _ = VObj _ _ |- _ => inversion H; subst end.
      eapply HtUniqueV; eauto.
  - cbn [free] in Hf. inversion Ht; subst.
    match goal with H : nth_error ts i = Some _ |- _ => rewrite H in Hf end.
    eapply HtVariant; eauto.
  - cbn [free] in Hf. inversion Ht; subst. apply HtClass; auto.
    eapply forall2_hole; eauto. intros c Hc (k & Hk & Hkb & Hw & Hfs).
    exists k. split; [auto|]. split; [auto|]. split; [auto|].
    rewrite Hc in Hf. unfold wfields in Hf. rewrite Hk in Hf.
    eapply forall2_hole; eauto. intros t Hn. rewrite Hn in Hf. eauto.
Qed.
End Free.
