(** A part of an object, and where its data is in the data of the object (for
    PropParts.v).

    [ctx], [plug], [part_type] and [own] are specification: they mention neither
    programs nor serializers nor the wire format. *)
From Coq Require Import List NArith Arith Bool Lia.
From Coq.Strings Require Import Byte.
From Verif Require Import Base Syntax Spec EnvFacts Pack Patch.
Import ListNotations.
Local Open Scope N_scope.

(** An object with a place left open for a part of it: an element of a container, a
    member, what an optional, a variant or a pointer holds, or a part of these. *)
Inductive ctx :=
| CHere
| CVec (cap : N) (before : list val) (c : ctx) (after : list val)
| CSeq (before : list val) (c : ctx) (after : list val)
| CBag (before : list val) (c : ctx) (after : list val)
| CSome (c : ctx)
| CVar (i : nat) (c : ctx)
| CObj (d : nat) (above : list (list val)) (before : list val) (c : ctx) (after : list val)
    (below : list (list val)).

(** The object with [x] in the open place. *)
Fixpoint plug (c : ctx) (x : val) : val :=
  match c with
  | CHere => x
  | CVec cap l c r => VVec cap (l ++ plug c x :: r)
  | CSeq l c r => VSeq (l ++ plug c x :: r)
  | CBag l c r => VBag (l ++ plug c x :: r)
  | CSome c => VOpt (Some (plug c x))
  | CVar i c => VVar i (plug c x)
  | CObj d u l c r w => VObj d (u ++ (l ++ plug c x :: r) :: w)
  end.

Definition here (c : ctx) : bool := match c with CHere => true | _ => false end.

(** The type of the open place of an object of type [t], and whether the part is
    written by itself ([true]) or, as an element of an array or a vector, together with
    others; [o] is the same for the object.  Bools of a vector of bools are not objects,
    and the class of an object behind a pointer to a base class is a property of the
    pointer: they are no parts. *)
Fixpoint part_type (E : env) (o : bool) (t : ty) (c : ctx) : option (ty * bool) :=
  match c with
  | CHere => Some (t, o)
  | CVec _ _ c _ => match t with TVector t' => part_type E false t' c | _ => None end
  | CSeq l c _ =>
    match t with
    | TArray _ t' => part_type E false t' c
    | TList _ t' | TQueue t' | TAssoc _ t' => part_type E true t' c
    | TPair a b => part_type E true (match l with [] => a | _ => b end) c
    | TTuple ts =>
      match nth_error ts (length l) with Some t' => part_type E true t' c | None => None end
    | _ => None
    end
  | CBag _ c _ => match t with TAssoc _ t' => part_type E true t' c | _ => None end
  | CSome c =>
    match t with
    | TOptional t' => part_type E true t' c
    | TUnique t' => if is_virtual E t' && here c then None else part_type E true t' c
    | _ => None
    end
  | CVar i c =>
    match t with
    | TVariant ts => match nth_error ts i with Some t' => part_type E true t' c | None => None end
    | _ => None
    end
  | CObj d u l c _ _ =>
    match nth_error (chain E d) (length u) with
    | Some k =>
      match nth_error (wfields E k) (length l) with
      | Some t' => part_type E true t' c
      | None => None
      end
    | None => None
    end
  end.

(** [F x] is [g x] between two lists of bytes that do not depend on [x]. *)
Definition within {A} (g F : A -> bytes) : Prop :=
  exists p q, forall x, F x = p ++ g x ++ q.

Lemma within_ext : forall A (g F G : A -> bytes), (forall x, F x = G x) -> within g F -> within g G.
Proof. intros A g F G H (p & q & HF). exists p, q. intros x. now rewrite <- H. Qed.
Lemma within_l : forall A (g F : A -> bytes) x, within g F -> within g (fun b => x ++ F b).
Proof.
  intros A g F x (p & q & H). exists (x ++ p), q. intros b. rewrite H. now rewrite <- app_assoc.
Qed.
Lemma within_r : forall A (g F : A -> bytes) x, within g F -> within g (fun b => F b ++ x).
Proof.
  intros A g F x (p & q & H). exists p, (q ++ x). intros b. rewrite H. now rewrite <- !app_assoc.
Qed.
Lemma within_id : forall A (g : A -> bytes), within g g.
Proof. intros A g. exists [], []. intros b. now rewrite app_nil_r. Qed.

Lemma within_trans : forall A (f g F : A -> bytes), within f g -> within g F -> within f F.
Proof.
  intros A f g F (p & q & H) (p' & q' & H'). exists (p' ++ p), (q ++ q'). intros x.
  rewrite H', H. now rewrite <- !app_assoc.
Qed.

Lemma within_concat : forall A (g F : A -> bytes) (l r : list bytes), within g F ->
  within g (fun b => concat (l ++ F b :: r)).
Proof.
  intros A g F l r H. apply within_ext with (fun b => concat l ++ (F b ++ concat r)).
  - intros b. now rewrite concat_app.
  - now apply within_l, within_r.
Qed.

Section Parts.
Variable E : env.
Variable g : val -> bytes.
Local Notation within := (within g).

Lemma within_framed : forall t k F, within F -> within (fun b => framed E t k (F b)).
Proof. intros t k F H. unfold framed. destruct (chk E); auto. now apply within_l, within_r. Qed.

Lemma within_warray : forall t F (l r : list bytes), within F ->
  within (fun b => warray E t (l ++ F b :: r)).
Proof.
  intros t F l r H.
  apply within_ext with (fun b => framed E t (length l + S (length r)) (concat (l ++ F b :: r))).
  - intros b. unfold warray.
    replace (length l + S (length r))%nat with (length (l ++ F b :: r))
      by (rewrite app_length; reflexivity).
    destruct l; reflexivity.
  - apply within_framed. now apply within_concat.
Qed.

Lemma within_sized : forall (G : val -> bytes) c l r,
  within (fun b => G (plug c b)) ->
  within (fun b => wsize E (len (l ++ plug c b :: r)) ++ concat (map G (l ++ plug c b :: r))).
Proof.
  intros G c l r H.
  apply within_ext with
    (fun b => wsize E (len (l ++ VVarNone :: r)) ++ concat (map G l ++ G (plug c b) :: map G r)).
  - intros b. now rewrite (len_hole _ l r VVarNone (plug c b)), map_app.
  - apply within_l. apply (within_concat _ g (fun b => G (plug c b))). auto.
Qed.

Lemma within_members : forall F l r is_, within F -> NoDup is_ -> In (length l) is_ ->
  within (fun b => concat (map (fun i => nth i (l ++ F b :: r) []) is_)).
Proof.
  intros F l r is_ H Hn Hin. destruct (in_split _ _ Hin) as (i1 & i2 & ->).
  apply NoDup_remove_2 in Hn.
  apply within_ext with
    (fun b => concat (map (fun i => nth i (l ++ [] :: r) []) i1 ++ F b ::
                      map (fun i => nth i (l ++ [] :: r) []) i2)).
  - intros b. rewrite map_app. cbn [map]. rewrite nth_middle. f_equal. f_equal; [|f_equal];
      apply map_ext_in; intros i Hi; apply nth_other; intros ->; apply Hn; apply in_or_app; auto.
  - now apply within_concat.
Qed.

(** Like [split_typed], with the type found by its position. *)
Lemma split_nth : forall A B (P : A -> B -> Prop) ts l x r, Forall2 P ts (l ++ x :: r) ->
  exists ts1 t ts2, ts = ts1 ++ t :: ts2 /\ length ts1 = length l /\ length ts2 = length r /\ P t x /\
    nth_error ts (length l) = Some t.
Proof.
  intros A B P ts l x r H. apply Forall2_app_inv_r in H. destruct H as (ts1 & ts2' & H1 & H2 & ->).
  inversion H2; subst. exists ts1, x0, l0.
  assert (HL : length ts1 = length l) by (eapply Forall2_length; eauto).
  repeat split; auto.
  - eapply Forall2_length; eauto.
  - rewrite <- HL. rewrite nth_error_app2, Nat.sub_diag by lia. reflexivity.
Qed.

Lemma within_obj : forall c t d u l r w x0 k t',
  nth_error (chain E d) (length u) = Some k -> nth_error (wfields E k) (length l) = Some t' ->
  (has_ty E t' (plug c x0) -> within (fun x => enc E t' (plug c x))) ->
  has_ty E (TClass d) (VObj d (u ++ (l ++ plug c x0 :: r) :: w)) ->
  within (fun x => encb E t (VObj d (u ++ (l ++ plug c x :: r) :: w))).
Proof.
  intros c t d u l r w x0 k t' Hnk Hnt IH Ht. apply has_obj in Ht. destruct Ht as (_ & _ & HF).
  destruct (split_nth _ _ _ _ _ _ _ HF) as (cs1 & k' & cs2 & Hcs & HL1 & HL2 & HK & Hn).
  rewrite Hnk in Hn. inversion Hn; subst k'. clear Hn.
  destruct HK as (kk & Hk & _ & Hw & Hfs).
  destruct (split_nth _ _ _ _ _ _ _ Hfs) as (ts1 & t0 & ts2 & Hts & Hl1 & Hl2 & Ht0 & Hn0).
  assert (t' = t0) by (unfold wfields in Hnt; rewrite Hk in Hnt; congruence). subst t'.
  assert (HM : within (fun x => wmembers E (k, zipenc E (wfields E k) (l ++ plug c x :: r)))).
  { unfold wmembers, wfields. cbn [fst snd]. rewrite Hk, Hts.
    apply within_ext with (fun x => concat (map (fun i =>
       nth i (zipenc E ts1 l ++ enc E t0 (plug c x) :: zipenc E ts2 r) []) (cser kk MPacking))).
    - intros b. now rewrite zipenc_app by auto.
    - apply (within_members (fun x => enc E t0 (plug c x))).
      + auto.
      + apply Hw.
      + apply (wfc_all _ Hw). rewrite zipenc_len, Hts, app_length by auto. cbn [length]. lia. }
  assert (HL : forall x, levelenc E (chain E d) (u ++ (l ++ plug c x :: r) :: w) =
     levelenc E cs1 u ++ (k, zipenc E (wfields E k) (l ++ plug c x :: r)) :: levelenc E cs2 w).
  { intros b. rewrite Hcs, levelenc_app by auto. reflexivity. }
  destruct (is_virtual E t) eqn:Hv.
  - apply within_ext with (fun x => concat
      (map (fun p => framed E (TClass (fst p)) 1 (wmembers E p)) (levelenc E cs1 u) ++
       framed E (TClass k) 1 (wmembers E (k, zipenc E (wfields E k) (l ++ plug c x :: r))) ::
       map (fun p => framed E (TClass (fst p)) 1 (wmembers E p)) (levelenc E cs2 w))).
    + intros b. now rewrite encb_obj, Hv, HL, map_app.
    + apply (within_concat _ g (fun x => framed E (TClass k) 1 (wmembers E (k, zipenc E (wfields E k) (l ++ plug c x :: r))))).
      now apply within_framed.
  - apply within_ext with (fun x => concat
      (map (wmembers E) (levelenc E cs1 u) ++
       wmembers E (k, zipenc E (wfields E k) (l ++ plug c x :: r)) ::
       map (wmembers E) (levelenc E cs2 w))).
    + intros b. now rewrite encb_obj, Hv, HL, map_app.
    + apply (within_concat _ g (fun x => wmembers E (k, zipenc E (wfields E k) (l ++ plug c x :: r)))); auto.
Qed.
End Parts.

(** What is written of an object by itself, or of one among others. *)
Definition data_of (E : env) (o : bool) (t : ty) (x : val) : bytes :=
  if o then enc E t x else encb E t x.

Section Within.
Variable E : env.

Lemma within_data : forall (g : val -> bytes) o t (F : val -> val), within g (fun x => encb E t (F x)) ->
  within g (fun x => data_of E o t (F x)).
Proof. intros g [|] t F H; cbn [data_of]; auto. unfold enc. now apply within_framed. Qed.

Lemma within_part : forall t' o' c t o x0, holds E t (plug c x0) ->
  part_type E o t c = Some (t', o') ->
  within (data_of E o' t') (fun x => data_of E o t (plug c x)).
Proof.
  intros t' o'. induction c; intros t0 o x0 Hh Hp;
    [cbn in Hp; inversion Hp; subst; apply within_id|..];
    apply within_data; cbn [plug part_type] in *;
    inversion Hh as [t1 v1 Ht|c1 d1 ls1 Hv1 Hc1 Ht]; subst.
  - (* vector *)
    inversion Ht; subst; try discriminate. cbn [encb].
    apply within_ext with (fun x => wsize E cap ++ wsize E (len (before ++ VVarNone :: after)) ++
      warray E t (map (encb E t) before ++ encb E t (plug c x) :: map (encb E t) after)).
    + intros x. now rewrite (len_hole _ before after VVarNone (plug c x)), map_app.
    + apply within_l, within_l. apply (within_warray E _ t (fun x => encb E t (plug c x))).
      apply (IHc t false x0); auto. apply HoldsTy. eapply in_mid; eauto.
  - (* sequences *)
    inversion Ht; subst; cbn [encb]; try discriminate.
    + apply within_ext with (fun x =>
        warray E t (map (encb E t) before ++ encb E t (plug c x) :: map (encb E t) after)).
      * intros x. now rewrite map_app.
      * apply (within_warray E _ t (fun x => encb E t (plug c x))).
        apply (IHc t false x0); auto. apply HoldsTy. eapply in_mid; eauto.
    + apply (within_sized E _ (fun x => framed E t 1 (encb E t x))).
      apply (IHc t true x0); auto. apply HoldsTy. eapply in_mid; eauto.
    + apply (within_sized E _ (fun x => framed E t 1 (encb E t x))).
      apply (IHc t true x0); auto. apply HoldsTy. eapply in_mid; eauto.
    + apply (within_sized E _ (fun x => framed E t 1 (encb E t x))).
      apply (IHc t true x0); auto. apply HoldsTy. eapply in_mid; eauto.
    + destruct before as [|x' [|y' [|? before]]]; cbn [app] in *; try discriminate;
        match goal with H : [_; _] = _ |- _ => inversion H; subst end.
      * cbn [encb]. apply within_r. apply (IHc a true x0); auto. now apply HoldsTy.
      * cbn [encb]. apply within_l. apply (IHc b true x0); auto. now apply HoldsTy.
    + match goal with H : Forall2 _ _ _ |- _ =>
        destruct (split_nth _ _ _ _ _ _ _ H) as (ts1 & t & ts2 & Hts & Hl1 & Hl2 & Ht0 & Hn) end.
      rewrite Hn in Hp. subst ts.
      apply within_ext with (fun x => concat (zipenc E ts1 before ++ enc E t (plug c x) :: zipenc E ts2 after)).
      * intros x. change (concat (zipenc E ts1 before ++ enc E t (plug c x) :: zipenc E ts2 after) =
          concat (zipenc E (ts1 ++ t :: ts2) (before ++ plug c x :: after))).
        now rewrite zipenc_app by auto.
      * apply (within_concat _ _ (fun x => enc E t (plug c x))). apply (IHc t true x0); auto.
        now apply HoldsTy.
  - (* unordered containers *)
    inversion Ht; subst; cbn [encb].
    apply (within_sized E _ (fun x => framed E t 1 (encb E t x))).
    apply (IHc t true x0); auto. apply HoldsTy. eapply in_mid; eauto.
  - (* optionals and pointers *)
    inversion Ht; subst.
    + cbn [encb]. apply within_l. apply (IHc t true x0); auto. now apply HoldsTy.
    + cbn [encb]. match goal with H : is_virtual E t = false |- _ => rewrite H in * end.
      cbn [app andb] in *. apply within_l. apply (IHc t true x0); auto. now apply HoldsTy.
    + destruct c; cbn [plug here andb] in *; try discriminate;
        [match goal with H : is_virtual _ _ = true |- _ => rewrite H in Hp; discriminate end|].
      match goal with H : VObj _ _ = VObj _ _ |- _ => inversion H; subst end.
      rewrite andb_false_r in Hp.
      apply within_ext with (fun x => wbool E false ++ wint E (N.of_nat i) ++
        enc E (TClass c0) (VObj d0 (above ++ (before ++ plug c x :: after) :: below))).
      * intros x. now rewrite (encb_unique_dyn E c0 d0 _ i) by auto.
      * apply within_l, within_l. apply (IHc (TClass c0) true x0); auto. now apply HoldsDyn.
  - (* variants *)
    inversion Ht; subst; cbn [encb].
    match goal with H : nth_error ts i = Some _ |- _ => rewrite H in * end.
    apply within_l. apply (IHc t true x0); auto. now apply HoldsTy.
  - (* objects *)
    inversion Ht; subst.
    destruct (nth_error (chain E d) (length above)) as [k|] eqn:Hk; [|discriminate].
    destruct (nth_error (wfields E k) (length before)) as [t2|] eqn:Ht2; [|discriminate].
    eapply within_obj; eauto. intros Hx. apply (IHc t2 true x0); auto. now apply HoldsTy.
  - destruct (nth_error (chain E d) (length above)) as [k|] eqn:Hk; [|discriminate].
    destruct (nth_error (wfields E k) (length before)) as [t2|] eqn:Ht2; [|discriminate].
    eapply within_obj; eauto. intros Hx. apply (IHc t2 true x0); auto. now apply HoldsTy.
Qed.

Lemma part_obj : forall t' o' c x d u l r w,
  (forall t o, holds E t (plug c x) -> here c = false \/ has_ty E t x ->
     part_type E o t c = Some (t', o') -> has_ty E t' x) ->
  has_ty E (TClass d) (VObj d (u ++ (l ++ plug c x :: r) :: w)) ->
  match nth_error (chain E d) (length u) with
  | Some k => match nth_error (wfields E k) (length l) with
              | Some t' => part_type E true t' c
              | None => None
              end
  | None => None
  end = Some (t', o') -> has_ty E t' x.
Proof.
  intros t' o' c x d u l r w IH Ht Hp. apply has_obj in Ht. destruct Ht as (_ & _ & HF).
  destruct (split_nth _ _ _ _ _ _ _ HF) as (cs1 & k & cs2 & _ & _ & _ & (kk & Hk & _ & _ & Hfs) & Hn).
  destruct (split_nth _ _ _ _ _ _ _ Hfs) as (ts1 & t0 & ts2 & _ & _ & _ & Ht0 & Hn0).
  rewrite Hn in Hp. unfold wfields in Hp. rewrite Hk, Hn0 in Hp.
  eapply IH; eauto; [now apply HoldsTy|]. destruct c; cbn in *; auto.
Qed.

(** The part has the type of its place. *)
Lemma part_ty : forall t' o' c t o x, holds E t (plug c x) -> here c = false \/ has_ty E t x ->
  part_type E o t c = Some (t', o') -> has_ty E t' x.
Proof.
  intros t' o'. induction c; intros t0 o x Hh Hx Hp; cbn [plug part_type here] in *;
    [destruct Hx as [Hx|Hx]; [discriminate|]; congruence|..];
    clear Hx; inversion Hh as [t1 v1 Ht|c1 d1 ls1 Hv1 Hc1 Ht]; subst.
  - inversion Ht; subst; try discriminate.
    assert (has_ty E t (plug c x)) by (eapply in_mid; eauto).
    eapply IHc; eauto; [now apply HoldsTy|]. destruct c; cbn in *; auto.
  - inversion Ht; subst; try discriminate;
      try (assert (has_ty E t (plug c x)) by (eapply in_mid; eauto);
           eapply IHc; eauto; [now apply HoldsTy|]; destruct c; cbn in *; auto; fail).
    + destruct before as [|x' [|y' [|? before]]]; cbn [app] in *; try discriminate;
        match goal with H : [_; _] = _ |- _ => inversion H; subst end;
        (eapply IHc; eauto; [now apply HoldsTy|]; destruct c; cbn in *; auto).
    + match goal with H : Forall2 _ _ _ |- _ =>
        destruct (split_nth _ _ _ _ _ _ _ H) as (ts1 & t & ts2 & Hts & Hl1 & Hl2 & Ht0 & Hn) end.
      rewrite Hn in Hp. eapply IHc; eauto; [now apply HoldsTy|]. destruct c; cbn in *; auto.
  - inversion Ht; subst. assert (has_ty E t (plug c x)) by (eapply in_mid; eauto).
    eapply IHc; eauto; [now apply HoldsTy|]. destruct c; cbn in *; auto.
  - inversion Ht; subst.
    + eapply IHc; eauto; [now apply HoldsTy|]. destruct c; cbn in *; auto.
    + match goal with H : is_virtual E t = false |- _ => rewrite H in Hp end. cbn [andb] in Hp.
      eapply IHc; eauto; [now apply HoldsTy|]. destruct c; cbn in *; auto.
    + destruct c; cbn [plug here andb] in *; try discriminate;
        [match goal with H : is_virtual _ _ = true |- _ => rewrite H in Hp; discriminate end|].
      match goal with H : VObj _ _ = VObj _ _ |- _ => inversion H; subst end.
      rewrite andb_false_r in Hp.
      eapply (IHc (TClass c0) true); eauto. now apply HoldsDyn.
  - inversion Ht; subst. match goal with H : nth_error ts i = Some _ |- _ => rewrite H in * end.
    eapply IHc; eauto; [now apply HoldsTy|]. destruct c; cbn in *; auto.
  - inversion Ht; subst. eapply part_obj; eauto.
  - eapply part_obj; eauto.
Qed.
End Within.
