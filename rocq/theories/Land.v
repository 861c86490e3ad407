(** What an object becomes when the serialized form of another one is read into
    it, as a function: the result of reading the bytes of [v] into [w].  Used for
    property C35. *)
From Coq Require Import List NArith Arith Bool Lia Permutation.
From Coq.Strings Require Import Byte.
From Verif Require Import Base Syntax Prog Serializers Traverse Spec ProgFacts EnvFacts
  ValFacts Pack Unpack Stable.
Import ListNotations.
Local Open Scope N_scope.

(** Pointwise, on three lists of one length. *)
Section Zip.
Variable f : ty -> val -> val -> option val.
Fixpoint zip (ts : list ty) (vs ws : list val) {struct vs} : option (list val) :=
  match vs, ts, ws with
  | [], [], [] => Some []
  | v :: vs', t :: ts', w :: ws' =>
    match f t v w, zip ts' vs' ws' with
    | Some x, Some xs => Some (x :: xs)
    | _, _ => None
    end
  | _, _, _ => None
  end.
Fixpoint zips (tss : list (list ty)) (vss wss : list (list val)) {struct vss}
    : option (list (list val)) :=
  match vss, tss, wss with
  | [], [], [] => Some []
  | vs :: vss', ts :: tss', ws :: wss' =>
    match zip ts vs ws, zips tss' vss' wss' with
    | Some xs, Some xss => Some (xs :: xss)
    | _, _ => None
    end
  | _, _, _ => None
  end.
Definition all (t : ty) (vs ws : list val) : option (list val) :=
  zip (repeat t (length vs)) vs ws.
End Zip.

(** The elements that a sequence holds before its elements are read: the old
    ones, as many as there will be, and copies of [d] after them. *)
Definition slots (d : option val) (n : nat) (ws : list val) : list val :=
  match d with Some d => resize n d ws | None => [] end.

(** Freshly constructed element of a vector. *)
Definition elem_of (E : env) (t : ty) : option val := if defc E t then dflt E t else recon E t.

(** The static class of a pointee that has to be allocated: its own. *)
Definition pointee (E : env) (t : ty) (v : val) : ty :=
  if is_virtual E t then match v with VObj d _ => TClass d | _ => t end else t.

Fixpoint land (E : env) (t : ty) (v w : val) {struct v} : option val :=
  match v with
  | VB b => Some (VB b)
  | VStr _ b =>
    match w with VStr cap _ => Some (VStr (N.max cap (len b)) b) | _ => None end
  | VVec c vs =>
    match w with
    | VVec cap ws =>
      match t with
      | TVector t' =>
        option_map (VVec (N.max (N.max cap c) (len vs)))
          (all (land E) t' vs (slots (elem_of E t') (length vs) ws))
      | _ => Some (VVec (N.max cap c) vs)
      end
    | _ => None
    end
  | VSeq vs =>
    match w with
    | VSeq ws =>
      option_map VSeq
        match t with
        | TArray _ t' => all (land E) t' vs ws
        | TList _ t' | TQueue t' | TAssoc _ t' =>
          all (land E) t' vs (slots (recon E t') (length vs) ws)
        | TPair a b => zip (land E) [a; b] vs ws
        | TTuple ts => zip (land E) ts vs ws
        | _ => None
        end
    | _ => None
    end
  | VBag _ | VVarNone => None
  | VOpt None => Some (VOpt None)
  | VOpt (Some x) =>
    option_map (fun y => VOpt (Some y))
      match t with
      | TOptional t' =>
        match recon E t' with Some d => land E t' x d | None => None end
      | TUnique t' =>
        match w with
        | VOpt (Some o) => land E t' x o
        | VOpt None =>
          match recon E (pointee E t' x) with Some d => land E t' x d | None => None end
        | _ => None
        end
      | _ => None
      end
  | VVar i x =>
    option_map (VVar i)
      match t with
      | TVariant ts =>
        match nth_error ts i with
        | Some t' => match recon E t' with Some d => land E t' x d | None => None end
        | None => None
        end
      | _ => None
      end
  | VObj c ls =>
    match w with
    | VObj _ ls' => option_map (VObj c) (zips (land E) (map (wfields E) (chain E c)) ls ls')
    | _ => None
    end
  end.

(** ** Reading an object back into the object it was read into changes nothing *)
Section Again.
Variable E : env.

Definition settled (v : val) : Prop :=
  forall t w x, land E t v w = Some x -> land E t x w = Some x.

Lemma zip_length : forall f vs ts ws xs, zip f ts vs ws = Some xs -> length xs = length vs.
Proof.
  induction vs; intros [|t ts] [|w ws] xs H; cbn in H; try discriminate.
  - now inversion H.
  - destruct (f t a w); [|discriminate]. destruct (zip f ts vs ws) eqn:Ez; [|discriminate].
    inversion H; subst. cbn. f_equal. eauto.
Qed.

Lemma zip_again : forall vs, Forall settled vs -> forall ts ws xs,
  zip (land E) ts vs ws = Some xs -> zip (land E) ts xs ws = Some xs.
Proof.
  induction 1 as [|v vs Hv Hvs IH]; intros [|t ts] [|w ws] xs H; cbn [zip] in H; try discriminate.
  - now inversion H.
  - destruct (land E t v w) as [x|] eqn:Ex; [|discriminate].
    destruct (zip (land E) ts vs ws) as [r|] eqn:Er; [|discriminate].
    inversion H; subst. cbn [zip]. rewrite (Hv _ _ _ Ex), (IH _ _ _ Er). reflexivity.
Qed.

Lemma zips_again : forall vss, Forall (Forall settled) vss -> forall tss wss xss,
  zips (land E) tss vss wss = Some xss -> zips (land E) tss xss wss = Some xss.
Proof.
  induction 1 as [|v vs Hv Hvs IH]; intros [|t ts] [|w ws] xs H; cbn [zips] in H; try discriminate.
  - now inversion H.
  - destruct (zip (land E) t v w) as [x|] eqn:Ex; [|discriminate].
    destruct (zips (land E) ts vs ws) as [r|] eqn:Er; [|discriminate].
    inversion H; subst. cbn [zips]. rewrite (zip_again _ Hv _ _ _ Ex), (IH _ _ _ Er). reflexivity.
Qed.

Lemma all_again : forall vs, Forall settled vs -> forall t ws xs,
  all (land E) t vs ws = Some xs -> length xs = length vs /\ all (land E) t xs ws = Some xs.
Proof.
  intros vs H t ws xs Hx. unfold all in *. pose proof (zip_length _ _ _ _ _ Hx) as Hl.
  split; auto. rewrite Hl. eapply zip_again; eauto.
Qed.

Lemma pointee_land : forall t v w x, land E t v w = Some x -> pointee E t x = pointee E t v.
Proof.
  intros t v w x H. unfold pointee. destruct (is_virtual E t); auto.
  destruct v as [| | | | |[v|]| | |]; cbn [land] in H; try discriminate;
    try (inversion H; subst; reflexivity);
    try (match type of H with option_map _ ?o = _ => destruct o; inversion H; reflexivity end);
    destruct w; try discriminate; try (inversion H; subst; reflexivity);
    try (match type of H with option_map _ ?o = _ => destruct o; inversion H; reflexivity end).
  destruct t; try (inversion H; subst; reflexivity).
  match type of H with option_map _ ?o = _ => destruct o; inversion H; reflexivity end.
Qed.

Theorem land_again : forall v, settled v.
Proof.
  induction v using val_ind'; intros t w x Hx; cbn [land] in Hx.
  - inversion Hx; subst. reflexivity.
  - destruct w; try discriminate. inversion Hx; subst. cbn [land]. do 2 f_equal; try lia.
  - (* vectors *)
    destruct w; try discriminate. destruct t; try (inversion Hx; subst; cbn [land]; do 2 f_equal; try lia; fail).
    destruct (all (land E) t l _) as [xs|] eqn:Ez; [|discriminate]. inversion Hx; subst.
    destruct (all_again _ H _ _ _ Ez) as (Hl & Ha).
    cbn [land]. rewrite Hl, Ha. cbn [option_map]. unfold len. rewrite Hl. do 2 f_equal. lia.
  - (* sequences *)
    destruct w; try discriminate.
    match type of Hx with option_map _ ?o = _ => destruct o as [xs|] eqn:Ez; [|discriminate] end.
    inversion Hx; subst. cbn [land].
    destruct t; try discriminate;
      try (destruct (all_again _ H _ _ _ Ez) as (Hl & Ha); rewrite ?Hl, Ha; reflexivity);
      rewrite (zip_again _ H _ _ _ Ez); reflexivity.
  - discriminate.
  - inversion Hx; subst. reflexivity.
  - (* optional, pointer *)
    match type of Hx with option_map _ ?o = _ => destruct o as [y|] eqn:Ey; [|discriminate] end.
    inversion Hx; subst. cbn [land].
    destruct t; try discriminate.
    + destruct (recon E t) as [d|]; [|discriminate]. now rewrite (IHv _ _ _ Ey).
    + destruct w; try discriminate. destruct o as [o|].
      * now rewrite (IHv _ _ _ Ey).
      * destruct (recon E (pointee E t v)) as [d|] eqn:Ed; [|discriminate].
        rewrite (pointee_land _ _ _ _ Ey), Ed. now rewrite (IHv _ _ _ Ey).
  - (* variant *)
    match type of Hx with option_map _ ?o = _ => destruct o as [y|] eqn:Ey; [|discriminate] end.
    inversion Hx; subst. cbn [land].
    destruct t; try discriminate. destruct (nth_error ts i) as [t|]; [|discriminate].
    destruct (recon E t) as [d|]; [|discriminate]. now rewrite (IHv _ _ _ Ey).
  - discriminate.
  - (* object *)
    destruct w; try discriminate.
    match type of Hx with option_map _ ?o = _ => destruct o as [y|] eqn:Ey; [|discriminate] end.
    inversion Hx; subst. cbn [land]. now rewrite (zips_again _ H _ _ _ Ey).
Qed.
End Again.

(** ** Reading the same bytes into the result changes nothing *)
Section Twice.
Variable E : env.

Definition fixed (v : val) : Prop :=
  forall t w x, land E t v w = Some x -> land E t v x = Some x.

Lemma zip_twice : forall vs, Forall fixed vs -> forall ts ws xs,
  zip (land E) ts vs ws = Some xs -> zip (land E) ts vs xs = Some xs.
Proof.
  induction 1 as [|v vs Hv Hvs IH]; intros [|t ts] [|w ws] xs H; cbn [zip] in H; try discriminate.
  - now inversion H.
  - destruct (land E t v w) as [x|] eqn:Ex; [|discriminate].
    destruct (zip (land E) ts vs ws) as [r|] eqn:Er; [|discriminate].
    inversion H; subst. cbn [zip]. rewrite (Hv _ _ _ Ex), (IH _ _ _ Er). reflexivity.
Qed.

Lemma zips_twice : forall vss, Forall (Forall fixed) vss -> forall tss wss xss,
  zips (land E) tss vss wss = Some xss -> zips (land E) tss vss xss = Some xss.
Proof.
  induction 1 as [|v vs Hv Hvs IH]; intros [|t ts] [|w ws] xs H; cbn [zips] in H; try discriminate.
  - now inversion H.
  - destruct (zip (land E) t v w) as [x|] eqn:Ex; [|discriminate].
    destruct (zips (land E) ts vs ws) as [r|] eqn:Er; [|discriminate].
    inversion H; subst. cbn [zips]. rewrite (zip_twice _ Hv _ _ _ Ex), (IH _ _ _ Er). reflexivity.
Qed.

Lemma all_twice : forall vs, Forall fixed vs -> forall t ws xs,
  all (land E) t vs ws = Some xs -> all (land E) t vs xs = Some xs.
Proof. intros vs H t ws xs Hx. unfold all in *. eapply zip_twice; eauto. Qed.

(** A sequence that already has the right number of elements keeps them. *)
Lemma slots_full : forall d vs t ws xs, all (land E) t vs (slots d (length vs) ws) = Some xs ->
  slots d (length vs) xs = xs.
Proof.
  intros d vs t ws xs H. pose proof (zip_length _ _ _ _ _ H) as Hl. unfold slots in *.
  destruct d as [d|].
  - unfold resize. rewrite <- Hl, firstn_all, Nat.sub_diag. apply app_nil_r.
  - destruct vs; cbn in H; [|discriminate]. now inversion H.
Qed.

Theorem land_twice : forall v, fixed v.
Proof.
  induction v using val_ind'; intros t w x Hx; cbn [land] in Hx.
  - inversion Hx; subst. reflexivity.
  - destruct w; try discriminate. inversion Hx; subst. cbn [land]. do 2 f_equal; try lia.
  - (* vectors *)
    destruct w; try discriminate.
    destruct t; try (inversion Hx; subst; cbn [land]; do 2 f_equal; try lia; fail).
    destruct (all (land E) t l _) as [xs|] eqn:Ez; [|discriminate]. inversion Hx; subst.
    cbn [land]. rewrite (slots_full _ _ _ _ _ Ez), (all_twice _ H _ _ _ Ez). cbn [option_map].
    do 2 f_equal. lia.
  - (* sequences *)
    destruct w; try discriminate.
    match type of Hx with option_map _ ?o = _ => destruct o as [xs|] eqn:Ez; [|discriminate] end.
    inversion Hx; subst. cbn [land].
    destruct t; try discriminate;
      try (rewrite (slots_full _ _ _ _ _ Ez), (all_twice _ H _ _ _ Ez); reflexivity);
      try (rewrite (all_twice _ H _ _ _ Ez); reflexivity);
      rewrite (zip_twice _ H _ _ _ Ez); reflexivity.
  - discriminate.
  - inversion Hx; subst. reflexivity.
  - (* optional, pointer *)
    match type of Hx with option_map _ ?o = _ => destruct o as [y|] eqn:Ey; [|discriminate] end.
    inversion Hx; subst. cbn [land].
    destruct t; try discriminate.
    + now rewrite Ey.
    + destruct w; try discriminate. destruct o as [o|].
      * now rewrite (IHv _ _ _ Ey).
      * destruct (recon E (pointee E t v)) as [d|] eqn:Ed; [|discriminate].
        now rewrite (IHv _ _ _ Ey).
  - (* variant *)
    match type of Hx with option_map _ ?o = _ => destruct o as [y|] eqn:Ey; [|discriminate] end.
    inversion Hx; subst. cbn [land].
    destruct t; try discriminate. now rewrite Ey.
  - discriminate.
  - (* object *)
    destruct w; try discriminate.
    match type of Hx with option_map _ ?o = _ => destruct o as [y|] eqn:Ey; [|discriminate] end.
    inversion Hx; subst. cbn [land]. now rewrite (zips_twice _ H _ _ _ Ey).
Qed.
End Twice.

(** ** The result is a copy *)
Section Copy.
Variable E : env.
(** Strings have room for their contents. *)
Fixpoint roomy (v : val) : Prop :=
  match v with
  | VStr c b => len b <= c
  | VVec _ l | VSeq l | VBag l => fold_right (fun x P => roomy x /\ P) True l
  | VOpt (Some x) | VVar _ x => roomy x
  | VObj _ ls =>
    fold_right (fun fs P => fold_right (fun x P => roomy x /\ P) True fs /\ P) True ls
  | _ => True
  end.
Definition similar (v : val) : Prop :=
  forall t w x, land E t v w = Some x -> roomy v -> sim N.le v x.

Lemma zip_sim : forall vs, Forall similar vs -> forall ts ws xs,
  zip (land E) ts vs ws = Some xs -> fold_right (fun x P => roomy x /\ P) True vs ->
  Forall2 (sim N.le) vs xs.
Proof.
  induction 1 as [|v vs Hv Hvs IH]; intros [|t ts] [|w ws] xs H Hr; cbn [zip] in H; try discriminate.
  - inversion H; subst. constructor.
  - destruct (land E t v w) as [x|] eqn:Ex; [|discriminate].
    destruct (zip (land E) ts vs ws) as [r|] eqn:Er; [|discriminate].
    inversion H; subst. destruct Hr. constructor; eauto.
Qed.

Lemma land_sim : forall v, similar v.
Proof.
  induction v using val_ind'; intros t w x Hx Hr; cbn [land] in Hx.
  - inversion Hx; subst. constructor.
  - destruct w; try discriminate. inversion Hx; subst. cbn [roomy] in Hr. constructor. lia.
  - (* vectors *)
    destruct w; try discriminate.
    destruct t; try (inversion Hx; subst; constructor; [lia|];
      clear; induction l; constructor; auto; apply sim_refl; intros; lia).
    destruct (all (land E) t l _) as [xs|] eqn:Ez; [|discriminate]. inversion Hx; subst.
    constructor; [lia|]. eapply zip_sim; eauto.
  - (* sequences *)
    destruct w; try discriminate.
    match type of Hx with option_map _ ?o = _ => destruct o as [xs|] eqn:Ez; [|discriminate] end.
    inversion Hx; subst. constructor.
    destruct t; try discriminate; eapply zip_sim; eauto.
  - discriminate.
  - inversion Hx; subst. constructor.
  - (* optional, pointer *)
    match type of Hx with option_map _ ?o = _ => destruct o as [y|] eqn:Ey; [|discriminate] end.
    inversion Hx; subst. constructor.
    destruct t; try discriminate.
    + destruct (recon E t) as [d|]; [|discriminate]. eauto.
    + destruct w; try discriminate. destruct o as [o|]; [eauto|].
      destruct (recon E (pointee E t v)) as [d|]; [|discriminate]. eauto.
  - (* variant *)
    match type of Hx with option_map _ ?o = _ => destruct o as [y|] eqn:Ey; [|discriminate] end.
    inversion Hx; subst. constructor.
    destruct t; try discriminate. destruct (nth_error ts i) as [t|]; [|discriminate].
    destruct (recon E t) as [d|]; [|discriminate]. eauto.
  - discriminate.
  - (* object *)
    destruct w; try discriminate.
    match type of Hx with option_map _ ?o = _ => destruct o as [y|] eqn:Ey; [|discriminate] end.
    inversion Hx; subst. constructor. cbn [roomy] in Hr. clear Hx.
    revert Ey Hr. generalize (map (wfields E) (chain E c)) as tss.
    rename ls0 into wss. revert wss y.
    induction H as [|vs vss Hv Hvs IH]; intros [|ws wss] y [|ts tss] Ey Hr; cbn [zips] in Ey;
      try discriminate.
    + inversion Ey; subst. constructor.
    + destruct (zip (land E) ts vs ws) as [x|] eqn:Ex; [|discriminate].
      destruct (zips (land E) tss vss wss) as [r|] eqn:Er; [|discriminate].
      inversion Ey; subst. destruct Hr. constructor; [eapply zip_sim; eauto|eauto].
Qed.

Lemma has_ty_roomy : forall v t, has_ty E t v -> roomy v.
Proof.
  assert (G : forall l, Forall (fun x => forall t, has_ty E t x -> roomy x) l ->
     forall t, Forall (has_ty E t) l -> fold_right (fun x P => roomy x /\ P) True l).
  { intros l H. induction H; intros t Ht; cbn [fold_right]; auto.
    inversion Ht; subst. split; eauto. }
  assert (G2 : forall l, Forall (fun x => forall t, has_ty E t x -> roomy x) l ->
     forall ts, Forall2 (has_ty E) ts l -> fold_right (fun x P => roomy x /\ P) True l).
  { intros l H. induction H; intros ts Ht; cbn [fold_right]; auto.
    inversion Ht; subst. split; eauto. }
  induction v using val_ind'; intros t Ht; cbn [roomy]; auto.
  - inversion Ht; subst. auto.
  - inversion Ht; subst; [eauto|].
    match goal with X : Forall (fun v => v = _ \/ _) l |- _ => clear - X; induction X end;
      cbn [fold_right]; auto. split; auto. destruct H; subst; exact I.
  - inversion Ht; subst; eauto.
  - inversion Ht; subst; eauto.
  - inversion Ht; subst; eauto.
  - inversion Ht; subst; eauto.
  - inversion Ht; subst.
    match goal with HC : Forall2 _ (chain E c) ls |- _ =>
      clear - H HC G2; revert H; induction HC end; intros Hall; cbn [fold_right]; auto.
    inversion Hall; subst. destruct H as (k & _ & _ & _ & Hf). split; eauto.
Qed.
End Copy.
