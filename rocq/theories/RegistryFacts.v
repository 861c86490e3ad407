(** Facts about the registries. *)
From Coq Require Import List NArith ZArith Arith Bool Lia.
From Verif Require Import Base Syntax Prog Traverse Spec ProgFacts EnvFacts Registry.
Import ListNotations.
Local Open Scope N_scope.

(** ** Type identity *)
Section TyInd.
Variable P : ty -> Prop.
Hypothesis HPrim : forall i n, P (TPrim i n).
Hypothesis HEnum : forall i u n, P (TEnum i u n).
Hypothesis HChrono : forall i u n, P (TChrono i u n).
Hypothesis HString : P TString.
Hypothesis HVector : forall t, P t -> P (TVector t).
Hypothesis HVecBool : P TVecBool.
Hypothesis HArray : forall n t, P t -> P (TArray n t).
Hypothesis HList : forall d t, P t -> P (TList d t).
Hypothesis HQueue : forall t, P t -> P (TQueue t).
Hypothesis HAssoc : forall k t, P t -> P (TAssoc k t).
Hypothesis HPair : forall a b, P a -> P b -> P (TPair a b).
Hypothesis HTuple : forall l, Forall P l -> P (TTuple l).
Hypothesis HOptional : forall t, P t -> P (TOptional t).
Hypothesis HVariant : forall l, Forall P l -> P (TVariant l).
Hypothesis HUnique : forall t, P t -> P (TUnique t).
Hypothesis HClass : forall c, P (TClass c).
Hypothesis HShared : forall t, P t -> P (TShared t).
Hypothesis HRaw : forall t, P t -> P (TRaw t).
Hypothesis HAdaptor : forall t, P t -> P (TAdaptor t).
Hypothesis HCounted : forall i n, P (TCounted i n).
Hypothesis HOpaque : forall i n, P (TOpaque i n).

Fixpoint ty_ind' (t : ty) : P t :=
  let all := fix all (l : list ty) : Forall P l :=
    match l with
    | [] => Forall_nil P
    | x :: r => Forall_cons x (ty_ind' x) (all r)
    end in
  match t with
  | TPrim i n => HPrim i n
  | TEnum i u n => HEnum i u n
  | TChrono i u n => HChrono i u n
  | TString => HString
  | TVector t => HVector t (ty_ind' t)
  | TVecBool => HVecBool
  | TArray n t => HArray n t (ty_ind' t)
  | TList d t => HList d t (ty_ind' t)
  | TQueue t => HQueue t (ty_ind' t)
  | TAssoc k t => HAssoc k t (ty_ind' t)
  | TPair a b => HPair a b (ty_ind' a) (ty_ind' b)
  | TTuple l => HTuple l (all l)
  | TOptional t => HOptional t (ty_ind' t)
  | TVariant l => HVariant l (all l)
  | TUnique t => HUnique t (ty_ind' t)
  | TClass c => HClass c
  | TShared t => HShared t (ty_ind' t)
  | TRaw t => HRaw t (ty_ind' t)
  | TAdaptor t => HAdaptor t (ty_ind' t)
  | TCounted i n => HCounted i n
  | TOpaque i n => HOpaque i n
  end.
End TyInd.

Lemma ty_eqb_eq : forall a b, ty_eqb a b = true <-> a = b.
Proof.
  assert (Hl : forall l, Forall (fun a => forall b, ty_eqb a b = true <-> a = b) l ->
    forall l', (fix go (l l' : list ty) : bool :=
       match l, l' with
       | [], [] => true
       | x :: r, y :: r' => ty_eqb x y && go r r'
       | _, _ => false
       end) l l' = true <-> l = l').
  { intros l H. induction H as [|x r Hx Hr IH]; intros [|y r']; split; intros H0; try congruence; auto.
    - apply andb_true_iff in H0. destruct H0 as [H1 H2]. apply Hx in H1. apply IH in H2. congruence.
    - inversion H0; subst. apply andb_true_iff. split; [now apply Hx|now apply IH]. }
  intros a. induction a using ty_ind'; intros b'; destruct b'; cbn [ty_eqb];
    try (split; intros; congruence);
    rewrite ?andb_true_iff, ?Nat.eqb_eq, ?Bool.eqb_true_iff;
    try (rewrite IHa); try (rewrite IHa1, IHa2); try (rewrite Hl by auto);
    try (split; intros; intuition congruence).
  unfold assoc_eqb. destruct k, k0; rewrite ?andb_true_iff, ?Bool.eqb_true_iff; split; intros; intuition congruence.
Qed.

Lemma ty_eqb_refl : forall a, ty_eqb a a = true.
Proof. intros. now apply ty_eqb_eq. Qed.

(** ** Type registry *)

(** The index given to the [i]-th registered type. *)
Definition type_index (i : N) : N := N.lor (N.shiftl (i mod 65536) 8) dead_mark.

(** 0xDE0000AD leaves bits 8 to 23 free. *)
Lemma lor_mark : forall n, n < 65536 -> N.lor (N.shiftl n 8) dead_mark = n * 256 + dead_mark.
Proof.
  intros n Hn.
  assert (Hz : N.land (N.shiftl n 8) dead_mark = 0).
  { apply N.bits_inj_0. intros i. rewrite N.land_spec.
    destruct (N.ltb_spec i 8) as [Hi|Hi].
    - rewrite N.shiftl_spec_low by auto. reflexivity.
    - rewrite N.shiftl_spec_high' by auto.
      destruct (N.ltb_spec i 24) as [Hj|Hj].
      + replace (N.testbit dead_mark i) with false; [apply andb_false_r|].
        assert (H : exists k, i = 8 + k /\ k < 16) by (exists (i - 8); lia).
        destruct H as (k & -> & Hk).
        assert (Hc : k = 0 \/ k = 1 \/ k = 2 \/ k = 3 \/ k = 4 \/ k = 5 \/ k = 6 \/ k = 7 \/
          k = 8 \/ k = 9 \/ k = 10 \/ k = 11 \/ k = 12 \/ k = 13 \/ k = 14 \/ k = 15) by lia.
        repeat (destruct Hc as [->|Hc]; [reflexivity|]). rewrite Hc. reflexivity.
      + rewrite N.bits_above_log2; [reflexivity|].
        destruct (N.eq_dec n 0) as [->|Hn0]; [cbn; lia|].
        assert (N.log2 n < 16) by (apply N.log2_lt_pow2; [lia|exact Hn]). lia. }
  rewrite <- (N.lxor_lor _ _ Hz).
  rewrite <- N.add_nocarry_lxor by exact Hz.
  rewrite N.shiftl_mul_pow2. reflexivity.
Qed.

Lemma type_index_val : forall i, type_index i = (i mod 65536) * 256 + dead_mark.
Proof. intros. unfold type_index. apply lor_mark. apply N.mod_lt. discriminate. Qed.

Lemma type_index_inj : forall i j, i < 65536 -> j < 65536 -> type_index i = type_index j -> i = j.
Proof.
  intros i j Hi Hj. rewrite !type_index_val. rewrite !N.mod_small by auto. lia.
Qed.

Lemma type_index_bound : forall i, type_index i < 2 ^ 32.
Proof.
  intros. rewrite type_index_val.
  assert (i mod 65536 < 65536) by (apply N.mod_lt; discriminate).
  unfold dead_mark. change (2 ^ 32) with 4294967296. lia.
Qed.

(** The mask keeps the lowest and the highest byte of a 32-bit word. *)
Lemma land_mask : forall w, w < 2 ^ 32 ->
  N.land w dead_mask = w / 16777216 * 16777216 + w mod 256.
Proof.
  intros w Hw.
  replace dead_mask with (N.lor (N.shiftl (N.ones 8) 24) (N.ones 8)) by reflexivity.
  rewrite N.land_lor_distr_r. rewrite N.land_ones.
  assert (H1 : N.land w (N.shiftl (N.ones 8) 24) = N.shiftl (w / 16777216) 24).
  { apply N.bits_inj. intros i. rewrite N.land_spec.
    destruct (N.ltb_spec i 24) as [Hi|Hi].
    - rewrite !N.shiftl_spec_low by auto. apply andb_false_r.
    - rewrite !N.shiftl_spec_high' by auto.
      change 16777216 with (2 ^ 24). rewrite <- N.shiftr_div_pow2.
      rewrite N.shiftr_spec'. replace (i - 24 + 24) with i by lia.
      destruct (N.ltb_spec (i - 24) 8) as [Hj|Hj].
      + rewrite N.ones_spec_low by auto. apply andb_true_r.
      + rewrite N.ones_spec_high by auto. rewrite andb_false_r.
        symmetry. destruct (N.eq_dec w 0) as [->|Hn0]; [apply N.bits_0|].
        apply N.bits_above_log2.
        assert (N.log2 w < 32) by (apply N.log2_lt_pow2; [lia|exact Hw]). lia. }
  rewrite H1.
  assert (Hz : N.land (N.shiftl (w / 16777216) 24) (w mod 2 ^ 8) = 0).
  { apply N.bits_inj_0. intros i. rewrite N.land_spec.
    destruct (N.ltb_spec i 24) as [Hi|Hi].
    - rewrite N.shiftl_spec_low by auto. reflexivity.
    - rewrite N.mod_pow2_bits_high by lia. apply andb_false_r. }
  rewrite <- (N.lxor_lor _ _ Hz), <- N.add_nocarry_lxor by exact Hz.
  rewrite N.shiftl_mul_pow2. reflexivity.
Qed.

Lemma validate_iff : forall w, w < 2 ^ 32 ->
  (validate_index w = true <-> w mod 256 = 173 /\ w / 16777216 = 222).
Proof.
  intros w Hw. unfold validate_index. rewrite N.eqb_eq, land_mask by auto.
  change (2 ^ 32) with 4294967296 in Hw.
  assert (w mod 256 < 256) by (apply N.mod_lt; discriminate).
  assert (w / 16777216 < 256) by (apply N.div_lt_upper_bound; lia).
  unfold dead_mark. split; [|intros [-> ->]; reflexivity].
  revert H H0. generalize (w mod 256) (w / 16777216). intros a b Ha Hb Hab. lia.
Qed.

Lemma type_index_valid : forall i, validate_index (type_index i) = true.
Proof.
  intros. apply validate_iff; [apply type_index_bound|].
  rewrite type_index_val. set (n := i mod 65536).
  assert (n < 65536) by (apply N.mod_lt; discriminate).
  unfold dead_mark. split.
  - rewrite N.add_comm, N.mod_add by discriminate. reflexivity.
  - symmetry. apply N.div_unique with (r := n * 256 + 173); lia.
Qed.

(** State after registering a list of types. *)
Lemma treg_next : forall l, tr_next (treg_of l) = len l mod 65536.
Proof.
  intros l. unfold treg_of.
  assert (H : forall l r n, tr_next r = n mod 65536 ->
     tr_next (fold_left treg_add l r) = (n + len l) mod 65536).
  { clear l. induction l as [|t l IH]; intros r n Hr; cbn [fold_left].
    - now rewrite len_nil, N.add_0_r.
    - rewrite (IH _ (n + 1)).
      + rewrite len_cons. f_equal. lia.
      + cbn [tr_next treg_add]. rewrite Hr. now rewrite N.add_mod_idemp_l by discriminate. }
  now rewrite (H l treg0 0).
Qed.

Lemma treg_snoc : forall l t, treg_of (l ++ [t]) = treg_add (treg_of l) t.
Proof. intros. unfold treg_of. now rewrite fold_left_app. Qed.

Lemma treg_idx : forall l i t, NoDup l -> nth_error l i = Some t ->
  get_type_idx (treg_of l) t = Some (type_index (N.of_nat i)).
Proof.
  intros l. induction l as [|x l IH] using rev_ind; intros i t Hn Hi.
  - destruct i; discriminate.
  - rewrite treg_snoc. unfold get_type_idx. cbn [tr_idx treg_add find_ty].
    destruct (Nat.eq_dec i (length l)) as [->|Hne].
    + rewrite nth_error_app2, Nat.sub_diag in Hi by lia. inversion Hi; subst.
      rewrite ty_eqb_refl. f_equal. unfold type_index. rewrite treg_next. reflexivity.
    + assert (Hlt : (i < length l)%nat).
      { assert (H : (i < length (l ++ [x]))%nat) by (apply nth_error_Some; congruence).
        rewrite app_length in H. cbn in H. lia. }
      rewrite nth_error_app1 in Hi by auto.
      assert (Hnx : x <> t).
      { intros ->. apply NoDup_remove_2 in Hn. rewrite app_nil_r in Hn.
        apply Hn. eapply nth_error_In; eauto. }
      destruct (ty_eqb x t) eqn:E; [apply ty_eqb_eq in E; congruence|].
      apply IH; auto. apply NoDup_remove_1 in Hn. now rewrite app_nil_r in Hn.
Qed.

Lemma treg_names : forall l i t, NoDup l -> len l <= 65536 -> nth_error l i = Some t ->
  get_type_name (type_index (N.of_nat i)) (tr_names (treg_of l)) = Some t.
Proof.
  intros l. induction l as [|x l IH] using rev_ind; intros i t Hn Hl Hi.
  - destruct i; discriminate.
  - rewrite treg_snoc. cbn [tr_names treg_add get_type_name].
    change (N.lor (N.shiftl (tr_next (treg_of l)) 8) dead_mark)
      with (N.lor (N.shiftl (tr_next (treg_of l)) 8) dead_mark).
    rewrite treg_next. fold (type_index (len l)).
    rewrite len_app in Hl. change (len [x]) with 1 in Hl.
    destruct (Nat.eq_dec i (length l)) as [->|Hne].
    + rewrite nth_error_app2, Nat.sub_diag in Hi by lia. inversion Hi; subst.
      unfold len. now rewrite N.eqb_refl.
    + assert (Hlt : (i < length l)%nat).
      { assert (H : (i < length (l ++ [x]))%nat) by (apply nth_error_Some; congruence).
        rewrite app_length in H. cbn in H. lia. }
      rewrite nth_error_app1 in Hi by auto.
      destruct (N.eqb_spec (type_index (len l)) (type_index (N.of_nat i))) as [Heq|_].
      { exfalso. apply type_index_inj in Heq; unfold len in *; lia. }
      apply IH; auto; [|lia]. apply NoDup_remove_1 in Hn. now rewrite app_nil_r in Hn.
Qed.

(** ** Object registry *)
Section Obj.
Variable base : nat -> nat.

Lemma oregs_snoc : forall l c, oregs_of base (l ++ [c]) = oreg_add base (oregs_of base l) c.
Proof. intros. unfold oregs_of. now rewrite fold_left_app. Qed.

(** The registry of a hierarchy holds its classes in registration order. *)
Lemma or_reg_classes : forall l r,
  map oe_class (or_reg (oregs_of base l) r) = filter (fun c => Nat.eqb (base c) r) l.
Proof.
  intros l. induction l as [|c l IH] using rev_ind; intros r; [reflexivity|].
  rewrite oregs_snoc, filter_app. cbn [or_reg oreg_add filter]. unfold set_fun.
  rewrite Nat.eqb_sym. destruct (Nat.eqb_spec (base c) r) as [<-|Hne].
  - rewrite map_app, IH. reflexivity.
  - now rewrite IH, app_nil_r.
Qed.

Lemma or_reg_idx : forall l r i e, nth_error (or_reg (oregs_of base l) r) i = Some e -> oe_idx e = i.
Proof.
  intros l. induction l as [|c l IH] using rev_ind; intros r i e H; [destruct i; discriminate|].
  rewrite oregs_snoc in H. cbn [or_reg oreg_add] in H. unfold set_fun in H.
  destruct (Nat.eqb_spec r (base c)) as [->|Hne]; [|eauto].
  destruct (Nat.lt_ge_cases i (length (or_reg (oregs_of base l) (base c)))) as [Hlt|Hge].
  - rewrite nth_error_app1 in H by auto. eauto.
  - rewrite nth_error_app2 in H by auto.
    destruct (i - length (or_reg (oregs_of base l) (base c)))%nat eqn:Ei; cbn in H.
    + inversion H; subst. cbn. lia.
    + destruct n; discriminate.
Qed.

Lemma or_idx_lookup : forall l c, NoDup l -> In c l ->
  exists i, or_idx (oregs_of base l) c = Some i /\
    concrete_class (oregs_of base l) (base c) (N.of_nat i) = Ok c.
Proof.
  intros l. induction l as [|x l IH] using rev_ind; intros c Hn Hin; [destruct Hin|].
  rewrite oregs_snoc. cbn [or_idx oreg_add].
  unfold concrete_class. cbn [or_reg oreg_add].
  assert (Hn' : NoDup l) by (apply NoDup_remove_1 in Hn; now rewrite app_nil_r in Hn).
  assert (Hx : ~ In x l) by (apply NoDup_remove_2 in Hn; now rewrite app_nil_r in Hn).
  unfold set_fun at 1.
  destruct (Nat.eqb_spec c x) as [->|Hne].
  - eexists. split; [reflexivity|]. unfold set_fun. rewrite Nat.eqb_refl, Nat2N.id.
    rewrite nth_error_app2, Nat.sub_diag by lia. reflexivity.
  - apply in_app_iff in Hin. destruct Hin as [Hin|[->|[]]]; [|congruence].
    destruct (IH c Hn' Hin) as (i & Hi & Hc). exists i. split; auto.
    unfold concrete_class in Hc. unfold set_fun. rewrite Nat2N.id in *.
    destruct (Nat.eqb_spec (base c) (base x)) as [Hb|Hb]; auto.
    rewrite <- Hb.
    destruct (nth_error (or_reg (oregs_of base l) (base c)) i) as [e|] eqn:E; [|discriminate].
    rewrite nth_error_app1; [now rewrite E|]. apply nth_error_Some. congruence.
Qed.

Lemma concrete_sound : forall l r i c, concrete_class (oregs_of base l) r i = Ok c ->
  base c = r /\ In c l.
Proof.
  intros l r i c H. unfold concrete_class in H.
  destruct (nth_error (or_reg (oregs_of base l) r) (N.to_nat i)) as [e|] eqn:E; [|discriminate].
  inversion H; subst.
  assert (Hin : In (oe_class e) (map oe_class (or_reg (oregs_of base l) r)))
    by (apply in_map; eapply nth_error_In; eauto).
  rewrite or_reg_classes in Hin. apply filter_In in Hin. destruct Hin as [Hin Hb].
  apply Nat.eqb_eq in Hb. auto.
Qed.

Lemma concrete_unknown : forall l r i,
  len (or_reg (oregs_of base l) r) <= i ->
  concrete_class (oregs_of base l) r i = Err RangeErr.
Proof.
  intros l r i H. unfold concrete_class.
  replace (nth_error (or_reg (oregs_of base l) r) (N.to_nat i)) with (@None oentry); auto.
  symmetry. apply nth_error_None. unfold len in H. lia.
Qed.

Lemma index_of_nth : forall l c i, index_of c l = Some i -> nth_error l i = Some c.
Proof.
  induction l as [|x l IH]; intros c i H; cbn in H; [discriminate|].
  destruct (Nat.eqb_spec x c) as [->|Hne].
  - inversion H; subst. reflexivity.
  - destruct (index_of c l) eqn:E; cbn in H; inversion H; subst. cbn. auto.
Qed.

Lemma index_of_complete : forall l c i, NoDup l -> nth_error l i = Some c -> index_of c l = Some i.
Proof.
  induction l as [|x l IH]; intros c i Hn H; [destruct i; discriminate|].
  inversion Hn; subst. cbn. destruct i; cbn in H.
  - inversion H; subst. now rewrite Nat.eqb_refl.
  - destruct (Nat.eqb_spec x c) as [->|Hne].
    + exfalso. apply H2. eapply nth_error_In; eauto.
    + now rewrite (IH c i).
Qed.

(** The environment's view of the object registry (Syntax.v) is the registry. *)
Lemma oregs_env : forall E l, (forall c, base c = root E c) -> NoDup l ->
  (forall r, oreg E r = map oe_class (or_reg (oregs_of base l) r)) ->
  (forall c, In c l -> obj_idx E c = or_idx (oregs_of base l) c) /\
  (forall r, NoDup (oreg E r)).
Proof.
  intros E l Hb Hn Ho.
  assert (Hnd : forall r, NoDup (oreg E r)).
  { intros r. rewrite Ho, or_reg_classes. now apply NoDup_filter. }
  split; auto. intros c Hin.
  destruct (or_idx_lookup l c Hn Hin) as (i & Hi & Hc). rewrite Hi.
  unfold obj_idx. apply index_of_complete; auto. rewrite Ho, <- Hb.
  unfold concrete_class in Hc. rewrite Nat2N.id in Hc.
  destruct (nth_error (or_reg (oregs_of base l) (base c)) i) eqn:E1; [|discriminate].
  inversion Hc; subst. now apply map_nth_error.
Qed.
End Obj.

(** ** Serializer registry *)

(** What holds of the registry after any registrations and links. *)
Record sinv (base : nat -> nat) (r : sregs) : Prop := {
  si_idx : forall c s i, sr_idx r c s = Some i ->
    exists e, nth_error (sr_reg r c) i = Some e /\ se_fun e = (c, s);
  si_fun : forall c i e, nth_error (sr_reg r c) i = Some e ->
    exists s, se_fun e = (c, s) /\ sr_idx r c s = Some i;
  si_base : forall c i e j, nth_error (sr_reg r c) i = Some e -> se_base e = Some j ->
    exists s, se_fun e = (c, s) /\ sr_idx r (base c) s = Some j
}.

Lemma sinv0 : forall base, sinv base sregs0.
Proof.
  intros. split; cbn; intros.
  - discriminate.
  - destruct i; discriminate.
  - destruct i; discriminate.
Qed.

Lemma sinv_add : forall base r p, sinv base r -> sr_idx r (fst p) (snd p) = None ->
  sinv base (sreg_add r p).
Proof.
  intros base r [c s] H Hnew. cbn [fst snd] in Hnew.
  assert (Hx : forall c' s' i, sr_idx r c' s' = Some i -> sr_idx (sreg_add r (c, s)) c' s' = Some i).
  { intros c' s' i Hi. cbn. unfold set_fun. destruct (Nat.eqb_spec c' c) as [->|]; auto.
    destruct (Nat.eqb_spec s' s) as [->|]; auto. congruence. }
  assert (Hnew' : sr_idx (sreg_add r (c, s)) c s = Some (length (sr_reg r c))).
  { cbn. unfold set_fun. now rewrite !Nat.eqb_refl. }
  assert (Hnth : forall c' i e, nth_error (sr_reg (sreg_add r (c, s)) c') i = Some e ->
    nth_error (sr_reg r c') i = Some e \/
    (c' = c /\ i = length (sr_reg r c) /\
     e = {| se_this := length (sr_reg r c); se_base := None; se_fun := (c, s) |})).
  { intros c' i e Hi. cbn in Hi. unfold set_fun in Hi.
    destruct (Nat.eqb_spec c' c) as [->|]; auto.
    destruct (Nat.lt_ge_cases i (length (sr_reg r c))).
    - rewrite nth_error_app1 in Hi by auto. auto.
    - rewrite nth_error_app2 in Hi by auto.
      destruct (i - length (sr_reg r c))%nat eqn:Ei; cbn in Hi.
      + inversion Hi; subst. right. repeat split; auto; lia.
      + destruct n; discriminate. }
  split.
  - intros c' s' i Hi.
    cbn in Hi. unfold set_fun in Hi. cbn [sr_reg sreg_add]. unfold set_fun.
    destruct (Nat.eqb_spec c' c) as [->|].
    + destruct (Nat.eqb_spec s' s) as [->|].
      * inversion Hi; subst. eexists. rewrite nth_error_app2, Nat.sub_diag by lia.
        split; reflexivity.
      * destruct (si_idx _ _ H _ _ _ Hi) as (e & He & Hf). exists e. split; auto.
        rewrite nth_error_app1; auto. apply nth_error_Some. congruence.
    + exact (si_idx _ _ H _ _ _ Hi).
  - intros c' i e Hi. apply Hnth in Hi. destruct Hi as [Hi|(-> & -> & ->)].
    + destruct (si_fun _ _ H _ _ _ Hi) as (s' & Hf & Hs). exists s'. split; auto.
    + exists s. split; auto.
  - intros c' i e j Hi Hj. apply Hnth in Hi. destruct Hi as [Hi|(-> & -> & ->)].
    + destruct (si_base _ _ H _ _ _ _ Hi Hj) as (s' & Hf & Hs). exists s'. split; auto.
    + discriminate.
Qed.

Lemma nth_error_upd_some : forall A (l : list A) i j x y,
  nth_error (upd l i x) j = Some y -> (j = i /\ y = x /\ (i < length l)%nat) \/
  (j <> i /\ nth_error l j = Some y).
Proof.
  induction l as [|z l IH]; intros i j x y H; destruct i, j; cbn in H; try discriminate.
  - inversion H. left. cbn. repeat split; auto. lia.
  - right. split; auto.
  - right. split; auto.
  - apply IH in H. destruct H as [(-> & -> & H)|[H1 H2]]; [left|right]; cbn; repeat split; auto; lia.
Qed.

Lemma sinv_link : forall base r s d, sinv base r -> sinv base (link r s d (base d)).
Proof.
  intros base r s d H. unfold link.
  destruct (sr_idx r d s) as [i|] eqn:Ei; auto.
  destruct (sr_idx r (base d) s) as [j|] eqn:Ej; auto.
  destruct (nth_error (sr_reg r d) i) as [e|] eqn:Ee; auto.
  destruct (si_idx _ _ H _ _ _ Ei) as (e' & He' & Hf). rewrite Ee in He'. inversion He'; subst e'.
  set (e1 := {| se_this := se_this e; se_base := Some j; se_fun := se_fun e |}).
  assert (Hnth : forall c k x, nth_error (set_fun (sr_reg r) d (upd (sr_reg r d) i e1) c) k = Some x ->
     (c = d /\ k = i /\ x = e1) \/ nth_error (sr_reg r c) k = Some x).
  { intros c k x Hx. unfold set_fun in Hx. destruct (Nat.eqb_spec c d) as [->|]; auto.
    apply nth_error_upd_some in Hx. destruct Hx as [(-> & -> & _)|[_ Hx]]; auto. }
  split; cbn [sr_reg sr_idx].
  - intros c s' k Hk. destruct (si_idx _ _ H _ _ _ Hk) as (x & Hx & Hxf).
    unfold set_fun. destruct (Nat.eqb_spec c d) as [->|]; [|exists x; auto].
    destruct (Nat.eq_dec k i) as [->|Hne].
    + exists e1. rewrite nth_error_upd_eq by (apply nth_error_Some; congruence).
      split; auto. cbn. congruence.
    + exists x. rewrite nth_error_upd_neq by auto. auto.
  - intros c k x Hx. apply Hnth in Hx. destruct Hx as [(-> & -> & ->)|Hx].
    + exists s. split; auto.
    + exact (si_fun _ _ H _ _ _ Hx).
  - intros c k x j' Hx Hj. apply Hnth in Hx. destruct Hx as [(-> & -> & ->)|Hx].
    + cbn in Hj. inversion Hj; subst. exists s. split; auto.
    + exact (si_base _ _ H _ _ _ _ Hx Hj).
Qed.

(** Links persist and do not change indices. *)
Lemma link_idx : forall r s d b, sr_idx (link r s d b) = sr_idx r.
Proof.
  intros. unfold link. destruct (sr_idx r d s), (sr_idx r b s); auto.
  destruct (nth_error (sr_reg r d) n); auto.
Qed.

Definition linked (base : nat -> nat) (r : sregs) (d s : nat) : Prop :=
  forall i e, sr_idx r d s = Some i -> nth_error (sr_reg r d) i = Some e ->
    se_base e = sr_idx r (base d) s.

Lemma link_linked : forall base r d s, sinv base r -> sr_idx r (base d) s <> None ->
  linked base (link r s d (base d)) d s.
Proof.
  intros base r d s H Hb i e Hi He. rewrite link_idx in *.
  unfold link in He. rewrite Hi in He.
  destruct (sr_idx r (base d) s) as [j|] eqn:Ej; [|congruence].
  destruct (si_idx _ _ H _ _ _ Hi) as (x & Hx & _). rewrite Hx in He.
  cbn [sr_reg] in He. unfold set_fun in He. rewrite Nat.eqb_refl in He.
  rewrite nth_error_upd_eq in He by (apply nth_error_Some; congruence).
  inversion He. reflexivity.
Qed.

Lemma linked_link : forall base r d s d' s', sinv base r -> linked base r d s ->
  linked base (link r s' d' (base d')) d s.
Proof.
  intros base r d s d' s' H Hl i e Hi He. rewrite link_idx in *.
  unfold link in He.
  destruct (sr_idx r d' s') as [i'|] eqn:Ei'; [|eauto].
  destruct (sr_idx r (base d') s') as [j'|] eqn:Ej'; [|eauto].
  destruct (nth_error (sr_reg r d') i') as [e'|] eqn:Ee'; [|eauto].
  cbn [sr_reg] in He. unfold set_fun in He.
  destruct (Nat.eqb_spec d d') as [->|]; [|eauto].
  apply nth_error_upd_some in He. destruct He as [(-> & -> & _)|[_ He]]; [|eauto].
  cbn [se_base].
  destruct (si_idx _ _ H _ _ _ Hi) as (x & Hx & Hxf).
  destruct (si_idx _ _ H _ _ _ Ei') as (y & Hy & Hyf). rewrite Hx in Hy. inversion Hy; subst y.
  congruence.
Qed.

(** Looking up a linked entry through the index of the base class. *)
Lemma find_base_some : forall i l e, find_base i l = Some e ->
  In e l /\ se_base e = Some i.
Proof.
  induction l as [|x l IH]; intros e H; cbn in H; [discriminate|].
  destruct (se_base x) as [j|] eqn:Ej.
  - destruct (Nat.eqb_spec j i) as [->|].
    + inversion H; subst. split; auto. now left.
    + apply IH in H. destruct H. split; auto. now right.
  - apply IH in H. destruct H. split; auto. now right.
Qed.

Lemma find_base_none : forall i l e, find_base i l = None -> In e l -> se_base e <> Some i.
Proof.
  induction l as [|x l IH]; intros e H Hin; cbn in H; [destruct Hin|].
  destruct (se_base x) as [j|] eqn:Ej.
  - destruct (Nat.eqb_spec j i) as [->|Hne]; [discriminate|].
    destruct Hin as [->|Hin]; [congruence|eauto].
  - destruct Hin as [->|Hin]; [congruence|eauto].
Qed.

Lemma get_base_ok : forall a base r d s i j, sinv base r -> linked base r d s ->
  sr_idx r d s = Some i -> sr_idx r (base d) s = Some j ->
  get_base_idx a r d j = Ok (d, s).
Proof.
  intros a base r d s i j H Hl Hi Hj. unfold get_base_idx.
  destruct (si_idx _ _ H _ _ _ Hi) as (e & He & Hf).
  assert (Hb : se_base e = Some j) by (rewrite (Hl i e Hi He); exact Hj).
  destruct (find_base j (sr_reg r d)) as [e'|] eqn:E.
  - apply find_base_some in E. destruct E as [Hin Hb'].
    apply In_nth_error in Hin. destruct Hin as (i' & Hi').
    destruct (si_base _ _ H _ _ _ _ Hi' Hb') as (s' & Hf' & Hs').
    rewrite Hf'. do 2 f_equal.
    destruct (si_idx _ _ H _ _ _ Hs') as (x & Hx & Hxf).
    destruct (si_idx _ _ H _ _ _ Hj) as (y & Hy & Hyf). rewrite Hx in Hy. inversion Hy; subst y.
    congruence.
  - exfalso. eapply find_base_none; eauto. eapply nth_error_In; eauto.
Qed.

Lemma get_obj_ok : forall a base r c s i, sinv base r -> sr_idx r c s = Some i ->
  get_obj_idx a r c i = Ok (c, s).
Proof.
  intros a base r c s i H Hi. unfold get_obj_idx.
  destruct (si_idx _ _ H _ _ _ Hi) as (e & -> & Hf). congruence.
Qed.

Lemma get_obj_unknown : forall a r c i, (length (sr_reg r c) <= i)%nat ->
  get_obj_idx a r c i = Err (if a then AssertErr else RangeErr).
Proof.
  intros a r c i H. unfold get_obj_idx. apply nth_error_None in H. now rewrite H.
Qed.

Lemma get_base_unknown : forall a base r d j, sinv base r ->
  (forall s, sr_idx r (base d) s <> Some j) -> get_base_idx a r d j = Err (if a then AssertErr else CallErr).
Proof.
  intros a base r d j H Hn. unfold get_base_idx.
  destruct (find_base j (sr_reg r d)) as [e|] eqn:E; auto.
  apply find_base_some in E. destruct E as [Hin Hb].
  apply In_nth_error in Hin. destruct Hin as (i & Hi).
  destruct (si_base _ _ H _ _ _ _ Hi Hb) as (s & _ & Hs). destruct (Hn s Hs).
Qed.

(** Histories: registrations (each pair once) and links, in any order. *)
Inductive sop := SReg (c s : nat) | SLink (s d : nat).
Definition run_sop (base : nat -> nat) (r : sregs) (op : sop) : sregs :=
  match op with
  | SReg c s => sreg_add r (c, s)
  | SLink s d => link r s d (base d)
  end.
Definition run_sops (base : nat -> nat) (l : list sop) : sregs := fold_left (run_sop base) l sregs0.
Definition regs_of (l : list sop) : list (nat * nat) :=
  flat_map (fun op => match op with SReg c s => [(c, s)] | SLink _ _ => [] end) l.

Lemma run_snoc : forall base l op, run_sops base (l ++ [op]) = run_sop base (run_sops base l) op.
Proof. intros. unfold run_sops. now rewrite fold_left_app. Qed.

Lemma run_idx : forall base l c s,
  sr_idx (run_sops base l) c s <> None <-> In (c, s) (regs_of l).
Proof.
  intros base l. induction l as [|op l IH] using rev_ind; intros c s.
  - cbn. split; [congruence|tauto].
  - rewrite run_snoc. unfold regs_of. rewrite flat_map_app, in_app_iff.
    fold (regs_of l). rewrite <- IH. destruct op as [c' s'|s' d']; cbn [run_sop flat_map app].
    + cbn [sr_idx sreg_add]. unfold set_fun.
      destruct (Nat.eqb_spec c c') as [->|]; [|split; [auto|intros [|[H|[]]]; [auto|congruence]]].
      destruct (Nat.eqb_spec s s') as [->|]; [|split; [auto|intros [|[H|[]]]; [auto|congruence]]].
      split; [intros; right; left; auto|discriminate].
    + rewrite link_idx. cbn. tauto.
Qed.

Lemma run_inv : forall base l, NoDup (regs_of l) -> sinv base (run_sops base l).
Proof.
  intros base l. induction l as [|op l IH] using rev_ind; intros Hn; [apply sinv0|].
  rewrite run_snoc. unfold regs_of in Hn. rewrite flat_map_app in Hn. fold (regs_of l) in Hn.
  destruct op as [c s|s d]; cbn [run_sop flat_map app] in *.
  - apply sinv_add.
    + apply IH. apply NoDup_remove_1 in Hn. now rewrite app_nil_r in Hn.
    + cbn [fst snd]. apply NoDup_remove_2 in Hn. rewrite app_nil_r in Hn.
      destruct (sr_idx (run_sops base l) c s) eqn:E; auto.
      exfalso. apply Hn. apply (run_idx base). congruence.
  - apply sinv_link. apply IH. now rewrite app_nil_r in Hn.
Qed.

(** ** Dynamic serialization *)
Section Dyn.
Variable F : N -> Prop.
Variable E : env.
Hypothesis wf : wf_env F E.
Variable o : oregs.
Variable ss : list nat.
Variable s : nat.
Hypothesis Hs : In s ss.
Variable rec : ty -> list val -> prog (list val).

(** Same answer on every serializer. *)
Definition peq {A} (p q : prog A) : Prop :=
  forall H vf st, interp H p vf st = interp H q vf st.

Lemma peq_bind : forall A B (p q : prog A) (f g : A -> prog B),
  peq p q -> (forall a, peq (f a) (g a)) -> peq (bind p f) (bind q g).
Proof.
  intros A B p q f g H1 H2 H vf st. rewrite !interp_bind, H1.
  destruct (interp H q vf st) as [[[a vf'] st']|]; auto. apply H2.
Qed.

Lemma peq_refl : forall A (p : prog A), peq p p.
Proof. intros A p H vf st. reflexivity. Qed.

Lemma peq_trans : forall A (p q r : prog A), peq p q -> peq q r -> peq p r.
Proof. intros A p q r H1 H2 H vf st. now rewrite H1. Qed.

Lemma peq_assoc : forall A B C (p : prog A) (f : A -> prog B) (g : B -> prog C),
  peq (bind (bind p f) g) (bind p (fun a => bind (f a) g)).
Proof.
  intros A B C p f g H vf st. rewrite !interp_bind.
  destruct (interp H p vf st) as [[[a vf'] st']|]; auto. now rewrite interp_bind.
Qed.

Lemma peq_ret_r : forall A (p : prog A), peq (bind p (fun a => Ret a)) p.
Proof.
  intros A p H vf st. rewrite interp_bind.
  destruct (interp H p vf st) as [[[a vf'] st']|]; auto.
Qed.

Definition all_linked (r : sregs) (cs : list nat) : Prop :=
  Forall (fun c => linked (root E) r c s) cs.

Lemma link_all_inv : forall l r d, sinv (root E) r -> sinv (root E) (link_all (root E) l r d).
Proof.
  intros l. unfold link_all. induction l as [|x l IH]; intros r d H; cbn [fold_left]; auto.
  apply IH. now apply sinv_link.
Qed.
Lemma link_all_idx : forall l r d, sr_idx (link_all (root E) l r d) = sr_idx r.
Proof.
  intros l. unfold link_all. induction l as [|x l IH]; intros r d; cbn [fold_left]; auto.
  rewrite IH. apply link_idx.
Qed.
Lemma link_all_keeps : forall l r d c, sinv (root E) r -> linked (root E) r c s ->
  linked (root E) (link_all (root E) l r d) c s.
Proof.
  intros l. unfold link_all. induction l as [|x l IH]; intros r d c H Hl; cbn [fold_left]; auto.
  apply IH; [now apply sinv_link|now apply linked_link].
Qed.
Lemma link_all_links : forall l r d, sinv (root E) r -> In s l ->
  sr_idx r (root E d) s <> None -> linked (root E) (link_all (root E) l r d) d s.
Proof.
  intros l. induction l as [|x l IH]; intros r d H Hin Hb; [destruct Hin|].
  unfold link_all. cbn [fold_left]. destruct Hin as [->|Hin].
  - apply (link_all_keeps l); [now apply sinv_link|]. now apply link_linked.
  - apply (IH (link r x d (root E d)) d); auto; [now apply sinv_link|].
    now rewrite link_idx.
Qed.

(** Dispatching through the registries serializes the classes of the chain, root
    first, each once. *)
Lemma dyn_ser_chain : forall n c, (c < n)%nat -> forall ex v r i,
  (exists k, cls E c = Some k) ->
  sinv (root E) r ->
  (forall c', In c' (chain E c) -> sr_idx r c' s <> None) ->
  sr_idx r (root E c) s = Some i ->
  (ex = None \/ exists j, ex = Some j /\ or_idx o c = Some j) ->
  (forall c', In c' (chain E c) -> or_idx o c' <> None) ->
  exists r', sinv (root E) r' /\ sr_idx r' = sr_idx r /\
   (forall c' s', linked (root E) r c' s -> s' = s -> linked (root E) r' c' s) /\
   peq (dyn_ser E o ss s rec n c i ex v r)
    (bind (foldP (fun v c => Note (EvRegistry c) (SetV true (ser rec (TClass c) v))) (chain E c) v)
          (fun v' => Ret (v', r'))).
Proof.
  induction n as [|n IH]; intros c Hcn ex v r i (k & Hk) Hinv Hreg Hi Hex Hobj; [lia|].
  cbn [dyn_ser]. rewrite Hk.
  set (r1 := link_all (root E) ss r c).
  assert (Hinv1 : sinv (root E) r1) by (now apply link_all_inv).
  assert (Hidx1 : sr_idx r1 = sr_idx r) by apply link_all_idx.
  assert (Hass : peq (assert_idx E o c ex) (Ret tt)).
  { unfold assert_idx. destruct Hex as [->|(j & -> & Hj)]; [apply peq_refl|].
    rewrite Hj, Nat.eqb_refl. apply peq_refl. }
  pose proof (chain_eq _ _ wf c) as Hch. rewrite Hk in Hch.
  destruct (cparent k) as [p|] eqn:Hp.
  - (* derived class *)
    destruct (wf_parent _ _ wf c k p Hk Hp) as (Hpc & _ & kp & Hkp & _).
    assert (Hroot : root E p = root E c).
    { apply (root_in_chain _ _ wf). rewrite Hch. apply in_or_app. left.
      apply (chain_self _ _ wf). eapply chain_nonempty; eauto. }
    destruct (IH p) with (ex := or_idx o p) (v := v) (r := r1) (i := i)
      as (r2 & Hinv2 & Hidx2 & Hlk & Hpeq); auto.
    + lia.
    + eauto.
    + intros c' Hin. rewrite Hidx1. apply Hreg. rewrite Hch. apply in_or_app. now left.
    + now rewrite Hidx1, Hroot.
    + destruct (or_idx o p) as [j|] eqn:Ej; [right; exists j; auto|now left].
    + intros c' Hin. apply Hobj. rewrite Hch. apply in_or_app. now left.
    + exists r2. split; [exact Hinv2|]. split; [congruence|]. split.
      { intros c' s' Hl Hs'. apply (Hlk c' s); auto. apply link_all_keeps; auto. }
      assert (Hget : get_base_idx (asserts E) r2 c i = Ok (c, s)).
      { destruct (sr_idx r c s) as [ic|] eqn:Eic.
        2:{ exfalso. apply (Hreg c); auto. rewrite Hch. apply in_or_app. right. now left. }
        eapply (get_base_ok _ (root E)) with (s := s); eauto.
        - apply (Hlk c s); auto. apply link_all_links; auto. congruence.
        - rewrite Hidx2, Hidx1. exact Eic.
        - rewrite Hidx2, Hidx1. exact Hi. }
      intros H vf st. rewrite !interp_bind, Hass. cbn [interp].
      rewrite interp_bind, Hpeq, interp_bind, Hch.
      assert (Happ : forall l1 l2 v, peq (foldP (fun v c => Note (EvRegistry c) (SetV true (ser rec (TClass c) v))) (l1 ++ l2) v)
        (bind (foldP (fun v c => Note (EvRegistry c) (SetV true (ser rec (TClass c) v))) l1 v)
              (fun v' => foldP (fun v c => Note (EvRegistry c) (SetV true (ser rec (TClass c) v))) l2 v'))).
      { clear. intros l1. induction l1 as [|x l1 IHl]; intros l2 v; [apply peq_refl|].
        cbn [app foldP]. eapply peq_trans; [|intros H vf st; symmetry; apply peq_assoc].
        apply peq_bind; [apply peq_refl|]. intros a. apply IHl. }
      rewrite Happ, interp_bind.
      destruct (interp H (foldP (fun v c => Note (EvRegistry c) (SetV true (ser rec (TClass c) v))) (chain E p) v) vf st)
        as [[[v1 vf1] st1]|]; auto.
      cbn [interp]. rewrite Hget. cbn [dispatcher]. rewrite Nat.eqb_refl.
      cbn [foldP]. rewrite !interp_bind. cbn [interp].
      destruct (interp H (ser rec (TClass c) v1) true (note H (EvRegistry c) st1))
        as [[[v2 vf2] st2]|]; auto.
  - (* root *)
    rewrite Hch. exists r1. split; [exact Hinv1|]. split; [exact Hidx1|]. split.
    { intros c' s' Hl Hs'. apply link_all_keeps; auto. }
    assert (Hroot : root E c = c).
    { unfold root. now rewrite Hch. }
    assert (Hget : get_obj_idx (asserts E) r1 c i = Ok (c, s)).
    { eapply (get_obj_ok _ (root E)); eauto. rewrite Hidx1. now rewrite <- Hroot at 1. }
    intros H vf st. rewrite !interp_bind, Hass. cbn [interp].
    rewrite interp_bind, Hget. cbn [dispatcher]. rewrite Nat.eqb_refl.
    cbn [foldP]. rewrite !interp_bind. cbn [interp].
    destruct (interp H (ser rec (TClass c) v) true (note H (EvRegistry c) st))
      as [[[v2 vf2] st2]|]; auto.
Qed.

Lemma virtual_serialize_chain : forall d ls r,
  is_virtual E (TClass d) = true -> sinv (root E) r ->
  (forall c, In c (chain E d) -> sr_idx r c s <> None) ->
  (forall c, In c (chain E d) -> or_idx o c <> None) ->
  exists r', sinv (root E) r' /\ sr_idx r' = sr_idx r /\
    peq (virtual_serialize E o ss s rec (VObj d ls) r)
        (bind (dyn_serialize E rec (VObj d ls)) (fun v => Ret (v, r'))).
Proof.
  intros d ls r Hv Hinv Hreg Hobj. cbn [virtual_serialize dyn_serialize]. rewrite Hv.
  assert (Hk : exists k, cls E d = Some k).
  { cbn [is_virtual] in Hv. destruct (cls E d); [eauto|discriminate]. }
  destruct Hk as (k & Hk).
  assert (Hin : In (root E d) (chain E d)).
  { unfold root. destruct (chain E d) eqn:E1; [|now left].
    exfalso. eapply chain_nonempty; eauto. }
  destruct (sr_idx r (root E d) s) as [i|] eqn:Ei; [|exfalso; eapply Hreg; eauto].
  destruct (dyn_ser_chain (S d) d) with (ex := @None nat) (v := VObj d ls) (r := r) (i := i)
    as (r' & H1 & H2 & _ & H3); eauto.
Qed.
End Dyn.
