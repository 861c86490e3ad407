(** Footprints of copies, and of one object in different builds. *)
From Coq Require Import List NArith Arith Bool Lia Permutation.
From Coq.Strings Require Import Byte.
From Verif Require Import Base Syntax Prog Serializers Traverse Spec ValFacts ProgFacts EnvFacts Pack Foot.
Import ListNotations.
Local Open Scope N_scope.

(** The object after std::string::shrink_to_fit on every string in it, where that releases all
    unused capacity. *)
Fixpoint shrunk (v : val) : val :=
  match v with
  | VStr c b => VStr (N.min c (len b)) b
  | VVec c l => VVec c (map shrunk l)
  | VSeq l => VSeq (map shrunk l)
  | VBag l => VBag (map shrunk l)
  | VOpt (Some x) => VOpt (Some (shrunk x))
  | VVar i x => VVar i (shrunk x)
  | VObj c ls => VObj c (map (map shrunk) ls)
  | _ => v
  end.

Lemma Forall2_perm_l : forall A B (P : A -> B -> Prop) l l', Permutation l l' ->
  forall ns, Forall2 P l ns -> exists ns', Forall2 P l' ns' /\ Permutation ns ns'.
Proof.
  intros A B P l l' H. induction H; intros ns Hn.
  - inversion Hn; subst. exists []. split; auto.
  - inversion Hn as [|? n ? ns1 H1 H2]; subst. destruct (IHPermutation ns1 H2) as (ns' & Hs & Hp).
    exists (n :: ns'). split; auto.
  - inversion Hn as [|? n1 ? ns1 H1 H2]; subst. inversion H2 as [|? n2 ? ns2 H3 H4]; subst.
    exists (n2 :: n1 :: ns2). split; [auto|constructor].
  - destruct (IHPermutation1 ns Hn) as (n1 & H1 & P1). destruct (IHPermutation2 n1 H1) as (n2 & H2 & P2).
    exists n2. split; auto. now transitivity n1.
Qed.

Lemma total_perm : forall a b, Permutation a b -> total a = total b.
Proof. intros a b H. unfold total. induction H; cbn [fold_right]; lia. Qed.

(** Two values that differ in capacities only: those of strings are related by [S], those of
    vectors by [R]. *)
Inductive alike (S : bytes -> N -> N -> Prop) (R : N -> N -> Prop) : val -> val -> Prop :=
| AlB b : alike S R (VB b) (VB b)
| AlStr c c' b : S b c c' -> alike S R (VStr c b) (VStr c' b)
| AlVec c c' l l' : R c c' -> Forall2 (alike S R) l l' -> alike S R (VVec c l) (VVec c' l')
| AlSeq l l' : Forall2 (alike S R) l l' -> alike S R (VSeq l) (VSeq l')
| AlBag l l1 l' :
    Forall2 (alike S R) l l1 -> Permutation l1 l' -> alike S R (VBag l) (VBag l')
| AlNone : alike S R (VOpt None) (VOpt None)
| AlSome v w : alike S R v w -> alike S R (VOpt (Some v)) (VOpt (Some w))
| AlVar i v w : alike S R v w -> alike S R (VVar i v) (VVar i w)
| AlVarNone : alike S R VVarNone VVarNone
| AlObj c ls ls' : Forall2 (Forall2 (alike S R)) ls ls' -> alike S R (VObj c ls) (VObj c ls').

Section Copy.
Variable E : env.
Variable S' : bytes -> N -> N -> Prop.
Variables R Q : N -> N -> Prop.
Notation alike := (alike S' R).
Hypothesis Q_refl : forall a, Q a a.
Hypothesis Q_add : forall a b c d, Q a b -> Q c d -> Q (a + c) (b + d).
Hypothesis Q_mul : forall k a b, Q a b -> Q (k * a) (k * b).
Hypothesis R_room : forall k a b, R a b -> k <= a -> k <= b.
Hypothesis R_sub : forall k a b, R a b -> k <= a -> Q (a - k) (b - k).
Hypothesis S_room : forall b c c', S' b c c' -> len b <= c -> len b <= c' /\ Q c c'.

Lemma Q_total : forall ns ns', Forall2 Q ns ns' -> Q (total ns) (total ns').
Proof. intros ns ns' H. induction H; cbn [total fold_right]; auto. Qed.

Lemma len_Forall2 : forall A B (P : A -> B -> Prop) l l', Forall2 P l l' -> len l = len l'.
Proof. intros A B P l l' H. unfold len. f_equal. induction H; cbn; auto. Qed.

Lemma takes_alike : forall f v, (depth v < f)%nat -> forall t v' n,
  takes E t v n -> alike v v' -> exists n', takes E t v' n' /\ Q n n'.
Proof.
  induction f as [|f IH]; [intros; lia|]. intros v Hd t v' n Ht Hs.
  assert (L : forall t l l' ns, shallow f l -> Forall2 alike l l' ->
    Forall2 (takes E t) l ns ->
    exists ns', Forall2 (takes E t) l' ns' /\ Forall2 Q ns ns').
  { clear - IH. intros t l l' ns Hsh Hl. revert ns. induction Hl as [|x y l l' Hxy _ IHl]; intros ns Hn.
    - inversion Hn; subst. exists []. split; constructor.
    - inversion Hsh as [|? ? Hx Hsh1]; subst. inversion Hn as [|? n ? ns1 Hn1 Hn2]; subst.
      destruct (IH x Hx t y n Hn1 Hxy) as (n' & A1 & A2).
      destruct (IHl Hsh1 ns1 Hn2) as (ns' & A3 & A4). exists (n' :: ns'). split; constructor; auto. }
  assert (V : forall t l l' ns, shallow f l -> Forall2 alike l l' ->
    Forall2 (takes E t) (visited E t l) ns ->
    exists ns', Forall2 (takes E t) (visited E t l') ns' /\ Forall2 Q ns ns').
  { unfold visited. intros t0 l l' ns Hsh Hl. destruct (is_virtual E t0); [|now apply L].
    destruct Hl as [|x y l l' Hxy Hl]; cbn [firstn]; intros Hn; [apply (L t0 [] []); auto|].
    inversion Hsh; subst. apply (L t0 [x] [y]); auto; constructor; auto; constructor. }
  destruct v as [b|cap b|cap l|l|l|[x|]|i x| |c ls]; inversion Hs; subst.
  - exists n. split; auto.
  - inversion Ht; subst; try (eexists; split; [constructor|now auto]).
    destruct (S_room b cap c') as (A1 & A2); auto. eexists. split; [constructor; auto|auto].
  - cbn [depth] in Hd. destruct (fold_depth l f) as (Hsh & _); [lia|].
    match goal with H : Forall2 alike l ?l' |- _ => pose proof (len_Forall2 _ _ _ _ _ H) as Hl end.
    inversion Ht; subst; try (eexists; split; [constructor|now auto]).
    edestruct V as (ns' & Z5 & Z6); eauto. eexists. split.
    * constructor; [|eassumption]. rewrite <- Hl. eapply R_room; eauto.
    * rewrite <- Hl. apply Q_add; [|auto]. apply Q_add; auto. now apply Q_total.
  - cbn [depth] in Hd. destruct (fold_depth l f) as (Hsh & _); [lia|].
    match goal with H : Forall2 alike l ?l' |- _ => pose proof (len_Forall2 _ _ _ _ _ H) as Hl end.
    inversion Ht; subst; try (eexists; split; [now constructor|now auto]).
    + edestruct V as (ns' & Z5 & Z6); eauto. eexists. split; [now constructor; eauto|]. now apply Q_total.
    + edestruct L as (ns' & Z5 & Z6); eauto. eexists. split; [now constructor; eauto|].
      apply Q_add; auto. now apply Q_total.
    + edestruct L as (ns' & Z5 & Z6); eauto. eexists. split; [now constructor; eauto|].
      apply Q_add; auto. now apply Q_total.
    + rewrite Hl. exists (szof E (TQueue t0) + sizeof E t0 * len l'). split; [constructor|auto].
    + rewrite Hl. exists (szof E (TAdaptor t0) + sizeof E t0 * len l'). split; [constructor|auto].
    + rename x into x1, y into y1.
      inversion H0 as [|? x2 ? ? Hx1 Hy]; subst. inversion Hy as [|? y2 ? ? Hy1 Hz]; subst. inversion Hz; subst.
      inversion Hsh as [|? ? Hdx Hsh1]; subst. inversion Hsh1; subst.
      edestruct (IH x1) as (n1 & Hn1 & HR1); eauto. edestruct (IH y1) as (n2 & Hn2 & HR2); eauto.
      eexists. split; [constructor; eauto|]. auto.
    + assert (G : exists ns', length ts = length l' /\
        Forall2 (fun p n => takes E (fst p) (snd p) n) (combine ts l') ns' /\ Forall2 Q ns ns').
      { clear - IH H0 H1 H3 Hsh. revert ts ns H1 H3. induction H0 as [|x y l l' Hxy _ IHl]; intros ts ns Hlen Hn.
        - destruct ts; [|discriminate]. inversion Hn; subst. exists []. repeat split; constructor.
        - destruct ts as [|t ts]; [discriminate|]. cbn [combine] in Hn. inversion Hn as [|? n0 ? ns1 Hn1 Hn2]; subst.
          inversion Hsh; subst. cbn [fst snd] in Hn1. injection Hlen as Hlen.
          edestruct (IH x) as (n' & A1 & A2); eauto. edestruct IHl as (ns' & B0 & B1 & B2); eauto.
          exists (n' :: ns'). cbn [length combine]. repeat split; [congruence|constructor; auto|constructor; auto]. }
      destruct G as (ns' & G1 & G2 & G3). eexists. split; [econstructor; eauto|]. now apply Q_total.
  - cbn [depth] in Hd. destruct (fold_depth l f) as (Hsh & _); [lia|].
    inversion Ht; subst; try (eexists; split; [now constructor|now auto]).
    edestruct L as (ns' & Z5 & Z6); eauto.
    destruct (Forall2_perm_l _ _ _ _ _ (H1) ns' Z5) as (ns2 & Hn2 & Hp).
    eexists. split; [econstructor; eauto|]. rewrite <- (total_perm _ _ Hp). apply Q_add; auto. now apply Q_total.
  - cbn [depth] in Hd.
    inversion Ht; subst; try (eexists; split; [now constructor|now auto]);
      try (edestruct (IH x) as (n' & A1 & A2); [lia|eassumption|eassumption|];
           eexists; split; [now constructor; eauto|now auto]).
    edestruct (IH (VObj d ls)) as (n' & A1 & A2); [lia|eassumption|eassumption|]. inversion H0; subst. eexists. split; [apply TkUniqueV; eauto|auto].
  - exists n. auto.
  - cbn [depth] in Hd.
    inversion Ht; subst; try (eexists; split; [now constructor|now auto]).
    edestruct (IH x) as (n' & A1 & A2); [lia|eassumption|eassumption|].
    eexists; split; [econstructor; eauto|now auto].
  - exists n. auto.
  - cbn [depth] in Hd. destruct (fold_depth2 ls f) as (Hsh & _); [lia|].
    inversion Ht; subst; try (eexists; split; [now constructor|now auto]).
    assert (G : exists ns', 
       Forall2 (fun p n => exists k ms, cls E (fst p) = Some k /\ cbyte k = false /\ n = total ms /\
               Forall2 (fun i m => exists t x, nth_error (cfields k) i = Some t /\
                          nth_error (snd p) i = Some x /\ takes E t x m)
                 (cser k MFootprinting) ms)
      (combine (chain E c) ls') ns' /\ Forall2 Q ns ns').
    { clear - IH Hsh H2 H7 Q_refl Q_add. revert ns H7. generalize (chain E c).
      induction H2 as [|fs fs' ls ls' Hfs _ IHl]; intros cs ns Hn.
      - destruct cs; cbn in Hn |- *; inversion Hn; subst; exists []; split; constructor.
      - destruct cs as [|c1 cs]; [cbn in Hn |- *; inversion Hn; subst; exists []; split; constructor|].
        cbn [combine] in Hn. inversion Hn as [|? n0 ? ns1 Hn1 Hn2]; subst. inversion Hsh as [|? ? Hsh1 Hsh2]; subst.
        edestruct (IHl Hsh2) as (ns' & B1 & B2); eauto.
        destruct Hn1 as (k & ms & Hk & Hb & -> & Hms). cbn [fst snd] in *.
        assert (G : exists ms', Forall2 (fun i m => exists t x, nth_error (cfields k) i = Some t /\
                          nth_error fs' i = Some x /\ takes E t x m) (cser k MFootprinting) ms' /\
                     Forall2 Q ms ms').
        { clear - IH Hsh1 Hfs Hms. induction Hms as [|i m0 is ms (t & x & Ht & Hx & Hm) _ IHm]; [exists []; split; constructor|].
          destruct IHm as (ms' & A1 & A2). rename x into y, Hx into Ey.
          assert (exists y', nth_error fs' i = Some y' /\ alike y y') as (y' & Ey' & Hyy).
          { clear - Ey Hfs. revert i Ey. induction Hfs; intros [|i] Ey; try discriminate; cbn in *; eauto.
            injection Ey as ->. eauto. }
          edestruct (IH y) as (n' & B1 & B2); [eapply shallow_in; eauto; eapply nth_error_In; eauto|eassumption|eassumption|].
          exists (n' :: ms'). split; constructor; auto. exists t, y'. auto. }
        destruct G as (ms' & G1 & G2). exists (total ms' :: ns'). cbn [combine]. split; constructor; auto.
        + exists k, ms'. auto.
        + clear - G2 Q_refl Q_add. induction G2; cbn [total fold_right]; auto. }
    destruct G as (ns' & G1 & G2). eexists. split; [|apply Q_total; exact G2].
    apply Forall2_length in H2. econstructor; eauto. congruence.
Qed.
End Copy.

(** ** Strings without unused capacity *)
Lemma Forall2_map_l : forall A B C (P : B -> C -> Prop) (g : A -> B) l l',
  Forall2 (fun x y => P (g x) y) l l' -> Forall2 P (map g l) l'.
Proof. intros A B C P g l l' H. induction H; cbn [map]; auto. Qed.
Lemma Forall2_map_r : forall A B C (P : A -> C -> Prop) (g : B -> C) l l',
  Forall2 (fun x y => P x (g y)) l l' -> Forall2 P l (map g l').
Proof. intros A B C P g l l' H. induction H; cbn [map]; auto. Qed.
Lemma Forall2_map_id : forall A (P : A -> A -> Prop) (g : A -> A) l, Forall (fun x => P x (g x)) l -> Forall2 P l (map g l).
Proof. intros A P g l H. induction H; cbn [map]; auto. Qed.

Lemma alike_shrunk : forall v, alike (fun b c c' => c' = N.min c (len b)) eq v (shrunk v).
Proof.
  induction v using val_ind'; cbn [shrunk]; try (constructor; auto; fail).
  - constructor; auto. now apply Forall2_map_id.
  - constructor. now apply Forall2_map_id.
  - apply AlBag with (map shrunk l); [now apply Forall2_map_id|reflexivity].
  - constructor. apply Forall2_map_id. eapply Forall_impl; [|exact H]. intros fs Hfs. now apply Forall2_map_id.
Qed.

Lemma alike_sim : forall R v v', sim R v v' ->
  alike (fun b c c' => len b <= c -> c = c') R (shrunk v) (shrunk v').
Proof.
  intros R v. induction v using val_ind'; intros w Hw; inversion Hw; subst; cbn [shrunk]; try (constructor; auto; fail).
  - constructor. intros Hl. lia.
  - constructor; auto. apply Forall2_map_l, Forall2_map_r. eapply Forall2_impl_in; eauto.
  - constructor. apply Forall2_map_l, Forall2_map_r. eapply Forall2_impl_in; eauto.
  - econstructor; [|apply Permutation_map; eassumption].
    apply Forall2_map_l, Forall2_map_r. eapply Forall2_impl_in; eauto.
  - constructor. apply Forall2_map_l, Forall2_map_r. eapply Forall2_impl_in; [|eauto].
    eapply Forall_impl; [|exact H]. intros fs Hfs fs' Hf. apply Forall2_map_l, Forall2_map_r. eapply Forall2_impl_in; eauto.
Qed.

Lemma fold_max_perm : forall l l', Permutation l l' ->
  fold_right (fun x n => Nat.max (depth x) n) 1%nat l = fold_right (fun x n => Nat.max (depth x) n) 1%nat l'.
Proof. intros l l' H. induction H; cbn [fold_right]; lia. Qed.
Lemma fold_max_all : forall (P : val -> val -> Prop) l l', Forall (fun x => forall y, P x y -> depth x = depth y) l -> Forall2 P l l' ->
  fold_right (fun x n => Nat.max (depth x) n) 1%nat l = fold_right (fun x n => Nat.max (depth x) n) 1%nat l'.
Proof.
  intros P l l' H HF. induction HF; cbn [fold_right]; auto. inversion H; subst. rewrite IHHF by auto.
  now rewrite (H3 y H0).
Qed.
Lemma alike_depth : forall S' R v v', alike S' R v v' -> depth v = depth v'.
Proof.
  intros S' R v. induction v using val_ind'; intros w Hw; inversion Hw; subst; cbn [depth]; auto.
  - f_equal. eapply fold_max_all; eauto.
  - f_equal. eapply fold_max_all; eauto.
  - f_equal. rewrite <- (fold_max_perm _ _ H2). eapply fold_max_all; eauto.
  - do 2 f_equal. match goal with H0 : Forall2 (Forall2 _) ls _ |- _ => clear Hw; induction H0 as [|fs fs' ls ls' Hf _ IH] end; cbn [fold_right]; auto.
    inversion H as [|? ? Hfs Hls]; subst. rewrite (IH Hls). f_equal. eapply fold_max_all; eauto.
Qed.

Lemma depth_shrunk : forall v, depth (shrunk v) = depth v.
Proof. intros v. symmetry. eapply alike_depth, alike_shrunk. Qed.
Lemma depth_copy : forall R v v', sim R v v' -> depth v = depth v'.
Proof.
  intros R v v' H. rewrite <- (depth_shrunk v), <- (depth_shrunk v'). eapply alike_depth, alike_sim, H.
Qed.

Lemma takes_shrunk : forall E t v n, takes E t v n -> exists n', takes E t (shrunk v) n' /\ n' <= n.
Proof.
  intros E t v n H.
  destruct (takes_alike E (fun b c c' => c' = N.min c (len b)) eq (fun a b => b <= a)) with
    (f := S (depth v)) (v := v) (t := t) (v' := shrunk v) (n := n) as (n' & H1 & H2); auto; try (intros; lia).
  - intros k a b Hab. apply N.mul_le_mono_l. exact Hab.
  - apply alike_shrunk.
  - eauto.
Qed.

Lemma takes_copy : forall R E t v v' n, (R = eq \/ R = N.le) -> sim R v v' -> takes E t (shrunk v) n ->
  exists n', takes E t (shrunk v') n' /\ R n n'.
Proof.
  intros R E t v v' n HR Hs Ht.
  apply (takes_alike E (fun b c c' => len b <= c -> c = c') R R) with (f := S (depth (shrunk v))) (v := shrunk v);
    auto using alike_sim; destruct HR; subst; intros; try lia; auto using N.le_refl, N.add_le_mono, N.mul_le_mono_l;
    split; lia.
Qed.

(** No strings at all. *)
Inductive no_strings : val -> Prop :=
| NsB b : no_strings (VB b)
| NsVec c l : Forall no_strings l -> no_strings (VVec c l)
| NsSeq l : Forall no_strings l -> no_strings (VSeq l)
| NsBag l : Forall no_strings l -> no_strings (VBag l)
| NsNone : no_strings (VOpt None)
| NsSome v : no_strings v -> no_strings (VOpt (Some v))
| NsVar i v : no_strings v -> no_strings (VVar i v)
| NsVarNone : no_strings VVarNone
| NsObj c ls : Forall (Forall no_strings) ls -> no_strings (VObj c ls).

Lemma map_id_in : forall A (g : A -> A) l, Forall (fun x => g x = x) l -> map g l = l.
Proof. intros A g l H. induction H; cbn [map]; congruence. Qed.
Lemma Forall_mp : forall A (P Q : A -> Prop) l, Forall (fun x => P x -> Q x) l -> Forall P l -> Forall Q l.
Proof. intros A P Q l H HP. induction HP; constructor; inversion H; subst; auto. Qed.
Lemma shrunk_none : forall v, no_strings v -> shrunk v = v.
Proof.
  induction v using val_ind'; intros Hn; inversion Hn; subst; cbn [shrunk]; f_equal; auto.
  - apply map_id_in. eapply Forall_mp; eauto.
  - apply map_id_in. eapply Forall_mp; eauto.
  - apply map_id_in. eapply Forall_mp; eauto.
  - f_equal; auto.
  - apply map_id_in. eapply Forall_mp; [|eassumption]. eapply Forall_impl; [|exact H].
    intros fs Hfs Hf. cbn beta. apply map_id_in. eapply Forall_mp; eauto.
Qed.
Lemma Forall2_mp : forall A (P : A -> A -> Prop) (Q : A -> Prop) l l',
  Forall (fun x => forall y, P x y -> Q x -> Q y) l -> Forall2 P l l' -> Forall Q l -> Forall Q l'.
Proof. intros A P Q l l' H HF. induction HF; intros HQ; constructor; inversion H; inversion HQ; subst; eauto. Qed.
Lemma no_strings_sim : forall R v w, sim R v w -> no_strings v -> no_strings w.
Proof.
  intros R v. induction v using val_ind'; intros w Hw Hn; inversion Hw; subst; inversion Hn; subst; auto;
    try (constructor; auto; fail); try (constructor; eapply Forall2_mp; eauto; fail).
  - constructor. eapply Permutation_Forall; [eassumption|]. eapply Forall2_mp; eauto.
  - constructor. eapply Forall2_mp; [|eassumption|eassumption]. eapply Forall_impl; [|exact H].
    intros fs Hfs fs' Hf Hq. cbn beta in *. eapply Forall2_mp; eauto.
Qed.
