(** What maps and sets hold that are restored in place over other contents, with proofs: property
    C20 for the containers that do not replace their contents. *)
From Coq Require Import List NArith Arith Bool Lia Permutation.
From Coq.Strings Require Import Byte.
From Verif Require Import Base Syntax Prog Serializers Api Traverse Spec ProgFacts EnvFacts ValFacts Pack
  RegistryFacts Unpack ApiFacts Examples PropMemory PropLaws Robust RobustFacts.
Import ListNotations.
Local Open Scope N_scope.

(** ** Specification *)

(** Whether a container may hold equivalent elements. *)
Definition multi (k : assoc) : bool := match k with AOrd m _ | AHash m _ => m end.
(** Two elements have equivalent keys. *)
Definition equivalent (E : env) (k : assoc) (t : ty) (x y : val) : Prop :=
  match k with
  | AOrd _ _ => less E (TAssoc k t) x y = false /\ less E (TAssoc k t) y x = false
  | AHash _ _ => keq E (TAssoc k t) x y = true
  end.
(** [picked a l]: [a] is [l] without some of its elements. *)
Inductive picked : list val -> list val -> Prop :=
| PickedNil : picked [] []
| PickedTake x a l : picked a l -> picked (x :: a) (x :: l)
| PickedSkip x a l : picked a l -> picked a (x :: l).

(** [merged E k t old xs out]: [out] are the elements [old] together with those of the elements
    [xs] whose keys are not there yet, or with all of them if the container may hold equivalent
    elements.  The elements [old] of an ordered container stay in their order, and a container that
    was ordered by its comparator still is. *)
Definition merged (E : env) (k : assoc) (t : ty) (old xs out : list val) : Prop :=
  (exists added, picked added xs /\ Permutation out (old ++ added) /\
     (multi k = true -> added = xs) /\
     (multi k = false -> forall pre x suf, added = pre ++ x :: suf ->
        forall y, In y (old ++ pre) -> ~ equivalent E k t x y) /\
     (forall x, In x xs -> In x added \/ exists y, In y out /\ equivalent E k t x y)) /\
  match k with
  | AOrd m _ => picked old out /\
    ((forall a, less E (TAssoc k t) a a = false) ->
     (forall a b c, less E (TAssoc k t) a b = true -> less E (TAssoc k t) b c = true ->
        less E (TAssoc k t) a c = true) ->
     sorted_by m (less E (TAssoc k t)) old -> sorted_by m (less E (TAssoc k t)) out)
  | AHash _ _ => True
  end.

(** ** Proof *)
Lemma picked_refl : forall l, picked l l.
Proof. induction l; constructor; auto. Qed.
Lemma picked_snoc : forall a l x, picked a l -> picked (a ++ [x]) (l ++ [x]).
Proof. intros a l x H. induction H; cbn [app]; constructor; auto. constructor. Qed.
Lemma picked_skip_end : forall a l x, picked a l -> picked a (l ++ [x]).
Proof. intros a l x H. induction H; cbn [app]; constructor; auto. constructor. Qed.
Lemma picked_insert : forall lt x a l, picked a l -> picked a (insert_sorted lt x l).
Proof.
  intros lt x a l H. induction H; cbn [insert_sorted]; [constructor; constructor| |].
  - destruct (lt x x0); [constructor|]; constructor; auto.
  - destruct (lt x x0); [constructor|]; constructor; auto.
Qed.

Lemma merged_nil : forall E k t old, merged E k t old [] old.
Proof.
  intros E k t old. split.
  - exists []. split; [constructor|]. split; [now rewrite app_nil_r|]. split; [auto|].
    split; [|intros x []]. intros _ pre x suf H. now destruct pre.
  - destruct k; auto. split; [apply picked_refl|auto].
Qed.

Lemma snoc_split : forall (l : list val) z pre x suf, l ++ [z] = pre ++ x :: suf ->
  (l = pre /\ z = x /\ suf = []) \/ exists s, suf = s ++ [z] /\ l = pre ++ x :: s.
Proof.
  intros l z pre x suf H. destruct suf as [|s0 suf'] using rev_ind.
  - left. apply app_inj_tail in H. destruct H. auto.
  - right. clear IHsuf'. exists suf'. rewrite app_comm_cons, app_assoc in H. apply app_inj_tail in H.
    destruct H as (-> & ->). auto.
Qed.

Lemma merged_skip : forall E k t old xs out x, merged E k t old xs out -> multi k = false ->
  (exists y, In y out /\ equivalent E k t x y) -> merged E k t old (xs ++ [x]) out.
Proof.
  intros E k t old xs out x ((added & Hp & Hperm & Hm & Hn & Hall) & Ho) Hk Hy. split; [|exact Ho].
  exists added. split; [now apply picked_skip_end|]. split; [exact Hperm|]. split; [congruence|].
  split; [exact Hn|]. intros z Hz. apply in_app_or in Hz. destruct Hz as [Hz|[<-|[]]]; auto.
Qed.

Lemma merged_add : forall E k t old xs out out' x, merged E k t old xs out ->
  (multi k = false -> forall y, In y out -> ~ equivalent E k t x y) ->
  Permutation out' (x :: out) ->
  match k with
  | AOrd m _ => out' = insert_sorted (less E (TAssoc k t)) x out
  | AHash _ _ => True
  end -> merged E k t old (xs ++ [x]) out'.
Proof.
  intros E k t old xs out out' x ((added & Hp & Hperm & Hm & Hn & Hall) & Ho) Hk Hq Ho'. split.
  - exists (added ++ [x]). split; [now apply picked_snoc|]. split.
    { rewrite Hq, Hperm, app_assoc. apply Permutation_cons_append. }
    split; [intros H; now rewrite (Hm H)|]. split.
    + intros H pre z suf Hz y Hy. apply snoc_split in Hz. destruct Hz as [(<- & <- & ->)|(s & -> & ->)].
      * apply Hk; auto. eapply Permutation_in; [apply Permutation_sym, Hperm|exact Hy].
      * eapply Hn; eauto.
    + intros z Hz. apply in_app_or in Hz. destruct Hz as [Hz|[<-|[]]].
      * destruct (Hall z Hz) as [H|(y & Hy & He)]; [left; apply in_or_app; auto|].
        right. exists y. split; auto. eapply Permutation_in; [apply Permutation_sym, Hq|now right].
      * left. apply in_or_app. right. now left.
  - destruct k as [m mp|]; auto. subst out'. destruct Ho as (Ho1 & Ho2).
    split; [now apply picked_insert|]. intros Hir Htr Hs. apply sorted_insert; auto.
    intros -> y Hy. cbn [multi equivalent] in Hk. specialize (Hk eq_refl y Hy).
    destruct (less E (TAssoc (AOrd false mp) t) x y); auto.
    destruct (less E (TAssoc (AOrd false mp) t) y x); auto.
Qed.

Lemma emplace_merged : forall E k t old xs ys x, wf_env any E -> merged E k t old xs ys ->
  exists ys', emplace E k t (holding k ys) x = Some (holding k ys') /\ merged E k t old (xs ++ [x]) ys'.
Proof.
  intros E k t old xs ys x wf Hm. destruct k as [m mp|m mp]; cbn [holding emplace].
  - destruct (negb m && _) eqn:Hx; eexists; (split; [reflexivity|]).
    + apply andb_true_iff in Hx. destruct Hx as (Hn & Hx). apply existsb_exists in Hx.
      destruct Hx as (y & Hy & He). apply andb_true_iff in He. destruct He as (H1 & H2).
      apply negb_true_iff in Hn, H1, H2. apply merged_skip; auto. exists y. split; auto. split; auto.
    + eapply merged_add; eauto; [|apply insert_sorted_perm]. cbn [multi equivalent].
      intros -> y Hy (H1 & H2). cbn [negb andb] in Hx. assert (Ht : existsb (fun y => negb (less E (TAssoc (AOrd false mp) t) x y) &&
        negb (less E (TAssoc (AOrd false mp) t) y x)) ys = true)
        by (apply existsb_exists; exists y; split; auto; now rewrite H1, H2). congruence.
  - destruct (negb m && _) eqn:Hx; eexists; (split; [reflexivity|]).
    + apply andb_true_iff in Hx. destruct Hx as (Hn & Hx). apply existsb_exists in Hx.
      destruct Hx as (y & Hy & He). apply negb_true_iff in Hn. apply merged_skip; auto. exists y. auto.
    + eapply merged_add; eauto; [|apply (wf_hplace _ _ wf)]. cbn [multi equivalent].
      intros -> y Hy He. cbn [negb andb] in Hx.
      assert (Ht : existsb (keq E (TAssoc (AHash false mp) t) x) ys = true)
        by (apply existsb_exists; exists y; auto). congruence.
Qed.

Lemma onto_merged : forall E f k t l old, wf_env any E -> has_ty E (TAssoc k t) (holding k l) ->
  (depth (holding k l) < S f)%nat -> len (enc_root E (TAssoc k t) (holding k l)) < two64 ->
  exists xs out, Forall2 copy_of l xs /\ merged E k t old xs out /\
    round_trip_onto E (S f) (TAssoc k t) (holding k l) (holding k old) (holding k out).
Proof.
  intros E f k t l old wf Ht Hd Hl.
  assert (any_any : forall c w : N, any w -> (fun _ _ : N => True) c w) by auto.
  assert (any_max : forall c w : N, (fun _ _ : N => True) c w -> c <= N.max w c) by (intros; lia).
  pose proof (unpack_all any E wf (fun _ _ : N => True) N.le any_any any_max f) as U.
  assert (HH : len l < two64 /\ constructible E t /\ Forall (has_ty E t) l).
  { destruct k; cbn [holding] in Ht; inversion Ht; subst; auto. }
  destruct HH as (Hlen & Hc & Hall).
  assert (Hs : shallow f l /\ (1 < f)%nat).
  { destruct k; cbn [holding depth] in Hd; apply fold_depth; lia. }
  destruct Hs as (Hs & H1n).
  destruct (reads_accum val val val
      (fun acc (_ : unit) => bind (construct E t) (fun d => bind (ser (with_ E MUnpacking f) t d)
         (fun x => leave_elem E k t x (of_opt (emplace E k t acc x)))))
      (enc E t) copy_of (fun xs s => exists ys, s = holding k ys /\ merged E k t old xs ys) false l)
      with (s0 := holding k old)
      as (xs & s & Hsim & (ys & -> & Hk) & Hr).
  - intros pre v0 suf xs s -> Hpre (ys & -> & Hk).
    destruct (u_fresh_ser any E wf _ N.le any_any (with_ E MUnpacking f) f (proj1 U) t v0)
      as (x & Hsx & Hr); auto.
    { rewrite Forall_forall in Hall. apply Hall. apply in_or_app. right. now left. }
    { eapply shallow_in; eauto. apply in_or_app. right. now left. }
    destruct (emplace_merged E k t old xs ys x wf Hk) as (ys' & He & Hy).
    exists x, (holding k ys'). split; [auto|]. split; [exists ys'; split; auto|].
    eapply reads_eq; [apply Hr|apply app_nil_r]. rewrite He. apply reads_leave_elem, reads_ret.
  - exists old. split; [reflexivity|apply merged_nil].
  - exists xs, ys. split; [exact Hsim|]. split; [exact Hk|]. apply onto_root; auto.
    cbn [apply_elem]. unfold ser_assoc, ser_container_size.
    replace (elements (holding k old)) with (Some old) by (destruct k; reflexivity).
    cbn [is_footprinting is_unpacking of_opt bind].
    replace (encb E (TAssoc k t) (holding k l)) with (wsize E (len l) ++ concat (map (enc E t) l))
      by (destruct k; reflexivity).
    eapply reads_bind.
    { apply (u_size E _ N.le (with_ E MUnpacking f) f (proj1 U)) with (x := len l); auto; lia. }
    unfold len at 1. rewrite Nat2N.id. exact Hr.
Qed.

(** A map or set that is restored in place is merged with the serialized elements. *)
Theorem C20_associative_merges : forall E f k t l old,
  wf_env any E -> has_ty E (TAssoc k t) (holding k l) -> (depth (holding k l) < f)%nat ->
  len (enc_root E (TAssoc k t) (holding k l)) < two64 ->
  exists xs out, Forall2 copy_of l xs /\ merged E k t old xs out /\
    round_trip_onto E f (TAssoc k t) (holding k l) (holding k old) (holding k out).
Proof.
  intros E f k t l old wf Ht Hd Hl. destruct f; [lia|]. now apply onto_merged.
Qed.
Print Assumptions C20_associative_merges.

(** A map whose key 2 keeps its value. *)
Example C20_map_case :
  let l := [VSeq [w4 1; s_ab]; VSeq [w4 2; s_ab]; VSeq [w4 4; s_long]] in
  let old := [VSeq [w4 2; s_long]; VSeq [w4 3; s_ab]] in
  has_ty (ex true) t_map (VSeq l) /\
  exists xs out, Forall2 copy_of l xs /\ merged (ex true) (AOrd false true) (TPair OINT TString) old xs out /\
    round_trip_onto (ex true) 12 t_map (VSeq l) (VSeq old) (VSeq out) /\
    length out = 4%nat /\ In (VSeq [w4 2; s_long]) out.
Proof.
  cbv zeta. assert (Ht : has_ty (ex true) t_map (VSeq [VSeq [w4 1; s_ab]; VSeq [w4 2; s_ab]; VSeq [w4 4; s_long]])) by ht.
  split; [exact Ht|].
  destruct (C20_associative_merges (ex true) 12 (AOrd false true) (TPair OINT TString)
      [VSeq [w4 1; s_ab]; VSeq [w4 2; s_ab]; VSeq [w4 4; s_long]] [VSeq [w4 2; s_long]; VSeq [w4 3; s_ab]])
    as (xs & out & Hc & Hm & Hr); [apply ex_wf; exact I|exact Ht|vm_compute; lia|vm_compute; reflexivity|].
  exists xs, out. split; [exact Hc|]. split; [exact Hm|]. split; [exact Hr|].
  destruct Hr as (s & n & Hs & Hd). vm_compute in Hs. injection Hs as <-. vm_compute in Hd.
  injection Hd as <- _. split; [reflexivity|]. right. left. reflexivity.
Qed.
