(** Reading arbitrary bytes: proofs. *)
From Coq Require Import List NArith Arith Bool Lia Permutation.
From Coq.Strings Require Import Byte.
From Verif Require Import Base Syntax Prog Serializers Traverse Spec ProgFacts EnvFacts
  RegistryFacts Unpack ApiFacts Robust.
From Verif Require Pack.
Import ListNotations.
Local Open Scope N_scope.

(** ** Orders *)
Lemma insert_sorted_perm : forall lt x l, Permutation (insert_sorted lt x l) (x :: l).
Proof.
  intros lt x l. induction l as [|y l IH]; cbn [insert_sorted]; [reflexivity|].
  destruct (lt x y); [reflexivity|].
  rewrite IH. apply perm_swap.
Qed.

Lemma sorted_insert : forall multi (lt : val -> val -> bool) x l,
  (forall a, lt a a = false) ->
  (forall a b c, lt a b = true -> lt b c = true -> lt a c = true) ->
  (multi = false -> forall y, In y l -> lt x y = true \/ lt y x = true) ->
  sorted_by multi lt l -> sorted_by multi lt (insert_sorted lt x l).
Proof.
  intros multi lt x l Hir Htr.
  assert (Has : forall a b, lt a b = true -> lt b a = false).
  { intros a b H. destruct (lt b a) eqn:E; auto. rewrite <- (Hir a). symmetry. eauto. }
  induction l as [|y l IH]; intros Hd Hs; cbn [insert_sorted].
  - cbn [sorted_by]. auto.
  - cbn [sorted_by] in Hs. destruct Hs as (Hy & Hs).
    destruct (lt x y) eqn:Exy.
    + cbn [sorted_by]. split; [|split; auto].
      constructor; [split; auto|].
      eapply Forall_impl; [|exact Hy]. intros z (H1 & H2). split.
      * destruct (lt z x) eqn:E; auto. rewrite <- H1. symmetry. eauto.
      * intros Hm. eauto.
    + cbn [sorted_by]. split.
      * apply Forall_forall. intros z Hz.
        apply (Permutation_in _ (insert_sorted_perm lt x l)) in Hz.
        rewrite Forall_forall in Hy. destruct Hz as [<-|Hz]; [|auto].
        split; auto. intros Hm. destruct (Hd Hm y) as [H|H]; [now left|congruence|auto].
      * apply IH; auto. intros Hm z Hz. apply Hd; auto. now right.
Qed.

Lemma distinct_perm : forall (eqk : val -> val -> bool), (forall x y, eqk x y = eqk y x) ->
  forall l l', Permutation l l' -> distinct_by eqk l -> distinct_by eqk l'.
Proof.
  intros eqk Hs l l' H. induction H; cbn [distinct_by]; auto.
  - intros (H1 & H2). split; auto.
    apply Forall_forall. intros y Hy. rewrite Forall_forall in H1. apply H1.
    apply (Permutation_in _ (Permutation_sym H)); auto.
  - intros (H1 & H2 & H3). inversion H1; subst. split; [|split; auto].
    constructor; auto. now rewrite Hs.
Qed.

(** ** Executions on arbitrary input *)
Section Runs.
Variable U : Prop.

(** [runs p vf s Q]: with enough fuel, [p] started on the bytes [s] always ends in the same
    way: in a result that satisfies [Q], or in an error that is [caught]. *)
Definition runs {A} (p : nat -> prog A) (vf : bool) (s : bytes) (Q : A -> bytes -> Prop) : Prop :=
  exists f0 (r : res (A * bool * bytes)),
    (forall f, (f0 <= f)%nat -> interp (reader RtErr) (p f) vf s = r) /\
    match r with Ok (a, _, s') => Q a s' | Err e => caught U e end.

Lemma runs_ret : forall A (a : A) vf s (Q : A -> bytes -> Prop), Q a s ->
  runs (fun _ => Ret a) vf s Q.
Proof. intros A a vf s Q H. exists O, (Ok (a, vf, s)). split; auto. Qed.

Lemma runs_fail : forall A e vf s (Q : A -> bytes -> Prop), caught U e ->
  runs (fun _ => Fail e) vf s Q.
Proof. intros A e vf s Q H. exists O, (Err e). split; auto. Qed.

Lemma runs_impl : forall A (p : nat -> prog A) vf s (Q Q' : A -> bytes -> Prop),
  runs p vf s Q ->
  (forall a s', (length s' <= length s)%nat -> Q a s' -> Q' a s') -> runs p vf s Q'.
Proof.
  intros A p vf s Q Q' (f0 & r & Hr & Hq) H. exists f0, r. split; auto.
  specialize (Hr f0 (Nat.le_refl _)).
  destruct r as [[[a vf'] s']|e]; auto. apply H; auto.
  apply reader_local in Hr. destruct Hr as (i & -> & _). rewrite app_length. lia.
Qed.

Lemma runs_bind : forall A B (p : nat -> prog A) (k : nat -> A -> prog B) vf s Q Q',
  runs p vf s Q ->
  (forall a vf' s', (length s' <= length s)%nat -> Q a s' -> runs (fun f => k f a) vf' s' Q') ->
  runs (fun f => bind (p f) (k f)) vf s Q'.
Proof.
  intros A B p k vf s Q Q' (f0 & r & Hr & Hq) H.
  destruct r as [[[a vf'] s']|e].
  - assert (Hl : (length s' <= length s)%nat).
    { specialize (Hr f0 (Nat.le_refl _)). apply reader_local in Hr.
      destruct Hr as (i & -> & _). rewrite app_length. lia. }
    destruct (H a vf' s' Hl Hq) as (f1 & r1 & Hr1 & Hq1).
    exists (Nat.max f0 f1), r1. split; auto. intros f Hf.
    rewrite interp_bind, Hr by lia. apply Hr1. lia.
  - exists f0, (Err e). split; auto. intros f Hf. rewrite interp_bind, Hr by lia. reflexivity.
Qed.

Lemma runs_contig : forall A b (k : nat -> bytes -> prog A) vf s Q,
  (forall x s', s = x ++ s' -> length x = length b -> runs (fun f => k f x) vf s' Q) ->
  runs (fun f => Contig b (k f)) vf s Q.
Proof.
  intros A b k vf s Q H.
  destruct (split_at (length b) s) as [[x s']|] eqn:E.
  - pose proof (split_at_inv _ _ _ _ _ E) as (H1 & H2).
    destruct (H x s' H1 H2) as (f0 & r & Hr & Hq). exists f0, r. split; auto.
    intros f Hf. cbn [interp contig reader]. rewrite E. auto.
  - exists O, (Err RtErr). split; [|exact I]. intros f _. cbn [interp contig reader]. now rewrite E.
Qed.

Lemma runs_count : forall A n (p : nat -> prog A) vf s Q,
  runs p vf s Q -> runs (fun f => Count n (p f)) vf s Q.
Proof. intros A n p vf s Q H. exact H. Qed.
Lemma runs_note : forall A n (p : nat -> prog A) vf s Q,
  runs p vf s Q -> runs (fun f => Note n (p f)) vf s Q.
Proof. intros A n p vf s Q H. exact H. Qed.
Lemma runs_setv : forall A n (p : nat -> prog A) vf s Q,
  runs p n s Q -> runs (fun f => SetV n (p f)) vf s Q.
Proof. intros A n p vf s Q H. exact H. Qed.
Lemma runs_getv : forall A (k : nat -> bool -> prog A) vf s Q,
  runs (fun f => k f vf) vf s Q -> runs (fun f => GetV (k f)) vf s Q.
Proof. intros A k vf s Q H. exact H. Qed.

Lemma runs_catch : forall A t (p : nat -> prog A) vf s Q,
  runs p vf s Q -> runs (fun f => catch t (p f)) vf s Q.
Proof.
  intros A t p vf s Q (f0 & r & Hr & Hq).
  destruct r as [x|e].
  - exists f0, (Ok x). split; auto. intros f Hf. apply interp_catch_ok. auto.
  - exists f0, (Err (bump t e)). split.
    + intros f Hf. apply interp_catch_err; auto.
      intros i b s0 e0 H. cbn [contig reader] in H.
      destruct (split_at (length b) s0) as [[? ?]|]; inversion H; subst. reflexivity.
    + destruct e; auto.
Qed.

Lemma runs_shift : forall A (p : nat -> prog A) vf s Q,
  runs (fun f => p (S f)) vf s Q -> runs p vf s Q.
Proof.
  intros A p vf s Q (f0 & r & Hr & Hq). exists (S f0), r. split; auto.
  intros f Hf. destruct f; [lia|]. apply Hr. lia.
Qed.

(** A loop over elements; each step either consumes something or satisfies [D]. *)
Lemma runs_mapP : forall A B (g : nat -> A -> prog B) (P D : A -> B -> Prop) l vf s,
  (forall x vf' s', In x l -> (length s' <= length s)%nat ->
     runs (fun f => g f x) vf' s' (fun y s'' => P x y /\ ((length s'' < length s')%nat \/ D x y))) ->
  runs (fun f => mapP (g f) l) vf s
    (fun ys s' => Forall2 P l ys /\ ((length s' < length s)%nat \/ Forall2 D l ys)).
Proof.
  intros A B g P D l. induction l as [|x l IH]; intros vf s H.
  - apply runs_ret. split; [constructor|]. right. constructor.
  - apply runs_bind with (Q := fun y s' => P x y /\ ((length s' < length s)%nat \/ D x y))
      (k := fun f y => bind (mapP (g f) l) (fun ys => Ret (y :: ys))).
    { apply H; auto. now left. }
    intros y vf1 s1 Hl1 (Hp & Hd).
    apply runs_bind with (k := fun f ys => Ret (y :: ys))
      (Q := fun ys s' => Forall2 P l ys /\ ((length s' < length s1)%nat \/ Forall2 D l ys)).
    { apply IH. intros z vf2 s2 Hz Hl2. apply H; [now right|lia]. }
    intros ys vf2 s2 Hl2 (Hps & Hds). apply runs_ret. split; [now constructor|].
    destruct Hd as [Hd|Hd]; [left; lia|]. destruct Hds as [Hds|Hds]; [left; lia|].
    right. now constructor.
Qed.

(** A loop with an invariant. *)
Lemma runs_foldP : forall A B (g : nat -> B -> A -> prog B) (I : B -> bytes -> Prop) l b vf s,
  I b s ->
  (forall b' x vf' s', In x l -> (length s' <= length s)%nat -> I b' s' ->
     runs (fun f => g f b' x) vf' s' I) ->
  runs (fun f => foldP (g f) l b) vf s I.
Proof.
  intros A B g I l. induction l as [|x l IH]; intros b vf s Hi H.
  - now apply runs_ret.
  - apply runs_bind with (Q := I) (k := fun f acc => foldP (g f) l acc).
    { apply H; auto. now left. }
    intros a vf1 s1 Hl1 Ha. apply IH; auto.
    intros b' y vf2 s2 Hy Hl2 Hi2. apply H; auto; [now right|lia].
Qed.
End Runs.

Section Robust.
Variable E : env.
Hypothesis wf : wf_env any E.
Variable T : ty -> Prop.
Hypothesis rd : readable E T.
Variable U : Prop.
Hypothesis HU : forall t, T t -> by_flag t = true -> U.

Notation R := (fun f => with_ E MUnpacking f).
Notation runs := (runs U).

(** ** Constructed objects are valid *)
Lemma all_of : forall A B (g : A -> option B) (P : A -> B -> Prop) l xs,
  opt_all (map g l) = Some xs -> (forall a b, In a l -> g a = Some b -> P a b) -> Forall2 P l xs.
Proof.
  intros A B g P l. induction l as [|a l IH]; intros xs H HP; cbn [map opt_all] in H.
  - inversion H. constructor.
  - destruct (g a) as [b|] eqn:Eg; [|discriminate].
    destruct (opt_all (map g l)) as [r|] eqn:Er; cbn in H; [|discriminate].
    inversion H; subst. constructor; [apply HP; auto; now left|].
    apply IH; auto. intros; apply HP; auto. now right.
Qed.

Lemma dflt_valid : forall t o, T t -> dflt E t = Some o -> valid E t o.
Proof.
  intros t. induction t using ty_ind'; intros o Ht Ho;
    pose proof (rd_parts _ _ rd _ Ht) as Hp; cbn [parts] in Hp; cbn [dflt] in Ho;
    try (inversion Ho; subst; constructor; try apply repeat_length; try (cbn; lia); auto; fail);
    try (destruct Hp; fail).
  - (* array *)
    destruct (dflt E t) as [x|] eqn:Ex; inversion Ho; subst. constructor; [apply repeat_length|].
    apply Forall_forall. intros y Hy. apply repeat_spec in Hy. subst. auto.
  - (* assoc *)
    destruct k as [multi mp|multi mp]; inversion Ho; subst; constructor; cbn; auto.
  - (* pair *)
    destruct (dflt E t1) as [x|] eqn:E1; [|discriminate].
    destruct (dflt E t2) as [y|] eqn:E2; inversion Ho; subst.
    destruct Hp. constructor; auto.
  - (* tuple *)
    destruct (opt_all (map (dflt E) l)) as [xs|] eqn:Ex; inversion Ho; subst. constructor.
    eapply all_of; eauto. intros a b Ha Hb. rewrite Forall_forall in H, Hp. auto.
  - (* variant *)
    destruct (bytecopy E (TVariant l)) eqn:Eb.
    + inversion Ho; subst. apply VaVariantB; auto.
      unfold len. rewrite repeat_length. lia.
    + destruct l as [|t0 ts]; [discriminate|].
      destruct (dflt E t0) as [x|] eqn:Ex; inversion Ho; subst.
      destruct Hp as [Hp|Hp]; [congruence|].
      inversion Hp as [|? ? (Ht0 & _) _]; subst. inversion H; subst.
      apply (VaVariant E _ 0 t0); auto.
  - (* class *)
    destruct Hp as ((k & Hk) & _). rewrite Hk in Ho.
    destruct (cbyte k && negb (cvirt k)) eqn:Eb.
    + apply andb_true_iff in Eb. destruct Eb as (Eb & Ev). apply negb_true_iff in Ev.
      inversion Ho; subst. eapply VaClassB; eauto. unfold len. rewrite repeat_length. lia.
    + destruct (cdefault k) as [ls|] eqn:Ed; inversion Ho; subst.
      eapply (rd_ctor _ _ rd); eauto. intros Hb. rewrite Hb in Eb. cbn in Eb.
      now apply negb_false_iff in Eb.
Qed.

Lemma recon_valid : forall t o, T t -> recon E t = Some o -> valid E t o.
Proof.
  intros t. induction t using ty_ind'; intros o Ht Ho; cbn [recon] in Ho;
    try (apply dflt_valid; auto; fail).
  - (* tuple *)
    pose proof (rd_parts _ _ rd _ Ht) as Hp; cbn [parts] in Hp.
    destruct (opt_all (map (recon E) l)) as [xs|] eqn:Ex; inversion Ho; subst. constructor.
    eapply all_of; eauto. intros a b Ha Hb. rewrite Forall_forall in H, Hp. auto.
  - (* class *)
    pose proof (rd_parts _ _ rd _ Ht) as Hp; cbn [parts] in Hp.
    destruct Hp as ((k & Hk) & _). rewrite Hk in Ho.
    destruct (cbyte k && negb (cvirt k)) eqn:Eb.
    + apply andb_true_iff in Eb. destruct Eb as (Eb & Ev). apply negb_true_iff in Ev.
      inversion Ho; subst. eapply VaClassB; eauto. unfold len. rewrite repeat_length. lia.
    + assert (Hb : cbyte k = true -> cvirt k = true).
      { intros Hb. rewrite Hb in Eb. cbn in Eb. now apply negb_false_iff in Eb. }
      destruct (ctag k) as [ls|] eqn:E1; [inversion Ho; subst; eapply (rd_ctor _ _ rd); eauto|].
      destruct (crecon k) as [ls|] eqn:E2; [inversion Ho; subst; eapply (rd_ctor _ _ rd); eauto|].
      destruct (cdefault k) as [ls|] eqn:E3; [inversion Ho; subst; eapply (rd_ctor _ _ rd); eauto|].
      discriminate.
Qed.

Lemma runs_construct : forall t vf s (Q : val -> bytes -> Prop),
  T t -> constructible E t -> (forall o, valid E t o -> Q o s) ->
  runs (fun _ => construct E t) vf s Q.
Proof.
  intros t vf s Q Ht Hc H. unfold construct. apply runs_note.
  unfold constructible in Hc. destruct (recon E t) as [o|] eqn:Er; [|congruence].
  cbn [of_opt]. apply runs_ret. apply H. now apply recon_valid.
Qed.

(** ** Leaves *)
Lemma run_idx : forall t vf s,
  runs (fun _ => with_type_idx E MUnpacking t) vf s (fun _ s' => (length s' + 4 = length s)%nat).
Proof.
  intros t vf s. unfold with_type_idx. apply runs_contig. intros x s' -> Hx.
  rewrite le_length in Hx.
  destruct (negb (validate_index (unle x)) || negb (tix E t =? unle x)).
  - now apply runs_fail.
  - apply runs_ret. rewrite app_length. lia.
Qed.

Lemma run_used : forall t n vf s,
  runs (fun _ => with_mem_used E MUnpacking t n) vf s (fun _ s' => (length s' + 8 = length s)%nat).
Proof.
  intros t n vf s. unfold with_mem_used. apply runs_contig. intros x s' -> Hx.
  rewrite le_length in Hx.
  destruct (unle x =? _).
  - apply runs_ret. rewrite app_length. lia.
  - now apply runs_fail.
Qed.

(** Reading through one level: the frame around it takes nothing away. *)
Lemma run_traverse : forall t vs vf s (Q : list val -> bytes -> Prop),
  (forall vs' s' s'', Q vs' s' -> (length s'' <= length s')%nat -> Q vs' s'') ->
  (forall s', (length s' <= length s)%nat ->
     runs (fun f => ap E MUnpacking (R f) t vs) vf s' Q) ->
  runs (fun f => R f t vs) vf s Q.
Proof.
  intros t vs vf s Q Hq H. apply runs_shift. cbn [with_]. unfold traverse.
  destruct (chk E).
  - unfold with_type_idx. cbn [bind]. apply runs_contig. intros x s1 Hs1 Hx.
    destruct (negb (validate_index (unle x)) || negb (tix E t =? unle x)).
    { now apply runs_fail. }
    cbn [bind].
    eapply (runs_bind U _ _ _ (fun f vs' => bind (with_mem_used E MUnpacking t (length vs))
       (fun _ => Ret vs'))).
    { apply runs_catch. apply H. rewrite Hs1, app_length. lia. }
    intros vs' vf2 s2 Hl2 H2.
    eapply (runs_bind U _ _ _ (fun f _ => Ret vs')).
    { apply run_used. }
    intros _ vf3 s3 Hl3 _. apply runs_ret. eapply Hq; eauto.
  - apply H. lia.
Qed.

Lemma run_prim : forall id sz b vf s, length b = sz ->
  runs (fun f => R f (TPrim id sz) [VB b]) vf s
    (fun vs' s' => exists b', vs' = [VB b'] /\ length b' = sz /\ (length s' + sz <= length s)%nat).
Proof.
  intros id sz b vf s Hb. apply run_traverse.
  - intros vs' s' s'' (b' & -> & H1 & H2) Hl. exists b'. repeat split; auto. lia.
  - intros s' Hl. unfold ap. cbn [bytecopy map obj_bytes opt_all option_map concat].
    rewrite app_nil_r. apply runs_contig. intros x s'' -> Hx.
    apply runs_ret. cbn [unflatten obj_bytes obj_setbytes]. exists x.
    rewrite <- Hx, firstn_all. rewrite app_length in Hl. split; auto. split; [congruence|lia].
Qed.

Lemma run_word : forall id sz n vf s,
  runs (fun f => ser_word (R f) id sz n) vf s (fun _ s' => (length s' + sz <= length s)%nat).
Proof.
  intros id sz n vf s. unfold ser_word, ser.
  eapply (runs_bind U _ _ _ (fun f v => match v with VB b => Ret (unle b) | _ => Fail Stuck end)).
  { eapply (runs_bind U _ _ _ (fun f vs => match vs with [x] => Ret x | _ => Fail Stuck end)).
    { apply run_prim. apply le_length. }
    intros vs vf1 s1 Hl1 (b & -> & Hb & Hs).
    apply runs_ret with (Q := fun v s' => (exists b, v = VB b) /\ (length s' + sz <= length s)%nat).
    split; eauto. }
  intros v vf1 s1 Hl1 ((b & ->) & Hs). now apply runs_ret.
Qed.

Lemma run_size : forall n vf s,
  runs (fun f => ser_size (R f) n) vf s (fun _ s' => (length s' < length s)%nat).
Proof.
  intros n vf s. eapply runs_impl; [apply run_word|]. cbn beta. intros. lia.
Qed.

Lemma run_bool : forall t b vf s, T t -> by_flag t = true ->
  runs (fun f => ser_bool (R f) b) vf s (fun _ s' => (length s' < length s)%nat).
Proof.
  intros t b vf s Ht Hf. unfold ser_bool.
  eapply (runs_bind U _ _ _ (fun f n => if n =? 0 then Ret false else if n =? 1 then Ret true
     else Fail UB)).
  { apply run_word. }
  intros n vf1 s1 Hl1 Hs. cbn beta in Hs.
  destruct (n =? 0); [apply runs_ret; lia|]. destruct (n =? 1); [apply runs_ret; lia|].
  apply runs_fail. cbn [caught]. eauto.
Qed.

(** ** The static type of an object and its class *)
Definition dty (t : ty) (v : val) : ty :=
  match t, v with TClass _, VObj d _ => TClass d | _, _ => t end.

(** [v] is an object of type [t], or one of a class derived from the polymorphic class [t]. *)
Definition fits (t : ty) (v : val) : Prop :=
  T (dty t v) /\ valid E (dty t v) v /\
  forall c d ls, t = TClass c -> v = VObj d ls ->
    c = d \/ (is_virtual E t = true /\ In c (chain E d)).

Lemma fits_of : forall t v, T t -> valid E t v -> fits t v.
Proof.
  intros t v Ht Hv. assert (Hd : dty t v = t).
  { destruct t; auto. cbn. destruct v; auto. inversion Hv; subst. reflexivity. }
  unfold fits. rewrite Hd. split; auto. split; auto.
  intros c d ls -> ->. left. inversion Hv; subst. reflexivity.
Qed.

(** What reading into an object leaves: an object of the same class. *)
Definition after (t : ty) (v : val) (s : bytes) (v' : val) (s' : bytes) : Prop :=
  valid E (dty t v) v' /\ ((length s' < length s)%nat \/ (depth v' <= depth v)%nat).

(** *** One level of the recursion *)
Section Level.
Variables n d : nat.
Hypothesis IH : forall t vs vf s, Forall (fits t) vs ->
  (length s < n \/ (length s <= n /\ Forall (fun v => depth v < d) vs))%nat ->
  runs (fun f => R f t vs) vf s
    (fun vs' s' => Forall2 (fun v v' => valid E (dty t v) v') vs vs' /\
       ((length s' < length s)%nat \/ Forall2 (fun v v' => (depth v' <= depth v)%nat) vs vs')).

Lemma run_ser : forall t v vf s, fits t v ->
  (length s < n \/ (length s <= n /\ depth v < d))%nat ->
  runs (fun f => ser (R f) t v) vf s (after t v s).
Proof.
  intros t v vf s Hf Hl. unfold ser.
  eapply (runs_bind U _ _ _ (fun f vs => match vs with [x] => Ret x | _ => Fail Stuck end)).
  { apply IH; [constructor; auto|]. destruct Hl as [Hl|[H1 H2]]; auto. }
  intros vs' vf1 s1 Hl1 (H1 & H2).
  inversion H1 as [|? v' ? ? Hv Hr]; subst. inversion Hr; subst. apply runs_ret.
  split; auto. destruct H2 as [H2|H2]; auto. inversion H2; subst. auto.
Qed.

(** Into a new object, after something has been consumed *)
Lemma run_new : forall t v vf s, T t -> valid E t v -> (length s < n)%nat ->
  runs (fun f => ser (R f) t v) vf s (fun v' _ => valid E t v').
Proof.
  intros t v vf s Ht Hv Hl. pose proof (fits_of t v Ht Hv) as Hf.
  assert (Hd : dty t v = t).
  { destruct t; auto. cbn. destruct v; auto. inversion Hv; subst. reflexivity. }
  eapply runs_impl; [apply run_ser; auto|]. intros v' s' _ (H & _). now rewrite Hd in H.
Qed.

Lemma run_array : forall t vs vf s, Forall (fits t) vs ->
  (length s < n \/ (length s <= n /\ Forall (fun v => depth v < d) vs))%nat ->
  runs (fun f => ser_array (R f) t vs) vf s
    (fun vs' s' => Forall2 (fun v v' => valid E (dty t v) v') vs vs' /\
       ((length s' < length s)%nat \/ Forall2 (fun v v' => (depth v' <= depth v)%nat) vs vs')).
Proof.
  intros t vs vf s Hf Hl. unfold ser_array. destruct vs as [|v vs].
  - apply runs_ret. split; [constructor|]. right. constructor.
  - apply IH; auto.
Qed.

Lemma dty_other : forall t v, (forall c, t <> TClass c) -> dty t v = t.
Proof. intros t v H. destruct t; auto. exfalso. eapply H; eauto. Qed.

Lemma all_fits : forall t l, T t -> Forall (valid E t) l -> Forall (fits t) l.
Proof. intros t l Ht H. eapply Forall_impl; [|exact H]. intros v Hv. now apply fits_of. Qed.

Lemma dty_valid : forall t v, valid E t v -> dty t v = t.
Proof.
  intros t v Hv. destruct t; auto. cbn. destruct v; auto. inversion Hv; subst. reflexivity.
Qed.

Lemma all_valid : forall t l l', Forall (valid E t) l ->
  Forall2 (fun v v' => valid E (dty t v) v') l l' -> Forall (valid E t) l'.
Proof.
  intros t l l' H H2. induction H2; constructor; inversion H; subst; auto.
  now rewrite dty_valid in H0.
Qed.

Lemma resize_valid : forall t n0 x l, Forall (valid E t) l -> valid E t x ->
  Forall (valid E t) (resize n0 x l).
Proof.
  intros t n0 x l Hl Hx. unfold resize. apply Forall_app. split.
  - apply Forall_forall. intros y Hy. rewrite Forall_forall in Hl. apply Hl.
    rewrite <- (firstn_skipn n0 l). apply in_or_app. now left.
  - apply Forall_forall. intros y Hy. apply repeat_spec in Hy. now subst.
Qed.

Lemma run_vector_data : forall t k l vf s, T t -> elem_constructible E t ->
  Forall (valid E t) l ->
  runs (fun _ => construct_vector_data E t k l) vf s (fun l' _ => Forall (valid E t) l').
Proof.
  intros t k l vf s Ht Hc Hl. unfold construct_vector_data. unfold elem_constructible in Hc.
  destruct (defc E t).
  - destruct (dflt E t) as [o|] eqn:Eo; [|congruence]. cbn [of_opt bind].
    apply runs_ret. apply resize_valid; auto. now apply dflt_valid.
  - destruct (copyc E t).
    + eapply (runs_bind U _ _ _ (fun f x => Note (EvAbandon t x) (Ret (resize k x l)))).
      { apply runs_construct with (Q := fun o _ => valid E t o); auto. }
      intros o vf1 s1 Hl1 Ho. apply runs_note. apply runs_ret. now apply resize_valid.
    + apply (runs_foldP U _ _ (fun f acc _ =>
        bind (construct E t) (fun x => leave E t x (Ret (acc ++ [x]))))
        (fun l' _ => Forall (valid E t) l')); auto.
      intros acc x vf1 s1 _ _ Ha.
      eapply (runs_bind U _ _ _ (fun f x => leave E t x (Ret (acc ++ [x])))).
      { apply runs_construct with (Q := fun o _ => valid E t o); auto. }
      intros o vf2 s2 _ Ho. unfold leave.
      assert (Forall (valid E t) (acc ++ [o])) by (apply Forall_app; split; auto).
      destruct (movec E t); [|apply runs_note]; now apply runs_ret.
Qed.

(** Appending new elements *)
Lemma run_append : forall t k l vf s, T t -> constructible E t ->
  Forall (valid E t) l -> (length s < n)%nat ->
  runs (fun f => foldP (fun acc _ => bind (construct E t) (fun x0 =>
      bind (ser (R f) t x0) (fun x => leave E t x (Ret (acc ++ [x]))))) (repeat tt k) l) vf s
    (fun l' _ => Forall (valid E t) l').
Proof.
  intros t k l vf s Ht Hc Hl Hs.
  apply (runs_foldP U _ _ (fun f acc (_ : unit) => bind (construct E t) (fun x0 =>
      bind (ser (R f) t x0) (fun x => leave E t x (Ret (acc ++ [x])))))
    (fun l' _ => Forall (valid E t) l')); auto.
  intros acc x vf1 s1 _ Hl1 Ha.
  eapply (runs_bind U _ _ _ (fun f x0 =>
      bind (ser (R f) t x0) (fun x => leave E t x (Ret (acc ++ [x]))))).
  { apply runs_construct with (Q := fun o _ => valid E t o); auto. }
  intros o vf2 s2 Hl2 Ho.
  eapply (runs_bind U _ _ _ (fun f x => leave E t x (Ret (acc ++ [x])))).
  { apply run_new; auto. lia. }
  intros y vf3 s3 _ Hy. unfold leave.
  assert (Forall (valid E t) (acc ++ [y])) by (apply Forall_app; split; auto).
  destruct (movec E t); [|apply runs_note]; now apply runs_ret.
Qed.

Lemma emplace_valid : forall k t c x, good_order E k t -> valid E (TAssoc k t) c -> valid E t x ->
  exists c', emplace E k t c x = Some c' /\ valid E (TAssoc k t) c'.
Proof.
  intros k t c x Ho Hc Hx. inversion Hc; subst; cbn [emplace].
  - cbn [good_order] in Ho. destruct Ho as (Hir & Htr).
    destruct (negb multi && existsb _ l) eqn:Ex; [eauto|].
    eexists. split; [reflexivity|]. constructor.
    + apply Forall_forall. intros y Hy.
      apply (Permutation_in _ (insert_sorted_perm _ x l)) in Hy.
      destruct Hy as [<-|Hy]; auto. eapply (proj1 (Forall_forall _ _)); eauto.
    + apply sorted_insert; auto. intros -> y Hy. cbn [negb andb] in Ex.
      destruct (less E (TAssoc (AOrd false mp) t) x y) eqn:E1; auto.
      destruct (less E (TAssoc (AOrd false mp) t) y x) eqn:E2; auto.
      exfalso. assert (Hn : existsb (fun y => negb (less E (TAssoc (AOrd false mp) t) x y) &&
        negb (less E (TAssoc (AOrd false mp) t) y x)) l = true).
      { apply existsb_exists. exists y. split; auto. now rewrite E1, E2. }
      congruence.
  - cbn [good_order] in Ho.
    destruct (negb multi && existsb _ l) eqn:Ex; [eauto|].
    pose proof (wf_hplace _ _ wf (TAssoc (AHash multi mp) t) l x) as Hp.
    eexists. split; [reflexivity|]. constructor.
    + apply Forall_forall. intros y Hy. apply (Permutation_in _ Hp) in Hy.
      destruct Hy as [<-|Hy]; auto. eapply (proj1 (Forall_forall _ _)); eauto.
    + intros ->. cbn [negb andb] in Ex.
      apply (distinct_perm _ Ho _ _ (Permutation_sym Hp)). cbn [distinct_by]. split; auto.
      apply Forall_forall. intros y Hy.
      destruct (keq E (TAssoc (AHash false mp) t) y x) eqn:E1; auto.
      exfalso. rewrite Ho in E1.
      assert (existsb (keq E (TAssoc (AHash false mp) t) x) l = true)
        by (apply existsb_exists; eauto). congruence.
Qed.

Lemma run_emplace : forall k t l c vf s, T t -> constructible E t -> good_order E k t ->
  valid E (TAssoc k t) c -> (length s < n)%nat ->
  runs (fun f => deser_emplace E (R f) k t l c) vf s (fun c' _ => valid E (TAssoc k t) c').
Proof.
  intros k t l c vf s Ht Hc Ho Hv Hs. unfold deser_emplace.
  apply (runs_foldP U _ _ (fun f acc (_ : unit) => bind (construct E t) (fun x0 =>
      bind (ser (R f) t x0) (fun x => leave_elem E k t x (of_opt (emplace E k t acc x)))))
    (fun c' _ => valid E (TAssoc k t) c')); auto.
  intros acc x vf1 s1 _ Hl1 Ha.
  eapply (runs_bind U _ _ _ (fun f x0 =>
      bind (ser (R f) t x0) (fun x => leave_elem E k t x (of_opt (emplace E k t acc x))))).
  { apply runs_construct with (Q := fun o _ => valid E t o); auto. }
  intros o vf2 s2 Hl2 Hov.
  eapply (runs_bind U _ _ _ (fun f x => leave_elem E k t x (of_opt (emplace E k t acc x)))).
  { apply run_new; auto. lia. }
  intros y vf3 s3 _ Hy.
  destruct (emplace_valid k t acc y Ho Ha Hy) as (c' & -> & Hc'). cbn [of_opt].
  assert (Hr : forall vf s, runs (fun _ => Ret c') vf s (fun c' _ => valid E (TAssoc k t) c'))
    by (intros; now apply runs_ret).
  unfold leave_elem, leave.
  repeat (match goal with |- context [match ?x with _ => _ end] => destruct x end);
    repeat apply runs_note; apply Hr.
Qed.

Lemma in_depth : forall l v, In v l ->
  (depth v < S (fold_right (fun x n => Nat.max (depth x) n) 1 l))%nat.
Proof.
  induction l as [|x l IHl]; intros v H; [destruct H|].
  cbn [fold_right]. destruct H as [->|H]; [lia|]. apply IHl in H. lia.
Qed.

Lemma fold_depth_mono : forall l l',
  Forall2 (fun v v' => (depth v' <= depth v)%nat) l l' ->
  (fold_right (fun x n => Nat.max (depth x) n) 1 l' <=
   fold_right (fun x n => Nat.max (depth x) n) 1 l)%nat.
Proof. intros l l' H. induction H; cbn [fold_right]; lia. Qed.

Lemma run_tuple : forall ts l vf s, Forall T ts -> Forall2 (valid E) ts l ->
  (length s <= n)%nat -> Forall (fun v => (depth v < d)%nat) l ->
  runs (fun f => ser_tuple (R f) ts l) vf s
    (fun l' s' => Forall2 (valid E) ts l' /\
       ((length s' < length s)%nat \/ Forall2 (fun v v' => (depth v' <= depth v)%nat) l l')).
Proof.
  intros ts. induction ts as [|t ts IHt]; intros l vf s Ht Hv Hl Hd; inversion Hv; subst; cbn [ser_tuple].
  - apply runs_ret. split; [constructor|]. right. constructor.
  - inversion Ht; subst. inversion Hd; subst.
    eapply (runs_bind U _ _ _ (fun f x => bind (ser_tuple (R f) ts l') (fun xs => Ret (x :: xs)))).
    { apply run_ser; [now apply fits_of|]. auto. }
    intros x vf1 s1 Hl1 (Hx & Hdx). rewrite dty_valid in Hx by auto.
    eapply (runs_bind U _ _ _ (fun f xs => Ret (x :: xs))).
    { apply IHt; auto. lia. }
    intros xs vf2 s2 Hl2 (Hxs & Hds). apply runs_ret. split; [now constructor|].
    destruct Hdx as [Hdx|Hdx]; [left; lia|]. destruct Hds as [Hds|Hds]; [left; lia|].
    right. now constructor.
Qed.

Lemma upd_forall2 : forall A B (P : A -> B -> Prop) l l' i a x,
  Forall2 P l l' -> nth_error l i = Some a -> P a x -> Forall2 P l (upd l' i x).
Proof.
  intros A B P l l' i a x H. revert i. induction H; intros i Ha Hx.
  - destruct i; discriminate.
  - destruct i; cbn [upd nth_error] in *; [inversion Ha; subst|]; constructor; auto.
Qed.

Lemma upd_depth : forall l i x v m,
  Forall (fun y => (depth y <= m)%nat) l -> nth_error l i = Some v -> (depth x <= depth v)%nat ->
  Forall (fun y => (depth y <= m)%nat) (upd l i x).
Proof.
  induction l; intros i x v m H Hi Hx; destruct i; cbn [upd nth_error] in *; auto.
  - inversion Hi; subst. inversion H; subst. constructor; auto. lia.
  - inversion H; subst. constructor; eauto.
Qed.

(** A user serialize function: any sequence of visits of members *)
Lemma run_members : forall ts is_ fs vf s m, Forall T ts -> Forall2 (valid E) ts fs ->
  (forall i, In i is_ -> (i < length ts)%nat) ->
  (length s <= n)%nat -> Forall (fun v => (depth v <= m)%nat) fs -> (m < d)%nat ->
  runs (fun f => ser_members (R f) ts is_ fs) vf s
    (fun fs' s' => Forall2 (valid E) ts fs' /\
       ((length s' < length s)%nat \/ Forall (fun v => (depth v <= m)%nat) fs')).
Proof.
  intros ts is_ fs vf s m Ht Hv Hi Hl Hm Hmd. unfold ser_members.
  apply (runs_foldP U _ _ (fun f fs i => match nth_error ts i, nth_error fs i with
           | Some t, Some v => bind (ser (R f) t v) (fun x => Ret (upd fs i x))
           | _, _ => Fail Stuck
           end) (fun fs' s' => Forall2 (valid E) ts fs' /\
       ((length s' < length s)%nat \/ Forall (fun v => (depth v <= m)%nat) fs'))); auto.
  intros gs i vf1 s1 Hin Hl1 (Hg & Hgd).
  specialize (Hi i Hin).
  destruct (nth_error ts i) as [t|] eqn:Et; [|apply nth_error_None in Et; lia].
  destruct (nth_error gs i) as [v|] eqn:Eg;
    [|apply nth_error_None in Eg; apply Forall2_length in Hg; lia].
  assert (Htt : T t) by (rewrite Forall_forall in Ht; apply Ht; eapply nth_error_In; eauto).
  assert (Hvv : valid E t v).
  { clear -Hg Et Eg. revert i Et Eg. induction Hg; intros i Et Eg; destruct i; cbn in *;
      try discriminate; [congruence|eauto]. }
  eapply (runs_bind U _ _ _ (fun f x => Ret (upd gs i x))).
  { apply run_ser; [now apply fits_of|].
    destruct Hgd as [Hgd|Hgd]; [left; lia|]. right. split; [lia|].
    rewrite Forall_forall in Hgd. assert (depth v <= m)%nat; [|lia].
    apply Hgd. eapply nth_error_In; eauto. }
  intros x vf2 s2 Hl2 (Hx & Hdx). rewrite dty_valid in Hx by auto. apply runs_ret.
  split; [eapply upd_forall2; eauto|].
  destruct Hgd as [Hgd|Hgd]; [left; lia|]. destruct Hdx as [Hdx|Hdx]; [left; lia|].
  right. eapply upd_depth; eauto.
Qed.

(** Objects of classes *)
Lemma obj_level : forall c0 ls c, valid E (TClass c0) (VObj c0 ls) -> In c (chain E c0) ->
  exists k fs, cls E c = Some k /\ nth_error ls (level E c) = Some fs /\
    ((cbyte k = true /\ exists b, fs = [VB b] /\ len b = csize k) \/
     (cbyte k = false /\ Forall2 (valid E) (cfields k) fs)) /\
    forall fs', ((cbyte k = true /\ exists b, fs' = [VB b] /\ len b = csize k) \/
     (cbyte k = false /\ Forall2 (valid E) (cfields k) fs')) ->
      valid E (TClass c0) (VObj c0 (upd ls (level E c) fs')).
Proof.
  intros c0 ls c Hv Hin. inversion Hv; subst.
  match goal with H : Forall2 _ (chain E c0) ls |- _ => rename H into HF end.
  pose proof (chain_level any E wf _ _ Hin) as Hn.
  assert (Hx : exists fs, nth_error ls (level E c) = Some fs /\
    exists k', cls E c = Some k' /\
       ((cbyte k' = true /\ exists b, fs = [VB b] /\ len b = csize k') \/
        (cbyte k' = false /\ Forall2 (valid E) (cfields k') fs))).
  { clear -HF Hn. revert Hn. generalize (level E c) as i. induction HF; intros i Hn.
    - destruct i; discriminate.
    - destruct i; cbn [nth_error] in *; [|auto]. inversion Hn; subst. eauto. }
  destruct Hx as (fs & Hfs & k' & Hk' & Hd).
  exists k', fs. repeat split; auto. intros fs' Hfs'.
  apply (VaClass E c0 k); auto.
  eapply upd_forall2; eauto.
Qed.

Lemma obj_depth : forall c ls i fs v, nth_error ls i = Some fs -> In v fs ->
  (depth v + 2 <= depth (VObj c ls))%nat.
Proof.
  intros c ls i fs v Hi Hv. cbn [depth].
  assert (depth v <= fold_right (fun fs n => Nat.max (fold_right (fun x n => Nat.max (depth x) n) 1 fs) n) 1 ls)%nat;
    [|lia].
  revert i Hi. induction ls as [|gs ls IHl]; intros i Hi; destruct i; cbn [nth_error] in Hi;
    try discriminate; cbn [fold_right].
  - inversion Hi; subst. pose proof (in_depth _ _ Hv). lia.
  - specialize (IHl _ Hi). lia.
Qed.

Lemma obj_upd_depth : forall c ls i fs',
  Forall (fun v => (depth v <= depth (VObj c ls) - 2)%nat) fs' ->
  (depth (VObj c (upd ls i fs')) <= depth (VObj c ls))%nat.
Proof.
  intros c ls i fs' H. cbn [depth] in *.
  set (F := fold_right (fun fs n => Nat.max (fold_right (fun x n => Nat.max (depth x) n) 1%nat fs) n) 1%nat) in *.
  change (S (S (F (upd ls i fs'))) <= S (S (F ls)))%nat.
  assert (Hf : (fold_right (fun x n => Nat.max (depth x) n) 1 fs' <= F ls)%nat).
  { assert (1 <= F ls)%nat by (unfold F; clear; induction ls; cbn [fold_right]; lia).
    clear -H H0. induction H; cbn [fold_right]; lia. }
  assert (G : forall m, (fold_right (fun x n => Nat.max (depth x) n) 1 fs' <= m)%nat ->
    (F ls <= m -> F (upd ls i fs') <= m)%nat).
  { clear. intros m Hm. revert i. induction ls as [|gs ls IHl]; intros i Hl; destruct i;
      cbn [upd]; auto; unfold F in *; cbn [fold_right] in *; try lia.
    assert (fold_right (fun fs n => Nat.max (fold_right (fun x n => Nat.max (depth x) n) 1 fs) n) 1
      (upd ls i fs') <= m)%nat by (apply IHl; lia). lia. }
  specialize (G _ Hf (Nat.le_refl _)). lia.
Qed.

Lemma run_static : forall c c0 ls vf s, T (TClass c0) -> valid E (TClass c0) (VObj c0 ls) ->
  In c (chain E c0) -> bytecopy E (TClass c) = false ->
  (length s <= n)%nat -> (depth (VObj c0 ls) <= d)%nat ->
  runs (fun f => apply_static E MUnpacking (R f) c (VObj c0 ls)) vf s
    (fun v' s' => valid E (TClass c0) v' /\
       ((length s' < length s)%nat \/ (depth v' <= depth (VObj c0 ls))%nat)).
Proof.
  intros c c0 ls vf s Ht Hv Hin Hb Hl Hd.
  destruct (obj_level _ _ _ Hv Hin) as (k & fs & Hk & Hfs & Hd1 & Hup).
  pose proof (rd_parts _ _ rd _ Ht) as Hp. cbn [parts] in Hp. destruct Hp as (_ & Hp).
  destruct (Hp _ _ Hin Hk) as (Hts & Hi).
  cbn [bytecopy] in Hb. rewrite Hk in Hb.
  destruct Hd1 as [(Hb' & _)|(_ & Hf)]; [congruence|].
  unfold apply_static. rewrite Hk, Hfs. apply runs_note.
  eapply (runs_bind U _ _ _ (fun f fs' => Note (EvReturn c) (Ret (VObj c0 (upd ls (level E c) fs'))))).
  { apply run_members with (m := (depth (VObj c0 ls) - 2)%nat); auto.
    - apply Forall_forall. intros v Hin'. pose proof (obj_depth c0 _ _ _ _ Hfs Hin'). lia.
    - cbn [depth] in *. lia. }
  intros fs' vf1 s1 Hl1 (Hf' & Hdd). apply runs_note. apply runs_ret. split.
  - apply Hup. right. auto.
  - destruct Hdd as [Hdd|Hdd]; [now left|]. right. now apply obj_upd_depth.
Qed.

(** Strings *)
Lemma run_chars : forall b vf s,
  runs (fun f => ser_array (R f) CHAR (chars b)) vf s
    (fun l _ => exists b', l = chars b').
Proof.
  intros b vf s. unfold ser_array. destruct (chars b) as [|x r] eqn:Ec.
  - apply runs_ret. exists []. reflexivity.
  - rewrite <- Ec. clear Ec x r. apply run_traverse; [auto|].
    intros s' Hl. unfold ap. cbn [bytecopy CHAR].
    assert (Ho : opt_all (map (obj_bytes E CHAR) (chars b)) = Some (map (fun c => [c]) b)).
    { unfold chars. rewrite map_map. clear. induction b; cbn [map opt_all obj_bytes]; auto.
      unfold CHAR in *. rewrite IHb. reflexivity. }
    rewrite Ho. apply runs_contig. intros x s1 Hs1 Hx. apply runs_ret. exists x.
    assert (Hc : concat (map (fun c : byte => [c]) b) = b)
      by (clear; induction b; cbn; f_equal; auto).
    rewrite Hc in Hx. clear -Hx. unfold chars. revert x Hx.
    induction b; intros x Hx; destruct x; cbn [length] in Hx; try discriminate; [reflexivity|].
    cbn [map unflatten]. change (obj_bytes E CHAR (VB [a])) with (Some [a]).
    cbn [length firstn skipn]. change (obj_setbytes E CHAR (VB [a]) [b0]) with (VB [b0]).
    f_equal. apply IHb. lia.
Qed.

Lemma self_in : forall c w, valid E (TClass c) w -> In c (chain E c).
Proof.
  intros c w Hw. apply (chain_self any E wf). inversion Hw; subst; eapply (chain_nonempty any E wf); eauto.
Qed.

Lemma virtual_obj : forall c w, is_virtual E (TClass c) = true -> valid E (TClass c) w ->
  exists ls, w = VObj c ls.
Proof.
  intros c w Hv Hw. inversion Hw; subst; [|eauto].
  match goal with H : cls E c = Some _ |- _ => unfold is_virtual in Hv; rewrite H in Hv end.
  congruence.
Qed.

(** *** An object that is not byte-copyable and not dispatched by its class *)
Lemma run_elem : forall t v vf s, bytecopy E t = false -> fits t v ->
  (length s <= n)%nat -> (depth v <= d)%nat ->
  runs (fun f => apply_elem E MUnpacking (R f) t v) vf s (after t v s).
Proof.
  intros t v vf s Hb (Ht & Hv & Hcl) Hl Hd.
  destruct t; cbn [bytecopy] in Hb; try discriminate;
    try (pose proof (rd_parts _ _ rd _ Ht) as Hp; cbn [parts dty] in Hp; destruct Hp; fail);
    try (cbn [dty] in Ht, Hv; pose proof (rd_parts _ _ rd _ Ht) as Hp; cbn [parts] in Hp;
         unfold after; cbn [dty]).
  - (* enum *)
    inversion Hv; subst. cbn [apply_elem]. unfold ser_underlying, ser.
    eapply (runs_bind U _ _ _ (fun f vs => match vs with [x] => Ret x | _ => Fail Stuck end)).
    { apply run_prim. reflexivity. }
    intros vs vf1 s1 Hl1 (b' & -> & Hb' & _). apply runs_ret. split; [now constructor|]. right. auto.
  - (* duration *)
    inversion Hv; subst. cbn [apply_elem]. unfold ser_underlying, ser.
    eapply (runs_bind U _ _ _ (fun f vs => match vs with [x] => Ret x | _ => Fail Stuck end)).
    { apply run_prim. reflexivity. }
    intros vs vf1 s1 Hl1 (b' & -> & Hb' & _). apply runs_ret. split; [now constructor|]. right. auto.
  - (* string *)
    inversion Hv; subst. cbn [apply_elem]. unfold ser_string. cbn [is_footprinting].
    eapply (runs_bind U _ _ _ (fun f k =>
      bind (ser_array (R f) CHAR (chars (resize (N.to_nat k) x00 b))) (fun l =>
      bind (of_opt (unchars l)) (fun b2 => Ret (VStr (N.max cap (len b2)) b2))))).
    { apply run_size. }
    intros k vf1 s1 Hl1 Hs1. cbn beta in Hs1.
    eapply (runs_bind U _ _ _ (fun f l =>
      bind (of_opt (unchars l)) (fun b2 => Ret (VStr (N.max cap (len b2)) b2)))).
    { apply run_chars. }
    intros l vf2 s2 Hl2 (b' & ->). rewrite Pack.unchars_chars. cbn [of_opt bind]. apply runs_ret.
    split; [constructor; lia|]. left. lia.
  - (* vector *)
    inversion Hv; subst. destruct Hp as (Ht' & Hc). cbn [apply_elem]. unfold ser_vector, ser_vector_meta.
    cbn [is_footprinting is_unpacking].
    eapply (runs_bind U _ _ _ (fun f (meta : N * N) => let '(cap', k) := meta in
      bind (construct_vector_data E t (N.to_nat k) l) (fun l1 =>
      bind (ser_array (R f) t l1) (fun l2 => Ret (VVec (N.max cap' (len l2)) l2))))
      _ _ (fun _ s' => (length s' < length s)%nat)).
    { eapply (runs_bind U _ _ _ (fun f cap' => bind (ser_size (R f) (len l))
        (fun k => Ret (N.max cap cap', k)))); [apply run_size|].
      intros cap' vf1 s1 Hl1 Hs1. cbn beta in Hs1.
      eapply (runs_bind U _ _ _ (fun f k => Ret (N.max cap cap', k))); [apply run_size|].
      intros k vf2 s2 Hl2 Hs2. apply runs_ret. lia. }
    intros (cap', k) vf1 s1 Hl1 Hs1.
    eapply (runs_bind U _ _ _ (fun f l1 =>
      bind (ser_array (R f) t l1) (fun l2 => Ret (VVec (N.max cap' (len l2)) l2)))).
    { apply run_vector_data; auto. }
    intros l1 vf2 s2 Hl2 Hv1. cbn beta in Hv1.
    eapply (runs_bind U _ _ _ (fun f l2 => Ret (VVec (N.max cap' (len l2)) l2))).
    { apply run_array; [now apply all_fits|]. left. lia. }
    intros l2 vf3 s3 Hl3 (Hv2 & _). apply runs_ret. split; [|left; lia].
    constructor; [lia|]. eapply all_valid; eauto.
  - (* vector of bool *)
    inversion Hv; subst. cbn [apply_elem]. unfold ser_vecbool, ser_vector_meta.
    cbn [is_footprinting is_unpacking].
    eapply (runs_bind U _ _ _ (fun f (meta : N * N) => let '(cap', k) := meta in
      bind (mapP (fun _ => bind (ser_bool (R f) false) (fun b => Ret (VB (le 1 (if b then 1 else 0)))))
        (resize (N.to_nat k) (VB (le 1 0)) l)) (fun l2 => Ret (VVec (N.max cap' (len l2)) l2)))
      _ _ (fun _ s' => (length s' < length s)%nat)).
    { eapply (runs_bind U _ _ _ (fun f cap' => bind (ser_size (R f) (len l))
        (fun k => Ret (N.max cap cap', k)))); [apply run_size|].
      intros cap' vf1 s1 Hl1 Hs1. cbn beta in Hs1.
      eapply (runs_bind U _ _ _ (fun f k => Ret (N.max cap cap', k))); [apply run_size|].
      intros k vf2 s2 Hl2 Hs2. apply runs_ret. lia. }
    intros (cap', k) vf1 s1 Hl1 Hs1.
    eapply (runs_bind U _ _ _ (fun f l2 => Ret (VVec (N.max cap' (len l2)) l2))).
    { apply (runs_mapP U _ _ (fun f (_ : val) => bind (ser_bool (R f) false)
        (fun b => Ret (VB (le 1 (if b then 1 else 0)))))
        (fun _ y => y = VB [x00] \/ y = VB [x01]) (fun _ _ => True)).
      intros x vf2 s2 _ _.
      eapply (runs_bind U _ _ _ (fun f (b : bool) => Ret (VB (le 1 (if b then 1 else 0))))).
      { apply (run_bool _ false vf2 s2 Ht). reflexivity. }
      intros b vf3 s3 _ _. apply runs_ret. split; auto. destruct b; [right|left]; reflexivity. }
    intros l2 vf3 s3 Hl3 (Hv2 & _). apply runs_ret. split; [|left; lia].
    constructor; [lia|]. clear -Hv2. induction Hv2; constructor; auto.
  - (* array *)
    inversion Hv; subst. cbn [apply_elem]. unfold ser_stdarray.
    eapply (runs_bind U _ _ _ (fun f l' => Ret (VSeq l'))).
    { apply run_array; [now apply all_fits|]. right. split; auto.
      apply Forall_forall. intros x Hx. apply in_depth in Hx. cbn [depth] in Hd. lia. }
    intros l' vf1 s1 Hl1 (Hv1 & Hd1). apply runs_ret. split.
    + constructor; [symmetry; eapply Forall2_length; eauto|]. eapply all_valid; eauto.
    + destruct Hd1 as [Hd1|Hd1]; [now left|]. right. cbn [depth].
      pose proof (fold_depth_mono _ _ Hd1). lia.
  - (* list *)
    inversion Hv; subst. destruct Hp as (Ht' & Hc). cbn [apply_elem].
    unfold ser_list, ser_container_size. cbn [is_footprinting is_unpacking].
    eapply (runs_bind U _ _ _ (fun f k => bind (deser_ordered E (R f) t (N.to_nat k) l)
      (fun l' => Ret (VSeq l')))); [apply run_size|].
    intros k vf1 s1 Hl1 Hs1. cbn beta in Hs1.
    eapply (runs_bind U _ _ _ (fun f l' => Ret (VSeq l')) _ _ (fun l' _ => Forall (valid E t) l')).
    { unfold deser_ordered. destruct (copyc E t).
      - eapply (runs_bind U _ _ _ (fun f x => Note (EvAbandon t x)
          (mapP (ser (R f) t) (resize (N.to_nat k) x l)))).
        { apply runs_construct with (Q := fun o _ => valid E t o); auto. }
        intros o vf2 s2 Hl2 Ho. apply runs_note.
        assert (Hr : Forall (valid E t) (resize (N.to_nat k) o l)) by now apply resize_valid.
        eapply runs_impl.
        { apply (runs_mapP U _ _ (fun f x => ser (R f) t x) (fun _ y => valid E t y)
            (fun _ _ => True)).
          intros x vf3 s3 Hx Hl3. eapply runs_impl.
          - apply run_new; [auto| |lia]. rewrite Forall_forall in Hr. apply (Hr _ Hx).
          - cbn beta. auto. }
        intros ys s3 _ (Hy & _). clear -Hy. induction Hy; constructor; auto.
      - apply run_append; auto. lia. }
    intros l' vf2 s2 Hl2 Hv2. apply runs_ret. split; [now constructor|]. left. lia.
  - (* queue *)
    inversion Hv; subst. destruct Hp as (Ht' & Hc). cbn [apply_elem].
    unfold ser_queue, ser_container_size. cbn [is_footprinting is_unpacking].
    eapply (runs_bind U _ _ _ (fun f k => bind (foldP (fun acc _ => bind (construct E t) (fun x0 =>
      bind (ser (R f) t x0) (fun x => leave E t x (Ret (acc ++ [x]))))) (repeat tt (N.to_nat k)) l)
      (fun l' => Ret (VSeq l')))); [apply run_size|].
    intros k vf1 s1 Hl1 Hs1. cbn beta in Hs1.
    eapply (runs_bind U _ _ _ (fun f l' => Ret (VSeq l')) _ _ (fun l' _ => Forall (valid E t) l')).
    { apply run_append; auto. lia. }
    intros l' vf2 s2 Hl2 Hv2. apply runs_ret. split; [now constructor|]. left. lia.
  - (* sets and maps *)
    destruct Hp as (Ht' & Hc & Ho). cbn [apply_elem]. unfold ser_assoc, ser_container_size.
    cbn [is_footprinting is_unpacking].
    assert (He : exists l, elements v = Some l) by (inversion Hv; subst; cbn [elements]; eauto).
    destruct He as (l & ->). cbn [of_opt bind].
    eapply (runs_bind U _ _ _ (fun f m => deser_emplace E (R f) k t (N.to_nat m) v)); [apply run_size|].
    intros m vf1 s1 Hl1 Hs1. cbn beta in Hs1.
    eapply runs_impl; [apply run_emplace; auto; lia|].
    intros c' s' Hl' Hc'. split; auto. left. lia.
  - (* pair *)
    inversion Hv; subst. destruct Hp as (Hta & Htb). cbn [apply_elem]. unfold ser_pair.
    apply runs_count. cbn [depth fold_right] in Hd.
    eapply (runs_bind U _ _ _ (fun f x' => bind (ser (R f) t2 y) (fun y' => Ret (VSeq [x'; y'])))).
    { apply run_ser; [now apply fits_of|]. right. split; auto. lia. }
    intros x' vf1 s1 Hl1 (Hx & Hdx). rewrite dty_valid in Hx by auto.
    eapply (runs_bind U _ _ _ (fun f y' => Ret (VSeq [x'; y']))).
    { apply run_ser; [now apply fits_of|]. right. split; [lia|]. lia. }
    intros y' vf2 s2 Hl2 (Hy & Hdy). rewrite dty_valid in Hy by auto. apply runs_ret.
    split; [now constructor|].
    destruct Hdx as [Hdx|Hdx]; [left; lia|]. destruct Hdy as [Hdy|Hdy]; [left; lia|].
    right. cbn [depth fold_right]. lia.
  - (* tuple *)
    inversion Hv; subst. cbn [apply_elem].
    eapply (runs_bind U _ _ _ (fun f l' => Ret (VSeq l'))).
    { apply run_tuple; eauto. apply Forall_forall. intros x Hx. apply in_depth in Hx.
      cbn [depth] in Hd. lia. }
    intros l' vf1 s1 Hl1 (Hv1 & Hd1). apply runs_ret. split; [now constructor|].
    destruct Hd1 as [Hd1|Hd1]; [now left|]. right. cbn [depth].
    pose proof (fold_depth_mono _ _ Hd1). lia.
  - (* optional *)
    assert (Ho : exists o, v = VOpt o) by (inversion Hv; subst; eauto). destruct Ho as (o & ->).
    destruct Hp as (Ht' & Hc). cbn [apply_elem]. unfold ser_optional. cbn [is_footprinting is_unpacking].
    eapply (runs_bind U _ _ _ (fun f (has : bool) => if has then
        bind (construct E t) (fun x0 => bind (ser (R f) t x0) (fun x =>
          Note (EvAbandon t x) (Ret (VOpt (Some x))))) else Ret (VOpt None))).
    { apply (run_bool _ false vf s Ht). reflexivity. }
    intros has vf1 s1 Hl1 Hs1. cbn beta in Hs1. destruct has.
    + eapply (runs_bind U _ _ _ (fun f x0 => bind (ser (R f) t x0) (fun x =>
          Note (EvAbandon t x) (Ret (VOpt (Some x)))))).
      { apply runs_construct with (Q := fun o _ => valid E t o); auto. }
      intros x0 vf2 s2 Hl2 Hx0. cbn beta in Hx0.
      eapply (runs_bind U _ _ _ (fun f x => Note (EvAbandon t x) (Ret (VOpt (Some x))))).
      { apply run_new; auto. lia. }
      intros x vf3 s3 Hl3 Hx. cbn beta in Hx. apply runs_note. apply runs_ret.
      split; [now constructor|]. left. lia.
    + apply runs_ret. split; [constructor|]. now left.
  - (* variant *)
    assert (Hbv : bytecopy E (TVariant ts) = false) by exact Hb.
    destruct Hp as [Hp|Hp]; [congruence|].
    cbn [apply_elem]. unfold ser_variant.
    assert (Hi : exists i, variant_index v = Some i).
    { inversion Hv; subst; cbn [variant_index]; eauto. congruence. }
    destruct Hi as (i & ->). cbn [of_opt bind].
    eapply (runs_bind U _ _ _ (fun f entry => ser_entry E MUnpacking (R f) ts v entry 0));
      [apply run_size|].
    intros entry vf1 s1 Hl1 Hs1. cbn beta in Hs1.
    assert (G : forall rest cur, (forall j t', nth_error rest j = Some t' ->
        nth_error ts (cur + j) = Some t') ->
      runs (fun f => ser_entry E MUnpacking (R f) rest v entry cur) vf1 s1
        (fun v' s' => valid E (TVariant ts) v')).
    { intros rest. induction rest as [|t' rest IHr]; intros cur Hn; cbn [ser_entry].
      - now apply runs_ret.
      - destruct (entry =? N.of_nat cur).
        + cbn [is_unpacking].
          assert (Ht' : nth_error ts cur = Some t')
            by (rewrite <- (Nat.add_0_r cur); apply Hn; reflexivity).
          rewrite Forall_forall in Hp. destruct (Hp t' (nth_error_In _ _ Ht')) as (HT' & Hc').
          eapply (runs_bind U _ _ _ (fun f x0 => bind (ser (R f) t' x0) (fun x =>
            leave E t' x (Ret (VVar cur x))))).
          { apply runs_construct with (Q := fun o _ => valid E t' o); auto. }
          intros x0 vf2 s2 Hl2 Hx0. cbn beta in Hx0.
          eapply (runs_bind U _ _ _ (fun f x => leave E t' x (Ret (VVar cur x)))).
          { apply run_new; auto. lia. }
          intros x vf3 s3 Hl3 Hx. cbn beta in Hx. unfold leave.
          assert (valid E (TVariant ts) (VVar cur x)) by (eapply VaVariant; eauto).
          destruct (movec E t'); [|apply runs_note]; now apply runs_ret.
        + apply IHr. intros j t'' Hj. rewrite Nat.add_succ_l, <- Nat.add_succ_r.
          apply Hn. exact Hj. }
    eapply runs_impl; [apply G; auto|]. intros v' s' Hl' Hv'. split; auto. left. lia.
  - (* unique_ptr *)
    assert (Ho : exists o, v = VOpt o) by (inversion Hv; subst; eauto). destruct Ho as (o & ->).
    destruct Hp as (Hst & Hvt). cbn [apply_elem]. unfold ser_unique. cbn [is_footprinting is_unpacking].
    eapply (runs_bind U _ _ _ (fun f (is_null : bool) => if is_null then Ret (VOpt None) else
      bind (reconstruct_pointed E MUnpacking (R f) t o) (fun target => match target with
        | None => Fail UB
        | Some v => bind (ser (R f) t v) (fun x => Ret (VOpt (Some x))) end))).
    { apply (run_bool _ _ vf s Ht). reflexivity. }
    intros is_null vf1 s1 Hl1 Hs1. cbn beta in Hs1. destruct is_null.
    { apply runs_ret. split; [constructor|]. now left. }
    eapply (runs_bind U _ _ _ (fun f target => match target with
        | None => Fail UB
        | Some v => bind (ser (R f) t v) (fun x => Ret (VOpt (Some x))) end) _ _
      (fun target _ => exists w, target = Some w /\ fits t w /\
         (forall w', valid E (dty t w) w' -> valid E (TUnique t) (VOpt (Some w'))))).
    + (* the pointee *)
      assert (Hplain : is_virtual E t = false -> forall w, valid E t w ->
        fits t w /\ (forall w', valid E (dty t w) w' -> valid E (TUnique t) (VOpt (Some w')))).
      { intros Hvt0 w Hw. destruct (Hst Hvt0). split; [now apply fits_of|].
        intros w' Hw'. rewrite dty_valid in Hw' by auto. now apply VaUnique. }
      assert (Hstat : is_virtual E t = false ->
        runs (fun f => match o with
           | Some v => Ret (Some v)
           | None => bind (construct E t) (fun o => Ret (Some o)) end) vf1 s1
        (fun target _ => exists w, target = Some w /\ fits t w /\
         (forall w', valid E (dty t w) w' -> valid E (TUnique t) (VOpt (Some w'))))).
      { intros Hvt0. destruct o as [w|].
        - apply runs_ret. exists w. split; auto. apply Hplain; auto.
          inversion Hv; subst; auto. congruence.
        - destruct (Hst Hvt0) as (Ht' & Hc).
          eapply (runs_bind U _ _ _ (fun f o => Ret (Some o))).
          { apply runs_construct with (Q := fun o _ => valid E t o); auto. }
          intros w vf2 s2 _ Hw. apply runs_ret. exists w. split; auto. }
      unfold reconstruct_pointed. cbn [is_unpacking].
      destruct (is_virtual E t) eqn:Ev.
      * destruct t as [| | | | | | | | | | | | | | |c| | | | |]; try discriminate.
        assert (Hobj : forall c0 ls, valid E (TClass c0) (VObj c0 ls) -> In c (chain E c0) ->
          obj_idx E c0 <> None ->
          fits (TClass c) (VObj c0 ls) /\ (forall w', valid E (dty (TClass c) (VObj c0 ls)) w' ->
            valid E (TUnique (TClass c)) (VOpt (Some w')))).
        { intros c0 ls Hval Hin Hidx.
          assert (HT0 : T (TClass c0)) by (eapply Hvt; eauto).
          split.
          - unfold fits. cbn [dty]. split; auto. split; auto.
            intros c1 d1 ls1 H1 H2. inversion H1; inversion H2; subst. right. auto.
          - cbn [dty]. intros w' Hw'.
            assert (Hv0 : is_virtual E (TClass c0) = true)
              by (rewrite <- (chain_virtual any E wf _ _ Hin); auto).
            destruct (virtual_obj _ _ Hv0 Hw') as (ls' & ->). apply VaUniqueV; auto. }
        unfold ser_virtual_type. cbn [is_unpacking is_footprinting bind].
        eapply (runs_bind U _ _ _ (fun f entry => match o with
             | Some v => Ret (Some v)
             | None => bind (construct_concrete E c entry) (fun o => Ret (Some o)) end)
          _ _ (fun _ _ => True)).
        { eapply (runs_bind U _ _ _ (fun f entry' => match o with
              | Some v => bind (dyn_type_idx E v) (fun i =>
                  if (entry' =? i) || negb (asserts E) then Ret entry' else Fail AssertErr)
              | None => Ret entry' end)); [apply run_word|].
          intros entry' vf2 s2 _ _. destruct o as [w|]; [|now apply runs_ret].
          inversion Hv; subst; [congruence|]. cbn [dyn_type_idx].
          destruct (obj_idx E d0) as [i|] eqn:Ei; [|congruence]. cbn [option_map of_opt bind].
          destruct ((entry' =? N.of_nat i) || negb (asserts E)); [now apply runs_ret|].
          now apply runs_fail. }
        intros entry vf2 s2 Hl2 _. destruct o as [w|].
        { apply runs_ret. inversion Hv; subst; [congruence|]. eexists. split; [reflexivity|].
          apply Hobj; auto. }
        unfold construct_concrete.
        destruct (nth_error (oreg E (root E c)) (N.to_nat entry)) as [c0|] eqn:En.
        2:{ cbn [bind]. now apply runs_fail. }
        cbn [bind]. apply runs_note.
        assert (HUu : U) by (apply (HU _ Ht); reflexivity).
        destruct (recon E (TClass c0)) as [w|] eqn:Er.
        2:{ destruct (asserts E); cbn [bind]; now apply runs_fail. }
        destruct (existsb (Nat.eqb c) (chain E c0)) eqn:Ex.
        2:{ cbn [bind]. now apply runs_fail. }
        cbn [bind]. apply runs_ret. exists w. split; auto.
        apply existsb_exists in Ex. destruct Ex as (c1 & Hin & Heq).
        apply Nat.eqb_eq in Heq. subst c1.
        assert (Hidx : obj_idx E c0 <> None).
        { unfold obj_idx. rewrite <- (root_in_chain any E wf _ _ Hin).
          rewrite (index_of_complete _ _ _ (wf_oreg _ _ wf _) En). discriminate. }
        assert (HT0 : T (TClass c0)) by (eapply Hvt; eauto).
        pose proof (recon_valid _ _ HT0 Er) as Hw.
        assert (Hv0 : is_virtual E (TClass c0) = true)
          by (rewrite <- (chain_virtual any E wf _ _ Hin); auto).
        destruct (virtual_obj _ _ Hv0 Hw) as (ls' & ->). apply Hobj; auto.
      * destruct t; apply Hstat; auto.
    + intros target vf2 s2 Hl2 (w & -> & Hw & Hres).
      eapply (runs_bind U _ _ _ (fun f x => Ret (VOpt (Some x)))).
      { apply run_ser; auto. left. lia. }
      intros x vf3 s3 Hl3 (Hx & _). apply runs_ret. split; auto. left. lia.
  - (* class *)
    cbn [apply_elem]. destruct v as [b| | | | | | | |c0 ls]; cbn [dty] in *; try (inversion Hv; fail).
    + (* bytes *)
      inversion Hv; subst.
      match goal with H : cls E c = Some _ |- _ => rewrite H in Hb end. congruence.
    + apply run_static; auto.
      destruct (Hcl c c0 ls eq_refl eq_refl) as [->|(_ & Hin)]; auto.
      eapply self_in; eauto.
Qed.

(** *** Objects that are copied as bytes *)
Lemma bytes_fits : forall t v, bytecopy E t = true -> fits t v ->
  exists b, obj_bytes E t v = Some b /\
    forall b', length b' = length b ->
      valid E (dty t v) (obj_setbytes E t v b') /\
      (depth (obj_setbytes E t v b') <= depth v)%nat.
Proof.
  intros t v Hb (Ht & Hv & Hcl).
  destruct t; try discriminate;
    try (pose proof (rd_parts _ _ rd _ Ht) as Hp; cbn [parts dty] in Hp; destruct Hp; fail).
  - cbn [dty] in *. inversion Hv; subst. exists b. split; [reflexivity|]. intros b' Hb'.
    cbn [obj_setbytes]. split; [now constructor|auto].
  - cbn [dty] in *. inversion Hv; subst; try congruence. exists b. split; [reflexivity|].
    intros b' Hb'. cbn [obj_setbytes]. split; [|auto]. apply VaVariantB; auto.
    unfold len in *. congruence.
  - destruct v as [b| | | | | | | |c0 ls]; cbn [dty] in *; try (inversion Hv; fail).
    + inversion Hv; subst. exists b. split; [reflexivity|]. intros b' Hb'.
      cbn [obj_setbytes]. split; [|auto]. eapply VaClassB; eauto. unfold len in *. congruence.
    + assert (Hin : In c (chain E c0)).
      { destruct (Hcl c c0 ls eq_refl eq_refl) as [->|(_ & Hin)]; auto. eapply self_in; eauto. }
      destruct (obj_level _ _ _ Hv Hin) as (k & fs & Hk & Hfs & Hd1 & Hup).
      cbn [bytecopy] in Hb. rewrite Hk in Hb.
      destruct Hd1 as [(_ & b & -> & Hb')|(Hb' & _)]; [|congruence].
      exists b. cbn [obj_bytes]. rewrite Hfs. split; [reflexivity|]. intros b1 Hb1.
      cbn [obj_setbytes]. split.
      * apply Hup. left. split; auto. exists b1. split; auto. unfold len in *. congruence.
      * apply obj_upd_depth. constructor; [|constructor].
        pose proof (obj_depth c0 _ _ _ (VB b) Hfs (or_introl eq_refl)). cbn [depth] in *. lia.
Qed.

Definition post (t : ty) (vs : list val) (s : bytes) (vs' : list val) (s' : bytes) : Prop :=
  Forall2 (fun v v' => valid E (dty t v) v') vs vs' /\
  ((length s' < length s)%nat \/ Forall2 (fun v v' => (depth v' <= depth v)%nat) vs vs').

Lemma run_bytes : forall t vs vf s, bytecopy E t = true -> Forall (fits t) vs ->
  runs (fun f => ap E MUnpacking (R f) t vs) vf s (post t vs s).
Proof.
  intros t vs vf s Hb Hf. unfold ap. rewrite Hb.
  assert (G : exists bs, opt_all (map (obj_bytes E t) vs) = Some bs /\
    forall x, length x = length (concat bs) ->
      Forall2 (fun v v' => valid E (dty t v) v') vs (unflatten E t vs x) /\
      Forall2 (fun v v' => (depth v' <= depth v)%nat) vs (unflatten E t vs x)).
  { induction Hf as [|v vs Hv Hf IHf].
    - exists []. split; [reflexivity|]. intros x _. split; constructor.
    - destruct (bytes_fits t v Hb Hv) as (b & Hb1 & Hb2).
      destruct IHf as (bs & Hbs & Hx). exists (b :: bs). cbn [map opt_all]. rewrite Hb1, Hbs.
      split; [reflexivity|]. intros x Hlx. cbn [concat] in Hlx. rewrite app_length in Hlx.
      cbn [unflatten]. rewrite Hb1.
      destruct (Hb2 (firstn (length b) x)) as (H1 & H2).
      { rewrite firstn_length. lia. }
      destruct (Hx (skipn (length b) x)) as (H3 & H4).
      { rewrite skipn_length. lia. }
      split; constructor; auto. }
  destruct G as (bs & -> & G). apply runs_contig. intros x s' -> Hx. apply runs_ret.
  destruct (G x Hx). split; auto.
Qed.

(** *** Objects whose own function runs *)
Lemma run_own : forall t vs vf s, bytecopy E t = false -> Forall (fits t) vs ->
  (length s <= n)%nat -> Forall (fun v => (depth v <= d)%nat) vs ->
  runs (fun f => mapP (apply_elem E MUnpacking (R f) t) vs) vf s (post t vs s).
Proof.
  intros t vs vf s Hb Hf Hl Hd.
  apply (runs_mapP U _ _ (fun f x => apply_elem E MUnpacking (R f) t x)
    (fun v v' => valid E (dty t v) v') (fun v v' => (depth v' <= depth v)%nat)).
  intros v vf' s' Hin Hl'. rewrite Forall_forall in Hf, Hd. apply run_elem; auto. lia.
Qed.

Lemma run_flagged : forall t vs vf s, Forall (fits t) vs ->
  (length s <= n)%nat -> Forall (fun v => (depth v <= d)%nat) vs ->
  (is_virtual E t = true -> vf = true) ->
  runs (fun f => R f t vs) vf s (post t vs s).
Proof.
  intros t vs vf s Hf Hl Hd Hvf. apply run_traverse.
  { intros vs' s' s'' (H1 & H2) Hl'. split; auto. destruct H2; [left; lia|now right]. }
  intros s' Hl'.
  eapply runs_impl with (Q := post t vs s').
  2:{ intros vs' s2 _ (H1 & H2). split; auto. destruct H2; [left; lia|now right]. }
  destruct (bytecopy E t) eqn:Eb; [now apply run_bytes|].
  unfold ap. rewrite Eb. destruct (is_virtual E t).
  - apply runs_getv. rewrite Hvf by reflexivity. apply runs_setv. apply run_own; auto. lia.
  - apply run_own; auto. lia.
Qed.

(** *** Any object *)
Lemma run_any : forall t vs vf s, Forall (fits t) vs ->
  (length s <= n)%nat -> Forall (fun v => (depth v <= d)%nat) vs ->
  runs (fun f => R f t vs) vf s (post t vs s).
Proof.
  intros t vs vf s Hf Hl Hd.
  destruct (is_virtual E t) eqn:Ev.
  2:{ apply run_flagged; auto. congruence. }
  destruct vf; [apply run_flagged; auto|].
  apply run_traverse.
  { intros vs' s' s'' (H1 & H2) Hl'. split; auto. destruct H2; [left; lia|now right]. }
  intros s' Hl'.
  eapply runs_impl with (Q := post t vs s').
  2:{ intros vs' s2 _ (H1 & H2). split; auto. destruct H2; [left; lia|now right]. }
  destruct (bytecopy E t) eqn:Eb; [now apply run_bytes|].
  unfold ap. rewrite Eb, Ev. apply runs_getv.
  destruct vs as [|v r].
  { apply runs_ret. split; [constructor|]. right. constructor. }
  inversion Hf as [|? ? Hfv Hfr]; subst. inversion Hd as [|? ? Hdv Hdr]; subst.
  assert (Hrest : Forall2 (fun v v' => valid E (dty t v) v') r r).
  { clear -Hfr. induction Hfr; constructor; auto. apply H. }
  eapply (runs_bind U _ _ _ (fun f v' => Ret (v' :: r)) _ _ (after t v s')).
  2:{ intros v' vf1 s1 Hl1 (H1 & H2). apply runs_ret. split; [constructor; auto|].
      destruct H2 as [H2|H2]; [now left|]. right. constructor; auto.
      clear. induction r; constructor; auto. }
  (* dispatch on the class of the object *)
  destruct t as [| | | | | | | | | | | | | | |c| | | | |]; try discriminate.
  destruct Hfv as (HT & Hv & Hcl).
  assert (Hobj : exists c0 ls, v = VObj c0 ls /\ In c (chain E c0)).
  { destruct v as [b| | | | | | | |c0 ls]; cbn [dty] in *; try (inversion Hv; fail).
    - destruct (virtual_obj _ _ Ev Hv) as (ls & Hx). discriminate.
    - exists c0, ls. split; auto.
      destruct (Hcl c c0 ls eq_refl eq_refl) as [->|(_ & Hin)]; auto. eapply self_in; eauto. }
  destruct Hobj as (c0 & ls & -> & Hin). cbn [dty] in *. unfold after. cbn [dty].
  assert (Hv0 : is_virtual E (TClass c0) = true)
    by (rewrite <- (chain_virtual any E wf _ _ Hin); auto).
  cbn [dyn_serialize]. rewrite Hv0.
  apply (runs_foldP U _ _ (fun f v c => Note (EvRegistry c) (SetV true (ser (R f) (TClass c) v)))
    (fun v' s2 => valid E (TClass c0) v' /\
       ((length s2 < length s')%nat \/ (depth v' <= depth (VObj c0 ls))%nat))); auto.
  intros w c1 vf1 s1 Hc1 Hl1 (Hw & Hwd). apply runs_note. apply runs_setv. unfold ser.
  destruct (virtual_obj _ _ Hv0 Hw) as (ls1 & ->).
  assert (Hfw : fits (TClass c1) (VObj c0 ls1)).
  { unfold fits. cbn [dty]. split; auto. split; auto. intros c2 d2 ls2 H1 H2.
    inversion H1; inversion H2; subst. right. split; auto.
    rewrite (chain_virtual any E wf _ _ Hc1); auto. }
  eapply (runs_bind U _ _ _ (fun f vs => match vs with [x] => Ret x | _ => Fail Stuck end)
    _ _ (post (TClass c1) [VObj c0 ls1] s1)).
  { destruct Hwd as [Hwd|Hwd].
    - apply IH; [constructor; auto|]. left. lia.
    - apply run_flagged; auto; [lia|]. constructor; auto. lia. }
  intros vs' vf2 s2 Hl2 (H1 & H2).
  inversion H1 as [|? x ? ? Hx Hnil]; subst. inversion Hnil; subst. cbn [dty] in Hx.
  apply runs_ret. split; auto.
  destruct Hwd as [Hwd|Hwd]; [left; lia|]. destruct H2 as [H2|H2]; [left; lia|].
  inversion H2; subst. right. lia.
Qed.
End Level.

(** ** All objects *)
Lemma run_empty : forall t vf s, runs (fun f => R f t []) vf s (post t [] s).
Proof.
  intros t vf s.
  assert (Hq : forall s', post t [] s [] s') by (intros s'; split; [constructor|right; constructor]).
  apply run_traverse.
  { intros vs' s' s'' (H1 & H2) Hl'. split; auto. destruct H2; [left; lia|now right]. }
  intros s' Hl'. unfold ap. destruct (bytecopy E t).
  { cbn [map opt_all concat]. apply runs_contig. intros x s2 _ _. now apply runs_ret. }
  destruct (is_virtual E t).
  - apply runs_getv. destruct vf; [apply runs_setv|]; now apply runs_ret.
  - now apply runs_ret.
Qed.

Lemma run_all : forall n d t vs vf s, Forall (fits t) vs ->
  (length s <= n)%nat -> Forall (fun v => (depth v <= d)%nat) vs ->
  runs (fun f => R f t vs) vf s (post t vs s).
Proof.
  intros n. induction n as [n IHn] using (well_founded_induction lt_wf).
  intros d. induction d as [d IHd] using (well_founded_induction lt_wf).
  intros t vs vf s Hf Hl Hd. apply (run_any n d); auto.
  clear t vs vf s Hf Hl Hd. intros t vs vf s Hf [Hl|[Hl Hd]].
  - apply (IHn (length s) Hl (fold_right (fun v m => Nat.max (depth v) m) O vs)); auto.
    clear. induction vs as [|v vs IHv]; constructor; cbn [fold_right]; [lia|].
    eapply Forall_impl; [|exact IHv]. cbn beta. intros. lia.
  - destruct d as [|d].
    + destruct vs as [|v vs]; [apply run_empty|]. inversion Hd; lia.
    + apply (IHd d); [lia| | |]; auto. eapply Forall_impl; [|exact Hd]. cbn beta. intros. lia.
Qed.

(** A whole object. *)
Lemma run_root : forall t v vf s, T t -> valid E t v ->
  runs (fun f => with_root E MUnpacking f t v) vf s (fun v' _ => valid E t v').
Proof.
  intros t v vf s Ht Hv. pose proof (fits_of t v Ht Hv) as Hf.
  assert (Hser : forall vf s, runs (fun f => ser (R f) t v) vf s (fun v' _ => valid E t v')).
  { intros vf0 s0. unfold ser.
    eapply (runs_bind U _ _ _ (fun f vs => match vs with [x] => Ret x | _ => Fail Stuck end)).
    { apply (run_all (length s0) (depth v)); auto. }
    intros vs' vf1 s1 Hl1 (H1 & _). inversion H1 as [|? x ? ? Hx Hnil]; subst.
    inversion Hnil; subst. rewrite dty_valid in Hx by auto. now apply runs_ret. }
  unfold with_root. destruct (chk E); [apply Hser|].
  eapply (runs_bind U _ _ _ (fun f _ => bind (ser (R f) t v) (fun v' =>
    bind (with_mem_used E MUnpacking t 1) (fun _ => Ret v')))); [apply run_idx|].
  intros _ vf1 s1 _ _.
  eapply (runs_bind U _ _ _ (fun f v' => bind (with_mem_used E MUnpacking t 1) (fun _ => Ret v')));
    [apply Hser|].
  intros v' vf2 s2 _ Hv'.
  eapply (runs_bind U _ _ _ (fun f _ => Ret v')); [apply run_used|].
  intros _ vf3 s3 _ _. now apply runs_ret.
Qed.
End Robust.
