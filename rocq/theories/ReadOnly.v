(** Sizing, packing and footprinting never change the object. *)
From Coq Require Import List NArith Arith Bool Lia.
From Verif Require Import Base Syntax Prog Serializers Traverse ProgFacts EnvFacts ValFacts.
Import ListNotations.
Local Open Scope N_scope.

(** True of every C++ object: sizes fit in size_t, a container's size is at most
    its capacity. *)
Fixpoint sane (v : val) : Prop :=
  match v with
  | VB _ | VVarNone | VOpt None => True
  | VStr cap b => len b <= cap /\ len b < two64
  | VVec cap l => len l <= cap /\ fold_right (fun x p => sane x /\ p) True l
  | VSeq l | VBag l => fold_right (fun x p => sane x /\ p) True l
  | VOpt (Some x) | VVar _ x => sane x
  | VObj _ ls => fold_right (fun fs p => fold_right (fun x p => sane x /\ p) True fs /\ p) True ls
  end.

Lemma sane_list : forall l, fold_right (fun x p => sane x /\ p) True l <-> Forall sane l.
Proof.
  induction l; cbn; split; intros H; auto.
  - destruct H. constructor; auto. now apply IHl.
  - inversion H; subst. split; auto. now apply IHl.
Qed.
Lemma sane_lists : forall ls,
  fold_right (fun fs p => fold_right (fun x p => sane x /\ p) True fs /\ p) True ls
  <-> Forall (Forall sane) ls.
Proof.
  induction ls; cbn; split; intros H; auto.
  - destruct H. constructor; [now apply sane_list|now apply IHls].
  - inversion H; subst. split; [now apply sane_list|now apply IHls].
Qed.

(** A serializer that leaves the bytes of the object alone. *)
Definition transparent (H : serializer) : Prop :=
  forall b s b' s', contig H b s = Ok (b', s') -> b' = b.

Lemma sizer_transparent : transparent sizer.
Proof. intros b s b' s' H. inversion H; auto. Qed.
Lemma footprinter_transparent : transparent footprinter.
Proof. intros b s b' s' H. inversion H; auto. Qed.
Lemma packer_transparent : transparent packer.
Proof.
  intros b s b' s' H. cbn in H. destruct (write_at _ _ _); inversion H; auto.
Qed.
Lemma stream_packer_transparent : transparent stream_packer.
Proof. intros b s b' s' H. inversion H; auto. Qed.

(** [ensures p Q]: on a transparent serializer, what [p] returns satisfies [Q]. *)
Definition ensures {A} (p : prog A) (Q : A -> Prop) : Prop :=
  forall H vf s a vf' s', transparent H -> interp H p vf s = Ok (a, vf', s') -> Q a.

Lemma en_ret : forall A (a : A) (Q : A -> Prop), Q a -> ensures (Ret a) Q.
Proof. intros A a Q HQ H vf s a' vf' s' _ Hi. inversion Hi; subst; auto. Qed.
Lemma en_bind : forall A B (p : prog A) (f : A -> prog B) P Q,
  ensures p P -> (forall a, P a -> ensures (f a) Q) -> ensures (bind p f) Q.
Proof.
  intros A B p f P Q Hp Hf H vf s b vf' s' Ht Hi. rewrite interp_bind in Hi.
  destruct (interp H p vf s) as [[[a vf1] s1]|] eqn:E; [|discriminate].
  refine (Hf a _ H vf1 s1 b vf' s' Ht Hi). eapply Hp; eauto.
Qed.
Lemma en_contig : forall A b (k : bytes -> prog A) Q, ensures (k b) Q -> ensures (Contig b k) Q.
Proof.
  intros A b k Q Hk H vf s a vf' s' Ht Hi. cbn [interp] in Hi.
  destruct (contig H b s) as [[b' s1]|] eqn:E; [|discriminate].
  assert (b' = b) by (eapply Ht; eauto). subst. eapply Hk; eauto.
Qed.
Lemma en_count : forall A n (k : prog A) Q, ensures k Q -> ensures (Count n k) Q.
Proof. intros A n k Q Hk H vf s a vf' s' Ht Hi. eapply Hk; eauto. Qed.
Lemma en_note : forall A n (k : prog A) Q, ensures k Q -> ensures (Note n k) Q.
Proof. intros A n k Q Hk H vf s a vf' s' Ht Hi. eapply Hk; eauto. Qed.
Lemma en_getv : forall A (k : bool -> prog A) Q, (forall b, ensures (k b) Q) -> ensures (GetV k) Q.
Proof. intros A k Q Hk H vf s a vf' s' Ht Hi. eapply Hk; eauto. Qed.
Lemma en_setv : forall A f (k : prog A) Q, ensures k Q -> ensures (SetV f k) Q.
Proof. intros A f k Q Hk H vf s a vf' s' Ht Hi. eapply Hk; eauto. Qed.
Lemma en_fail : forall A e (Q : A -> Prop), ensures (Fail e) Q.
Proof. intros A e Q H vf s a vf' s' Ht Hi. discriminate. Qed.
Lemma en_of_opt : forall A (o : option A) (Q : A -> Prop), (forall a, o = Some a -> Q a) ->
  ensures (of_opt o) Q.
Proof. intros A [a|] Q H; [apply en_ret; auto|apply en_fail]. Qed.
Lemma en_weaken : forall A (p : prog A) (P Q : A -> Prop), ensures p P -> (forall a, P a -> Q a) ->
  ensures p Q.
Proof. intros A p P Q Hp HPQ H vf s a vf' s' Ht Hi. apply HPQ. eapply Hp; eauto. Qed.
Lemma en_true : forall A (p : prog A), ensures p (fun _ => True).
Proof. intros A p H vf s a vf' s' Ht Hi. exact I. Qed.
Lemma catch_interp : forall H A t (p : prog A) vf s x,
  interp H (catch t p) vf s = Ok x -> interp H p vf s = Ok x.
Proof.
  intros H A t p. induction p; intros vf s x Hi; cbn [catch interp] in *; eauto.
  - destruct (contig H b s) as [[b' s']|]; eauto.
  - destruct e; discriminate.
Qed.
Lemma en_catch : forall A t (p : prog A) Q, ensures p Q -> ensures (catch t p) Q.
Proof. intros A t p Q Hp H vf s a vf' s' Ht Hi. apply catch_interp in Hi. eapply Hp; eauto. Qed.

Lemma en_mapP : forall A (f : A -> prog A) l,
  Forall (fun x => ensures (f x) (eq x)) l -> ensures (mapP f l) (eq l).
Proof.
  intros A f l H. induction H; cbn [mapP].
  - now apply en_ret.
  - eapply en_bind; [exact H|]. intros a <-. eapply en_bind; [exact IHForall|].
    intros a <-. now apply en_ret.
Qed.
Lemma en_foldP : forall A B (f : B -> A -> prog B) (P : B -> Prop) l acc,
  P acc -> (forall b a, P b -> ensures (f b a) P) -> ensures (foldP f l acc) P.
Proof.
  intros A B f P l. induction l; intros acc HP Hf; cbn [foldP].
  - now apply en_ret.
  - eapply en_bind; [now apply Hf|]. intros b Hb. now apply IHl.
Qed.

Lemma unle_le_le : forall k n, unle (le k n) <= n.
Proof.
  induction k; intros n; cbn [le unle].
  - apply N.le_0_l.
  - rewrite byte_of_to_N. specialize (IHk (n / 256)).
    rewrite (N.div_mod n 256) at 3 by discriminate. lia.
Qed.

Lemma unflatten_id : forall E t vs bs,
  opt_all (map (obj_bytes E t) vs) = Some bs -> unflatten E t vs (concat bs) = vs.
Proof.
  intros E t vs. induction vs as [|v vs IH]; intros bs H; cbn [map opt_all] in H.
  - reflexivity.
  - destruct (obj_bytes E t v) as [b|] eqn:Eb; [|discriminate].
    destruct (opt_all (map (obj_bytes E t) vs)) as [bs'|] eqn:Eo; [|discriminate].
    inversion H; subst. cbn [unflatten concat]. rewrite Eb.
    rewrite firstn_app, Nat.sub_diag, firstn_all, firstn_O, app_nil_r.
    rewrite skipn_app, Nat.sub_diag, skipn_all, skipn_O. cbn [app].
    rewrite (IH bs' eq_refl). f_equal.
    unfold obj_bytes in Eb. unfold obj_setbytes.
    destruct t; destruct v; try discriminate; try (inversion Eb; subst; reflexivity).
    destruct (nth_error ls (level E c)) as [fs|] eqn:El; [|discriminate].
    destruct fs as [|x [|y r]]; try discriminate; destruct x; try discriminate.
    inversion Eb; subst. f_equal. now apply upd_same.
Qed.

Section ReadOnly.
Variable E : env.
Variable m : mode.
Hypothesis Hm : m <> MUnpacking.

Lemma ro_unp : is_unpacking m = false.
Proof. destruct m; auto. congruence. Qed.

Lemma ro_type_idx : forall t, ensures (with_type_idx E m t) (fun _ => True).
Proof. intros. apply en_true. Qed.

Section Rec.
Variable rec : ty -> list val -> prog (list val).
Hypothesis Hrec : forall t vs, Forall sane vs -> ensures (rec t vs) (eq vs).

Lemma ro_ser : forall t v, sane v -> ensures (ser rec t v) (eq v).
Proof.
  intros t v Hv. unfold ser. eapply en_bind; [apply Hrec; auto|].
  intros a <-. now apply en_ret.
Qed.

Lemma ro_word : forall id sz n, ensures (ser_word rec id sz n) (fun x => x = unle (le sz n)).
Proof.
  intros. unfold ser_word. eapply en_bind; [apply ro_ser; exact I|].
  intros a <-. now apply en_ret.
Qed.

Lemma ro_bool : forall b, ensures (ser_bool rec b) (eq b).
Proof.
  intros b. unfold ser_bool. eapply en_bind; [apply ro_word|].
  intros a ->. destruct b; cbn; now apply en_ret.
Qed.

Lemma ro_array : forall t vs, Forall sane vs -> ensures (ser_array rec t vs) (eq vs).
Proof. intros t [|v vs] H; cbn [ser_array]; [now apply en_ret|auto]. Qed.

Lemma ro_elems : forall t l, Forall sane l -> ensures (mapP (ser rec t) l) (eq l).
Proof.
  intros t l H. apply en_mapP. eapply Forall_impl; [|exact H]. intros. now apply ro_ser.
Qed.

Lemma ro_meta : forall cap n, ensures (ser_vector_meta rec cap n) (fun p => fst p = cap).
Proof.
  intros. unfold ser_vector_meta. eapply en_bind; [apply ro_word|]. intros a ->.
  eapply en_bind; [apply en_true|]. intros b _. apply en_ret. cbn [fst].
  pose proof (unle_le_le 8 cap). lia.
Qed.

Lemma ro_tuple : forall ts l, Forall sane l -> ensures (ser_tuple rec ts l) (eq l).
Proof.
  induction ts as [|t ts IH]; intros [|v l] H; cbn [ser_tuple];
    try apply en_fail; [now apply en_ret|].
  inversion H; subst. eapply en_bind; [now apply ro_ser|]. intros a <-.
  eapply en_bind; [now apply IH|]. intros a <-. now apply en_ret.
Qed.

Lemma ro_entry : forall ts v e cur, sane v -> ensures (ser_entry E m rec ts v e cur) (eq v).
Proof.
  induction ts as [|t ts IH]; intros v e cur H; cbn [ser_entry]; [now apply en_ret|].
  destruct (e =? N.of_nat cur); [|now apply IH].
  rewrite ro_unp. destruct v; try apply en_fail.
  destruct (Nat.eqb i cur); [|apply en_fail].
  eapply en_bind; [apply ro_ser; exact H|]. intros a <-. now apply en_ret.
Qed.

Lemma ro_pointed : forall t p, ensures (reconstruct_pointed E m rec t p) (eq p).
Proof.
  intros t p. unfold reconstruct_pointed. rewrite ro_unp.
  assert (H0 : ensures (match p with Some v => Ret (Some v) | None => Ret None end) (eq p))
    by (destruct p; now apply en_ret).
  destruct t; auto. destruct (is_virtual E (TClass c)); auto.
  eapply en_bind; [apply en_true|]. intros; auto.
Qed.

Lemma ro_members : forall ts is_ fs, Forall sane fs ->
  ensures (ser_members rec ts is_ fs) (eq fs).
Proof.
  intros ts is_ fs H. unfold ser_members. apply en_foldP; auto.
  intros b i <-. destruct (nth_error ts i); [|apply en_fail].
  destruct (nth_error fs i) as [v|] eqn:Ev; [|apply en_fail].
  eapply en_bind; [apply ro_ser|].
  - rewrite Forall_forall in H. apply H. eapply nth_error_In; eauto.
  - intros a <-. apply en_ret. symmetry. now apply upd_same.
Qed.

Lemma ro_static : forall c v, sane v -> ensures (apply_static E m rec c v) (eq v).
Proof.
  intros c v H. unfold apply_static. destruct v; try apply en_fail.
  destruct (cls E c); [|apply en_fail].
  destruct (nth_error ls (level E c)) as [fs|] eqn:Ef; [|apply en_fail].
  apply en_note. eapply en_bind.
  - apply ro_members. cbn in H. rewrite sane_lists, Forall_forall in H. apply H.
    eapply nth_error_In; eauto.
  - intros a <-. apply en_note, en_ret. f_equal. symmetry. now apply upd_same.
Qed.

Lemma ro_dyn : forall v, sane v -> ensures (dyn_serialize E rec v) (eq v).
Proof.
  intros v H. unfold dyn_serialize. destruct v; try apply en_fail.
  destruct (is_virtual E (TClass c)); [|apply en_fail].
  apply en_foldP; auto. intros b a <-. apply en_note, en_setv. now apply ro_ser.
Qed.

Lemma ro_size_of : forall ct n, ensures (ser_container_size E m rec ct n) (fun _ => True).
Proof. intros. apply en_true. Qed.

Lemma ro_assoc : forall k t v, sane v -> ensures (ser_assoc E m rec k t v) (eq v).
Proof.
  intros k t v H. unfold ser_assoc. eapply en_bind; [apply en_true|]. intros l _.
  eapply en_bind; [apply en_true|]. intros n _. rewrite ro_unp.
  eapply en_bind; [apply en_true|]. intros. now apply en_ret.
Qed.

Lemma ro_variant : forall ts v, sane v -> ensures (ser_variant E m rec ts v) (eq v).
Proof.
  intros ts v H. unfold ser_variant. eapply en_bind; [apply en_true|]. intros i _.
  eapply en_bind; [apply en_true|]. intros. now apply ro_entry.
Qed.

Lemma ro_elem : forall t v, sane v -> ensures (apply_elem E m rec t v) (eq v).
Proof.
  intros t v H. destruct t; destruct v; cbn [apply_elem]; try apply en_fail;
    try (now apply ro_static); try (now apply ro_assoc); try (now apply ro_variant);
    try (destruct (is_footprinting m); [try apply en_note; apply en_count; now apply en_ret|apply en_fail]).
  - apply ro_ser; exact I.
  - apply ro_ser; exact I.
  - (* string *)
    cbn in H. destruct H as [H1 H2]. unfold ser_string. destruct (is_footprinting m).
    + apply en_count. eapply en_bind; [apply en_true|]. intros. now apply en_ret.
    + eapply en_bind; [apply ro_word|]. intros a ->. rewrite unle_le by exact H2.
      replace (N.to_nat (len b)) with (length b) by (unfold len; lia).
      rewrite resize_id. eapply en_bind.
      { apply ro_array. unfold chars. rewrite Forall_map. now apply Forall_forall. }
      intros a <-. eapply en_bind; [apply en_of_opt; intros a Ha; exact Ha|].
      intros a Ha.
      assert (Hu : unchars (chars b) = Some b).
      { clear. unfold chars. induction b; cbn; auto. now rewrite IHb. }
      rewrite Hu in Ha. inversion Ha; subst. apply en_ret. f_equal. lia.
  - (* vector *)
    cbn in H. destruct H as [H1 H2]. apply sane_list in H2.
    unfold ser_vector. destruct (is_footprinting m).
    + apply en_count. eapply en_bind; [now apply ro_array|]. intros a <-.
      apply en_count. now apply en_ret.
    + eapply en_bind; [apply ro_meta|]. intros [cap' n] Hc. cbn in Hc. subst cap'.
      cbn beta iota. rewrite ro_unp.
      eapply en_bind; [apply en_ret; exact (eq_refl l)|]. intros a Ha. subst a.
      eapply en_bind; [now apply ro_array|]. intros a <-. apply en_ret. f_equal. lia.
  - (* vector<bool> *)
    unfold ser_vecbool. destruct (is_footprinting m).
    + apply en_count. now apply en_ret.
    + eapply en_bind; [apply ro_meta|]. intros [cap' n] Hc. cbn in Hc. subst cap'.
      cbn beta iota. rewrite ro_unp. eapply en_bind; [apply en_true|]. intros. now apply en_ret.
  - unfold ser_stdarray. eapply en_bind; [apply ro_array; now apply sane_list|].
    intros a <-. now apply en_ret.
  - unfold ser_list. eapply en_bind; [apply en_true|]. intros n _. rewrite ro_unp.
    eapply en_bind; [apply ro_elems; now apply sane_list|]. intros a <-. now apply en_ret.
  - unfold ser_queue. destruct (is_footprinting m).
    + do 2 apply en_count. now apply en_ret.
    + eapply en_bind; [apply en_true|]. intros n _. rewrite ro_unp.
      eapply en_bind; [apply en_true|]. intros. now apply en_ret.
  - destruct l as [|x [|y [|z r]]]; try apply en_fail.
    cbn in H. destruct H as (Hx & Hy & _).
    unfold ser_pair. apply en_count. eapply en_bind; [now apply ro_ser|]. intros a <-.
    eapply en_bind; [now apply ro_ser|]. intros a <-. now apply en_ret.
  - eapply en_bind; [apply ro_tuple; now apply sane_list|]. intros a <-. now apply en_ret.
  - unfold ser_optional. destruct (is_footprinting m).
    + apply en_count. destruct o; [apply en_count|]; now apply en_ret.
    + rewrite ro_unp. eapply en_bind; [apply en_true|]. intros _ _. destruct o as [x|].
      * eapply en_bind; [now apply ro_ser|]. intros a <-. now apply en_ret.
      * now apply en_ret.
  - unfold ser_unique. eapply en_bind; [apply en_true|]. intros b _. rewrite ro_unp.
    destruct b; [now apply en_ret|].
    eapply en_bind; [apply ro_pointed|]. intros a <-. destruct o as [x|]; [|apply en_fail].
    eapply en_bind; [now apply ro_ser|]. intros a <-. now apply en_ret.
  - unfold ser_followed. destruct (is_footprinting m); [|apply en_fail]. apply en_count.
    destruct o as [x|]; [|now apply en_ret].
    eapply en_bind; [now apply ro_ser|]. intros a <-. now apply en_ret.
  - unfold ser_followed. destruct (is_footprinting m); [|apply en_fail]. apply en_count.
    destruct o as [x|]; [|now apply en_ret].
    eapply en_bind; [now apply ro_ser|]. intros a <-. now apply en_ret.
  - unfold ser_adaptor. destruct (is_footprinting m); [|apply en_fail].
    do 2 apply en_count. now apply en_ret.
Qed.

Lemma ro_ap : forall t vs, Forall sane vs -> ensures (ap E m rec t vs) (eq vs).
Proof.
  intros t vs H. unfold ap. destruct (bytecopy E t).
  - destruct (opt_all (map (obj_bytes E t) vs)) as [bs|] eqn:Eb; [|apply en_fail].
    apply en_contig. apply en_ret. symmetry. now apply unflatten_id.
  - assert (Hmap : ensures (mapP (apply_elem E m rec t) vs) (eq vs)).
    { apply en_mapP. eapply Forall_impl; [|exact H]. intros. now apply ro_elem. }
    destruct (is_virtual E t); auto. apply en_getv. intros []; [now apply en_setv|].
    destruct vs as [|v r]; [now apply en_ret|].
    inversion H; subst. eapply en_bind; [now apply ro_dyn|]. intros a <-. now apply en_ret.
Qed.

Lemma ro_traverse : forall t vs, Forall sane vs -> ensures (traverse E m rec t vs) (eq vs).
Proof.
  intros t vs H. unfold traverse. destruct (chk E); [|now apply ro_ap].
  eapply en_bind; [apply en_true|]. intros _ _.
  eapply en_bind; [apply en_catch; now apply ro_ap|]. intros a <-.
  eapply en_bind; [apply en_true|]. intros _ _. now apply en_ret.
Qed.
End Rec.

Lemma ro_with : forall f t vs, Forall sane vs -> ensures (with_ E m f t vs) (eq vs).
Proof.
  induction f; intros t vs H; cbn [with_]; [apply en_fail|].
  now apply ro_traverse.
Qed.

Lemma ro_root : forall f t v, sane v -> ensures (with_root E m f t v) (eq v).
Proof.
  intros f t v H. unfold with_root.
  assert (Hs : ensures (ser (with_ E m f) t v) (eq v)) by (apply ro_ser; auto; apply ro_with).
  destruct (chk E); auto.
  eapply en_bind; [apply en_true|]. intros _ _.
  eapply en_bind; [exact Hs|]. intros a <-.
  eapply en_bind; [apply en_true|]. intros _ _. now apply en_ret.
Qed.
End ReadOnly.
