(** Every serialization_error that leaves the traversal of an object with Kokkos views and
    maps in it carries a message of the form that KMessage.v asks for. *)
From Coq Require Import List NArith Arith Bool Lia.
From Verif Require Import Base Syntax Prog Serializers Traverse Spec Message ProgFacts ApiFacts Closure
  Unpack PropVirtual MessageFacts Views Crs Members MembersFacts KMessage.
Import ListNotations.
Local Open Scope N_scope.

(** From the outside in. *)
Inductive kmessage (E : env) : item -> nat -> list line -> Prop :=
| KHere i l : complaint E (item_name i) l -> kmessage E i 0 [l]
| KFrame j i d ls : inside E j i -> kmessage E i d ls ->
    kmessage E j (S d) (ls ++ [Frame (S d) (tix E (item_name j))]).

Lemma plain_message : forall E t d ls, message E t d ls -> kmessage E (IPlain t) d ls.
Proof.
  intros E t d ls H. induction H as [t l Hl|t u d ls Hd H IH].
  - now apply KHere.
  - apply (KFrame E (IPlain t) (IPlain u)); [now apply InPlain|exact IH].
Qed.

Lemma enclosed_snoc : forall E i is j r, enclosed E i is j -> inside E r j -> enclosed E i (is ++ [r]) r.
Proof.
  intros E i is j r H Hd. induction H as [j|i x is j Hx H IH]; cbn [app].
  - apply EnIn; [exact Hd|apply EnRoot].
  - apply EnIn; [exact Hx|now apply IH].
Qed.
Lemma message_accounted : forall E r d ls, kmessage E r d ls -> accounted E r d ls.
Proof.
  intros E r d ls H. induction H as [i l Hl|j i d ls Hd H (x & is & l & -> & <- & Hn & Hl)].
  - exists i, [], l. repeat split; auto. apply EnRoot.
  - exists x, (is ++ [j]), l. split; [|split; [|split]].
    + cbn [app]. f_equal. rewrite map_app. cbn [map]. rewrite frames_snoc, map_length. reflexivity.
    + rewrite app_length. cbn [length]. lia.
    + eapply enclosed_snoc; eauto.
    + exact Hl.
Qed.

Section Members.
Variable E : env.
Variable wf : wf_env any E.
Variable nobv : no_bytewise_virtual E.
Variable span : list N -> list N -> N.
Variable K : kokkos_map.
Variable m : mode.
Variable f : nat.
Local Notation rec := (with_ E m f).

(** Errors are thrown while reading only, and in builds that check types. *)
Definition says (i : item) (d : nat) (l : list line) : Prop :=
  chk E = true /\ m = MUnpacking /\ kmessage E i d l.
Definition says_inside (j : item) (d : nat) (l : list line) : Prop :=
  exists i, inside E j i /\ says i d l.

Section Loops.
Variable Q : nat -> list line -> Prop.
Lemma s_map : forall A B (g : A -> prog B) l, (forall a, speaks Q false false _ (g a)) ->
  speaks Q false false _ (mapP g l).
Proof.
  intros A B g l H. induction l as [|a l IH]; cbn [mapP]; [apply s_ret|].
  eapply s_bind; [apply H|]. intros b. eapply s_bind; [exact IH|]. intros bs. apply s_ret.
Qed.
Lemma s_fold : forall A B (g : B -> A -> prog B) l acc, (forall b a, speaks Q false false _ (g b a)) ->
  speaks Q false false _ (foldP g l acc).
Proof.
  intros A B g l acc H. revert acc. induction l as [|a l IH]; intros acc; cbn [foldP]; [apply s_ret|].
  eapply s_bind; [apply H|]. exact IH.
Qed.
Lemma s_of_opt : forall A (o : option A), speaks Q false false _ (of_opt o).
Proof. intros A [a|]; [apply s_ret|now apply s_fail]. Qed.
Lemma s_valid : forall A (o : option A), speaks Q false false _ (valid o).
Proof. intros A [a|]; [apply s_ret|now apply s_fail]. Qed.
End Loops.

Lemma s_object : forall A j n (p : prog A), speaks (says_inside j) false false _ p ->
  speaks (says j) false false _
    (if chk E then
       bind (with_type_idx E m (item_name j)) (fun _ =>
       bind (catch (tix E (item_name j)) p) (fun a =>
       bind (with_mem_used E m (item_name j) n) (fun _ => Ret a)))
     else p).
Proof.
  intros A j n p H. destruct (chk E) eqn:Hc.
  - assert (W : forall d l, told_here E m (item_name j) d l -> says j d l).
    { intros d l ((Hm & Hl) & ->). split; [exact Hc|]. split; [exact Hm|].
      inversion Hl; subst. now apply KHere. }
    eapply s_bind; [eapply s_weaken; [exact W|eapply s_type_idx; exact wf]|]. intros _. eapply s_bind.
    { eapply s_catch; [|exact H]. intros d l (i & Hi & _ & Hm & Hl).
      split; [exact Hc|]. split; [exact Hm|]. eapply KFrame; eauto. }
    intros a. eapply s_bind; [eapply s_weaken; [exact W|eapply s_mem_used; exact wf]|]. intros. apply s_ret.
  - eapply s_weaken; [|exact H]. intros d l (i & _ & Hx & _). congruence.
Qed.

Lemma s_rec : forall t vs, speaks (says (IPlain t)) false false _ (rec t vs).
Proof.
  intros t vs. destruct (chk E) eqn:Hc.
  - eapply s_weaken; [|apply (proj1 (s_with E any wf nobv m Hc f t vs))].
    intros d l (Hm & Hl). split; [exact Hc|]. split; [exact Hm|]. now apply plain_message.
  - eapply s_weaken; [|apply (proj1 (s_with_off E any wf nobv m Hc f t vs))]. contradiction.
Qed.

Section Inside.
Variable j : item.
Local Notation Q := (says_inside j).
Local Notation within t := (inside E j (IPlain t)).

Lemma in_rec : forall t vs, within t -> speaks Q false false _ (rec t vs).
Proof. intros t vs H. eapply s_weaken; [|apply s_rec]. intros d l Hl. now exists (IPlain t). Qed.
Lemma in_ser : forall t v, within t -> speaks Q false false _ (ser rec t v).
Proof. intros t v H. apply s_ser. now apply in_rec. Qed.
Lemma in_word : forall i n w, within (TPrim i n) -> speaks Q false false _ (ser_word rec i n w).
Proof.
  intros i n w H. unfold ser_word. eapply s_bind; [now apply in_ser|].
  intros []; first [apply s_ret|now apply s_fail].
Qed.
Lemma in_size : forall n, within SIZE -> speaks Q false false _ (ser_size rec n).
Proof. intros n. apply in_word. Qed.
Lemma in_int : forall n, within INT -> speaks Q false false _ (ser_int rec n).
Proof. intros n. apply in_word. Qed.
Lemma in_bool : forall b, within BOOL -> speaks Q false false _ (ser_bool rec b).
Proof.
  intros b H. unfold ser_bool. eapply s_bind; [now apply in_word|].
  intros n. repeat (match goal with |- context [if ?c then _ else _] => destruct c end);
    first [apply s_ret|now apply s_fail].
Qed.
Lemma in_array : forall t vs, within t -> speaks Q false false _ (ser_array rec t vs).
Proof. intros t [|v vs] H; cbn [ser_array]; [apply s_ret|now apply in_rec]. Qed.

Ltac go := repeat match goal with
  | |- speaks _ _ _ _ (Ret _) => apply s_ret
  | |- speaks _ _ _ _ (Fail _) => now apply s_fail
  | |- speaks _ _ _ _ (bind _ _) => eapply s_bind; [|intros ?]
  | |- speaks _ _ _ _ (mapP _ _) => apply s_map; intros ?
  | |- speaks _ _ _ _ (foldP _ _ _) => apply s_fold; intros ? ?
  | |- speaks _ _ _ _ (of_opt _) => apply s_of_opt
  | |- speaks _ _ _ _ (valid _) => apply s_valid
  | |- speaks _ _ _ _ (Note _ _) => apply s_note
  | |- speaks _ _ _ _ (Count _ _) => apply s_count
  | |- speaks _ _ _ _ (ser _ _ _) => apply in_ser
  | |- speaks _ _ _ _ (ser_word _ _ _ _) => apply in_word
  | |- speaks _ _ _ _ (ser_size _ _) => apply in_size
  | |- speaks _ _ _ _ (ser_int _ _) => apply in_int
  | |- speaks _ _ _ _ (ser_bool _ _) => apply in_bool
  | |- speaks _ _ _ _ (ser_array _ _ _) => apply in_array
  | |- speaks _ _ _ _ (construct _ _) => unfold construct
  | |- speaks _ _ _ _ (leave _ _ _ _) => unfold leave
  | |- speaks _ _ _ _ (if ?c then _ else _) => destruct c
  | |- speaks _ _ _ _ (match ?c with _ => _ end) => destruct c
  end; try assumption.

Lemma in_label : forall b, within TString -> speaks Q false false _ (ser_label rec b).
Proof. intros b H. unfold ser_label. go. Qed.
Lemma in_visit : forall t i v, within t -> speaks Q false false _ (visit E m rec t i v).
Proof. intros t i v H. unfold visit. go. Qed.
Lemma in_manual : forall d t v, within t -> speaks Q false false _ (traverse_manual E m rec d t v).
Proof.
  intros d t v H. unfold traverse_manual, trav0, visit0.
  destruct d as [|[|[|[|[|[|[|[|[|d]]]]]]]]]; [go|..|go];
    unfold trav1, trav2, trav3, trav4, trav5, trav6, trav7, trav8, for_;
    repeat (apply s_fold; intros ? ?); now apply in_visit.
Qed.
Lemma in_data : forall t n v, within t -> speaks Q false false _ (ser_data rec t n v).
Proof. intros t n v H. unfold ser_data. go. Qed.
Lemma in_new_view : forall vt l e s, speaks Q false false _ (new_view E span vt l e s).
Proof. intros. unfold new_view. go. Qed.
End Inside.

Ltac go := repeat match goal with
  | |- speaks _ _ _ _ (Ret _) => apply s_ret
  | |- speaks _ _ _ _ (Fail _) => now apply s_fail
  | |- speaks _ _ _ _ (bind _ _) => eapply s_bind; [|intros ?]
  | |- speaks _ _ _ _ (mapP _ _) => apply s_map; intros ?
  | |- speaks _ _ _ _ (foldP _ _ _) => apply s_fold; intros ? ?
  | |- speaks _ _ _ _ (of_opt _) => apply s_of_opt
  | |- speaks _ _ _ _ (valid _) => apply s_valid
  | |- speaks _ _ _ _ (Note _ _) => apply s_note
  | |- speaks _ _ _ _ (Count _ _) => apply s_count
  | |- speaks _ _ _ _ (ser _ _ _) => apply in_ser
  | |- speaks _ _ _ _ (ser_word _ _ _ _) => apply in_word
  | |- speaks _ _ _ _ (ser_size _ _) => apply in_size
  | |- speaks _ _ _ _ (ser_int _ _) => apply in_int
  | |- speaks _ _ _ _ (ser_bool _ _) => apply in_bool
  | |- speaks _ _ _ _ (ser_label _ _) => apply in_label
  | |- speaks _ _ _ _ (ser_data _ _ _ _) => apply in_data
  | |- speaks _ _ _ _ (traverse_manual _ _ _ _ _ _) => apply in_manual
  | |- speaks _ _ _ _ (new_view _ _ _ _ _ _) => apply in_new_view
  | |- speaks _ _ _ _ (construct _ _) => unfold construct
  | |- speaks _ _ _ _ (leave _ _ _ _) => unfold leave
  | |- speaks _ _ _ _ (if ?c then _ else _) => destruct c
  | |- speaks _ _ _ _ (match ?c with _ => _ end) => destruct c
  end; try (apply InObject; cbn [contents_of In]; tauto).

Lemma in_layout : forall j n k l, inside E j (ILayout n) ->
  speaks (says_inside j) false false _ (as_object E m n (ser_layout rec k l)).
Proof.
  intros j n k l H. eapply s_weaken; [|apply (s_object _ (ILayout n) 1)].
  - intros d ls Hl. now exists (ILayout n).
  - unfold ser_layout. destruct k; go; apply InLayout.
Qed.

Lemma o_view : forall vt v, speaks (says_inside (IObject (KView vt))) false false _ (ser_view E span m rec vt v).
Proof.
  intros vt v. unfold ser_view.
  repeat (go; try (apply in_layout)); go.
Qed.
Lemma o_const_view : forall vt v,
  speaks (says_inside (IObject (KView vt))) false false _ (ser_const_view E span m rec vt v).
Proof.
  intros vt v. unfold ser_const_view, deep_copy. go; apply o_view.
Qed.
Lemma o_dyn_view : forall vt v,
  speaks (says_inside (IObject (KDynRank vt))) false false _ (ser_dyn_view E span m rec vt v).
Proof.
  intros vt v. unfold ser_dyn_view.
  repeat (go; try (apply in_layout)); go.
Qed.
Lemma o_dynamic_view : forall n t v,
  speaks (says_inside (IObject (KDynamic n t))) false false _ (ser_dynamic_view E m rec t v).
Proof.
  intros n t v. unfold ser_dynamic_view, trav1, for_. go.
  apply in_visit. apply InObject; cbn [contents_of In]; tauto.
Qed.
Lemma o_kmap : forall n kt vt mp,
  speaks (says_inside (IObject (KMap n kt vt))) false false _ (ser_kmap E K m rec kt vt mp).
Proof.
  intros n kt vt mp. unfold ser_kmap, deser_kmap_elems, ser_kmap_elems. go.
Qed.

Lemma item_of_name : forall k, item_name (item_of k) = name_of k.
Proof. destruct k; reflexivity. Qed.

Lemma in_member : forall j k v p, inside E j (item_of k) ->
  ((forall t, k <> KVal t) -> speaks (says_inside (IObject k)) false false _ p) ->
  speaks (says_inside j) false false _ (member E m rec k v p).
Proof.
  intros j k v p Hj H.
  assert (Ho : (forall t, k <> KVal t) ->
    speaks (says_inside j) false false _ (as_object E m (name_of k) p)).
  { intros Hk. eapply s_weaken; [|apply (s_object _ (IObject k) 1); now apply H].
    intros d l Hl. exists (IObject k). split; [|exact Hl].
    destruct k; try exact Hj. now destruct (Hk t). }
  destruct k; cbn [member]; try (apply Ho; discriminate).
  destruct v; try now apply s_fail. eapply s_bind; [now apply in_ser|]. intros y. apply s_ret.
Qed.
Lemma in_array_of : forall j k p l, inside E j (item_of k) ->
  (forall v, speaks (says_inside (item_of k)) false false _ (p v)) ->
  speaks (says_inside j) false false _ (array_of E m k p l).
Proof.
  intros j k p l Hj H. destruct l as [|x l]; [apply s_ret|].
  eapply s_weaken with (Q := says (item_of k)); [intros d ls Hl; now exists (item_of k)|].
  unfold array_of. rewrite <- item_of_name. apply s_object. now apply s_map.
Qed.

Lemma o_own : forall k v, (forall t, k <> KVal t) ->
  speaks (says_inside (IObject k)) false false _ (own E span K m rec k v).
Proof.
  induction k as [t|vt|vt|n t|n kt vt|n ms IH|n k IH|n k IH|n k IH] using kty_rec'; intros [] Hn;
    cbn [own]; try now apply s_fail.
  - go; [apply o_const_view|apply o_view].
  - go. apply o_dyn_view.
  - go. apply o_dynamic_view.
  - unfold foot_kmap. go. apply o_kmap.
  - clear Hn. eapply s_bind; [|intros; apply s_ret].
    assert (Hin : forall k, In k ms -> inside E (IObject (KClass n ms)) (item_of k))
      by (intros k Hk; apply InObject; now apply in_map).
    revert members Hin. generalize (IObject (KClass n ms)) as j. intros j.
    induction IH as [|k ms Hk _ IHms]; intros [|v vs] Hin; go.
    + apply in_member; [apply Hin; now left|]. apply Hk.
    + apply IHms. intros k' Hk'. apply Hin. now right.
  - assert (Hi : inside E (IObject (KVec n k)) (item_of k)) by (apply InObject; cbn; tauto).
    assert (Ho : forall v, speaks (says_inside (item_of k)) false false _ (own E span K m rec k v)).
    { intros v. destruct k; try (apply IH; discriminate). cbn [own]. now apply s_fail. }
    unfold ser_vector_meta. repeat (go; try (apply in_array_of; assumption)).
  - assert (Hi : inside E (IObject (KOpt n k)) (item_of k)) by (apply InObject; cbn; tauto).
    go; (apply in_member; [exact Hi|apply IH]).
  - assert (Hi : inside E (IObject (KPtr n k)) (item_of k)) by (apply InObject; cbn; tauto).
    go; (apply in_member; [exact Hi|apply IH]).
Qed.

Lemma o_root : forall k v, (forall t, k <> KVal t) ->
  speaks (fun d l => m = MUnpacking /\ kmessage E (IObject k) d l /\ (chk E = false -> d = 0%nat))
    false false _ (root_member E span K f k m v).
Proof.
  intros k v Hn. unfold root_member, root_object. destruct (chk E) eqn:Hc.
  - eapply s_weaken; [|apply (s_object _ (IObject k) 1); now apply o_own].
    intros d l (_ & Hm & Hl). repeat split; auto; discriminate.
  - assert (W : forall d l, told_here E m (name_of k) d l ->
      m = MUnpacking /\ kmessage E (IObject k) d l /\ (false = false -> d = 0%nat)).
    { intros d l ((Hm & Hl) & ->). split; [exact Hm|]. split; [|reflexivity].
      inversion Hl; subst. now apply KHere. }
    eapply s_bind; [eapply s_weaken; [exact W|eapply s_type_idx; exact wf]|]. intros _. eapply s_bind.
    { eapply s_weaken; [|now apply o_own]. intros d l (i & _ & Hx & _). congruence. }
    intros a. eapply s_bind; [eapply s_weaken; [exact W|eapply s_mem_used; exact wf]|]. intros. apply s_ret.
Qed.
End Members.
