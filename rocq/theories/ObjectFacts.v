(** Objects outside of the type universe on every medium: facts about any traversal, and that
    those of views, maps and objects that contain them never throw what a stream throws. *)
From Coq Require Import List NArith Arith Bool Lia.
From Coq.Strings Require Import Byte.
From Verif Require Import Base Syntax Prog Serializers Traverse Spec ProgFacts Pack ApiFacts IO IOFacts Media
  Views ViewSpec ViewRound KMap Members MembersSpec MembersFacts ObjectIO.
Import ListNotations.
Local Open Scope N_scope.

(** ** Any traversal *)

Lemma object_stream_emits : forall A (ps pp : prog A) a a' out, emits ps false a' false out ->
  emits pp false a false out -> forall d u,
  object_to_stream ps pp {| o_data := d; o_room := None; o_bad := false; o_nbytes := wrap64 u |}
  = Ok (a, {| o_data := d ++ out; o_room := None; o_bad := false; o_nbytes := wrap64 (u + len out) |}).
Proof.
  intros A ps pp a a' out Hs Hp d u. unfold object_to_stream.
  pose proof (emits_sizer _ _ _ _ _ _ Hs 0) as H. change (wrap64 0) with 0 in H. rewrite H.
  now rewrite (emits_stream _ _ _ _ _ _ Hp).
Qed.

Lemma object_stream_reads : forall A (pu : prog A) a inp, reads pu false inp a false ->
  forall after u, object_from_stream pu {| i_data := inp ++ after; i_nbytes := wrap64 u |}
  = Ok (a, {| i_data := after; i_nbytes := wrap64 (u + len inp) |}).
Proof. intros A pu a inp H after u. unfold object_from_stream. now rewrite (reads_stream _ _ _ _ _ _ H). Qed.

Lemma object_stream_prefix : forall A (pu : prog A) a inp, reads pu false inp a false ->
  forall j l u, inp = j ++ l -> l <> [] ->
  object_from_stream pu {| i_data := j; i_nbytes := wrap64 u |} = Err RtErr.
Proof.
  intros A pu a inp H j l u Hj Hl. unfold object_from_stream.
  pose proof (reads_prefix _ _ _ _ _ _ H RtErr j l Hj Hl) as Hp.
  pose proof (stream_reader _ pu false j u) as S. rewrite Hp in S. now rewrite S.
Qed.

(** Writing a file, whatever fails. *)
Lemma object_file_emits : forall oracle hf page A (ps pp : prog A) a a' out w r w',
  emits ps false a' false out -> emits pp false a false out -> out <> [] -> len out < two64 ->
  w_dirty w = [] -> object_to_file oracle hf page ps pp w = (r, w') ->
  (exists tr, w_trace w' = w_trace w ++ tr /\
     (forall x, r = Ok x -> Forall benign tr) /\
     (forall e, r = Err e -> (e = RtErr \/ e = Terminate) /\ exists c, In c tr /\ snd c <> None)) /\
  (exists sn, w_snaps w' = w_snaps w ++ sn /\ Forall (snap_ok (w_disk w) out) sn) /\
  (forall x, r = Ok x -> x = a /\
     w_file w' = Some out /\ w_disk w' = Some out /\ w_dirty w' = [] /\
     w_fd w' = false /\ w_map w' = false).
Proof.
  intros oracle hf page A ps pp a a' out w r w' Hs Hp Hne Hl Hd H. unfold object_to_file in H.
  pose proof (emits_sizer _ _ _ _ _ _ Hs 0) as H0. change (wrap64 0) with 0 in H0. rewrite H0 in H.
  rewrite N.add_0_l in H. unfold wrap64 in H. rewrite N.mod_small in H by auto.
  destruct (to_mapping oracle hf page A pp a out w r w' Hp Hne Hd H) as ((tr & T & Tok & Terr) & Sn & Hok).
  split; [|split; auto]. exists tr. split; auto. split; [|auto]. intros x Hx. now destruct (Tok x Hx).
Qed.

Lemma object_file_run : forall oracle hf page A (ps pp : prog A) a a' out w,
  emits ps false a' false out -> emits pp false a false out -> out <> [] -> len out < two64 ->
  w_dirty w = [] -> (forall n, oracle n = None) ->
  exists w', object_to_file oracle hf page ps pp w = (Ok a, w').
Proof.
  intros oracle hf page A ps pp a a' out w Hs Hp Hne Hl Hd Ho. unfold object_to_file.
  pose proof (emits_sizer _ _ _ _ _ _ Hs 0) as H0. change (wrap64 0) with 0 in H0. rewrite H0.
  rewrite N.add_0_l. unfold wrap64. rewrite N.mod_small by auto.
  now apply (to_mapping_run oracle hf page A pp a out w).
Qed.

(** Reading a file, whatever fails. *)
Lemma object_from_file_any : forall oracle page A (pu : prog A) w r w',
  object_from_file oracle page pu w = (r, w') ->
  (exists tr, w_trace w' = w_trace w ++ tr /\
     (forall x, r = Ok x -> Forall (fun c => snd c = None) tr) /\
     ((exists c, In c tr /\ snd c <> None) -> r = Err RtErr \/ r = Err Terminate)) /\
  (Forall (fun c => snd c = None) (skipn (length (w_trace w)) (w_trace w')) ->
    contents w <> [] /\
    r = match deserialize_object pu (map_mem page (contents w)) 0 with Ok (x, _) => Ok x | Err e => Err e end).
Proof.
  intros oracle page A pu w r w' H. unfold object_from_file, ibind in H.
  destruct (setup_for_read oracle w) as [r1 w1] eqn:E1.
  destruct (setup_read oracle w r1 w1 E1) as ((tr1 & T1 & A1 & B1) & Hw1).
  destruct r1 as [[]|e1].
  2:{ inversion H; subst. destruct (B1 e1 eq_refl) as (-> & Hc). split.
      - exists tr1. split; auto. split; [discriminate|]. auto.
      - intros Hf. exfalso. rewrite T1, skipn_app, skipn_all, Nat.sub_diag, skipn_O in Hf.
        destruct Hc as (c & Hc & Hn). cbn [app] in Hf. rewrite Forall_forall in Hf. now apply Hn, Hf. }
  destruct (Hw1 eq_refl) as (F1 & C1 & O1). specialize (A1 eq_refl).
  assert (Hc1 : contents w1 = contents w) by (unfold contents; now rewrite F1).
  assert (Hn1 : contents w <> []) by auto.
  unfold scoped, unpack_mapping in H. rewrite Hc1 in H.
  destruct (deserialize_object pu (map_mem page (contents w)) 0) as [[x n]|e] eqn:Eu.
  - unfold ibind in H. destruct (destroy oracle false w1) as [[[]|e] w2] eqn:Ed.
    + inversion H; subst. apply destroy_ok in Ed; auto.
      destruct Ed as (_ & _ & _ & (tr & T & B) & _). split; [|auto].
      exists (tr1 ++ tr). rewrite T, T1, app_assoc. split; auto. split.
      * intros y _. apply Forall_app. auto.
      * intros (c & Hc & Hn). exfalso. apply in_app_or in Hc. rewrite Forall_forall in A1, B.
        destruct Hc as [Hc|Hc]; [now apply Hn, A1|now apply Hn, B].
    + inversion H; subst. apply destroy_err in Ed; auto.
      destruct Ed as (-> & (tr & T & c & Hc & Hn) & _). split.
      * exists (tr1 ++ tr). rewrite T, T1, app_assoc. split; auto. split; [discriminate|auto].
      * intros Hf. exfalso. rewrite T, T1, <- app_assoc, skipn_app, skipn_all, Nat.sub_diag, skipn_O in Hf.
        cbn [app] in Hf. apply Forall_app in Hf. destruct Hf as (_ & Hf). rewrite Forall_forall in Hf.
        now apply Hn, Hf.
  - destruct (is_exception e) eqn:Ee.
    + unfold ibind in H. destruct (destroy oracle false w1) as [[[]|e'] w2] eqn:Ed.
      * inversion H; subst. apply destroy_ok in Ed; auto.
        destruct Ed as (_ & _ & _ & (tr & T & B) & _). split; [|auto].
        exists (tr1 ++ tr). rewrite T, T1, app_assoc. split; auto. split; [discriminate|].
        intros (c & Hc & Hn). exfalso. apply in_app_or in Hc. rewrite Forall_forall in A1, B.
        destruct Hc as [Hc|Hc]; [now apply Hn, A1|now apply Hn, B].
      * inversion H; subst. apply destroy_err in Ed; auto.
        destruct Ed as (-> & (tr & T & c & Hc & Hn) & _). split.
        -- exists (tr1 ++ tr). rewrite T, T1, app_assoc. split; auto. split; [discriminate|auto].
        -- intros Hf. exfalso. rewrite T, T1, <- app_assoc, skipn_app, skipn_all, Nat.sub_diag, skipn_O in Hf.
           cbn [app] in Hf. apply Forall_app in Hf. destruct Hf as (_ & Hf). rewrite Forall_forall in Hf.
           now apply Hn, Hf.
    + inversion H; subst. split; [|auto].
      exists tr1. split; auto. split; [discriminate|].
      intros (c & Hc & Hn). exfalso. rewrite Forall_forall in A1. now apply Hn, A1.
Qed.

(** ** The traversals of views and maps *)
Section Quiet.
Variable E : env.
Variable span : list N -> list N -> N.
Variable K : kokkos_map.
Variable m : mode.
Variable rec : ty -> list val -> prog (list val).
Hypothesis Hrec : forall t vs, quiet (rec t vs).

Lemma q_valid : forall A (o : option A), quiet (Views.valid o).
Proof. intros A [a|]; constructor; discriminate. Qed.
Lemma q_for : forall S n (body : N -> S -> prog S) s, (forall i s, quiet (body i s)) ->
  quiet (for_ n body s).
Proof. intros S n body s H. apply quiet_fold. auto. Qed.
Lemma q_object : forall A t (p : prog A), quiet p -> quiet (as_object E m t p).
Proof.
  intros A t p H. unfold as_object. destruct (chk E); auto.
  apply quiet_bind; [apply q_type_idx|intros _]. apply quiet_bind; [now apply quiet_catch|intros a].
  apply quiet_bind; [apply q_mem_used|intros _]. constructor.
Qed.

Ltac go := repeat first
  [ apply q_ser; assumption | apply q_word; assumption | apply q_size; assumption
  | apply q_int; assumption | apply q_bool; assumption | apply q_array; assumption
  | apply q_construct | apply q_leave | apply q_valid
  | apply q_type_idx | apply q_mem_used
  | match goal with
    | |- quiet (Fail _) => constructor; discriminate
    | |- quiet (Ret _) => constructor
    | |- quiet (bind _ _) => apply quiet_bind; [|intros ?]
    | |- quiet (mapP _ _) => apply quiet_map; intros ?
    | |- quiet (foldP _ _ _) => apply quiet_fold; intros ? ?
    | |- quiet (for_ _ _ _) => apply q_for; intros ? ?
    | |- quiet (as_object _ _ _ _) => apply q_object
    | |- quiet (of_opt _) => unfold of_opt
    | |- quiet (match ?x with _ => _ end) => destruct x
    end ].

Lemma q_visit : forall t idx v, quiet (visit E m rec t idx v).
Proof. intros t idx v. unfold visit. go. Qed.
Lemma q_visit0 : forall t v, quiet (visit0 m rec t v).
Proof. intros t v. unfold visit0. go. Qed.
Lemma q_manual : forall n t v, quiet (traverse_manual E m rec n t v).
Proof.
  intros n t v. unfold traverse_manual, trav0, trav1, trav2, trav3, trav4, trav5, trav6, trav7, trav8.
  do 9 (destruct n as [|n]; [first [apply q_visit0 | repeat (apply q_for; intros ? ?); apply q_visit]|]).
  constructor. discriminate.
Qed.
Lemma q_label : forall b, quiet (ser_label rec b).
Proof. intros b. unfold ser_label. go. Qed.
Lemma q_new_view : forall vt b e s, quiet (new_view E span vt b e s).
Proof. intros. unfold new_view. go. Qed.
Lemma q_layout : forall k l, quiet (ser_layout rec k l).
Proof. intros k l. unfold ser_layout. go. Qed.
Lemma q_data : forall t n v, quiet (ser_data rec t n v).
Proof. intros t n v. unfold ser_data. go. Qed.
Lemma q_view : forall vt v, quiet (ser_view E span m rec vt v).
Proof.
  intros vt v. unfold ser_view.
  go; auto using q_label, q_new_view, q_layout, q_data, q_manual.
Qed.
Lemma q_const_view : forall vt v, quiet (ser_const_view E span m rec vt v).
Proof.
  intros vt v. unfold ser_const_view, deep_copy. go; auto using q_new_view, q_view.
Qed.
Lemma q_dyn_view : forall vt v, quiet (ser_dyn_view E span m rec vt v).
Proof.
  intros vt v. unfold ser_dyn_view.
  go; auto using q_label, q_new_view, q_layout, q_data, q_manual.
Qed.
Lemma q_dynamic : forall t v, quiet (ser_dynamic_view E m rec t v).
Proof.
  intros t v. unfold ser_dynamic_view. go; auto using q_label. apply (q_manual 1).
Qed.
Lemma q_kmap : forall kt vt mp, quiet (ser_kmap E K m rec kt vt mp).
Proof. intros kt vt mp. unfold ser_kmap, deser_kmap_elems, ser_kmap_elems. go. Qed.

Lemma q_member : forall k v p, quiet p -> quiet (member E m rec k v p).
Proof.
  intros k v p Hp. unfold member. destruct k; try (now apply q_object). destruct v; go.
Qed.
Lemma q_array_of : forall k p l, (forall x, quiet (p x)) -> quiet (array_of E m k p l).
Proof.
  intros k p l Hp. unfold array_of. destruct l as [|x l]; [constructor|].
  destruct (chk E); [|now apply quiet_map]. go. apply quiet_catch. now apply quiet_map.
Qed.

Lemma q_own : forall k v, quiet (own E span K m rec k v).
Proof.
  induction k as [t|vt|vt|n t|n kt vt|n ms IH|n k IH|n k IH|n k IH] using kty_rec'; intros v.
  - destruct v; constructor; discriminate.
  - destruct v; try (constructor; discriminate). cbn [own]. go; [apply q_const_view|apply q_view].
  - destruct v; try (constructor; discriminate). cbn [own]. go. apply q_dyn_view.
  - destruct v; try (constructor; discriminate). cbn [own]. go. apply q_dynamic.
  - destruct v; try (constructor; discriminate). cbn [own]. go; [repeat constructor|apply q_kmap].
  - destruct v; try (constructor; discriminate). cbn [own]. apply quiet_bind; [|intros; constructor].
    revert members. induction IH as [|k ms Hk _ IH]; intros [|v vs]; try (constructor; discriminate).
    apply quiet_bind; [now apply q_member|intros y]. apply quiet_bind; [apply IH|intros ys]. constructor.
  - destruct v; try (constructor; discriminate). cbn [own]. unfold ser_vector_meta. go.
    + constructor. go; [apply q_array_of; exact IH|]. repeat constructor.
    + apply q_array_of. exact IH.
  - destruct v; try (constructor; discriminate). cbn [own]. go; try (apply q_member; apply IH).
    constructor. go; repeat constructor.
  - destruct v; try (constructor; discriminate). cbn [own]. go; try (apply q_member; apply IH).
    repeat constructor.
Qed.
End Quiet.

Lemma q_root_object : forall E m A t (p : prog A), quiet p -> quiet (root_object E m t p).
Proof.
  intros E m A t p H. unfold root_object. destruct (chk E); [now apply q_object|].
  apply quiet_bind; [apply q_type_idx|intros _]. apply quiet_bind; [auto|intros a].
  apply quiet_bind; [apply q_mem_used|intros _]. constructor.
Qed.

Lemma q_root_member : forall E span K f k m v, quiet (root_member E span K f k m v).
Proof. intros. unfold root_member. apply q_root_object, q_own. intros. apply q_with. Qed.

(** ** Objects that contain views and maps *)
Section Objects.
Variable E : env.
Hypothesis wf : wf_env any E.
Variable span : list N -> list N -> N.
Hypothesis Hspan : wf_span span.
Hypothesis H0 : span [] [] = 1.
Variable K : kokkos_map.
Hypothesis wk : wf_kokkos K.
Variable f : nat.
Hypothesis Hf : (2 < f)%nat.

(** What is written. *)
Definition wmem (k : kty) (v : kval) : bytes := wroot E (name_of k) (wown E span k v).

(** A type and an object of it that can be written. *)
Definition fine (p : kty * kval) : Prop :=
  (forall t, fst p <> KVal t) /\ kty_ok E (fst p) /\ kheld E span K f (fst p) (snd p).

Lemma e_root_member : forall m, m = MPacking \/ m = MSizing -> forall k v, fine (k, v) ->
  emits (root_member E span K f k m v) false v false (wmem k v).
Proof.
  intros m Hm k v (Hn & Ht & Hh). cbn [fst snd] in *. apply e_root; auto. apply e_own; auto.
Qed.

Lemma r_root_member : forall k v w, fine (k, v) -> over E k v w -> exists x, kcopy k v x /\
  reads (root_member E span K f k MUnpacking w) false (wmem k v) x false.
Proof.
  intros k v w (Hn & Ht & Hh) Hw. cbn [fst snd] in *.
  destruct (r_own E wf span H0 Hspan K wk f Hf k v w Ht Hh Hw Hn) as (x & Hx & Hr).
  exists x. split; auto. now apply r_root.
Qed.

Lemma wmem_nonempty : forall k v, wmem k v <> [].
Proof.
  intros k v. unfold wmem, wroot, framed. destruct (chk E); cbn [le app]; discriminate.
Qed.

Definition wmems (l : list (kty * kval)) : bytes := concat (map (fun p => wmem (fst p) (snd p)) l).

Lemma members_write : forall l d u, Forall fine l ->
  members_to_stream E span K f l {| o_data := d; o_room := None; o_bad := false; o_nbytes := wrap64 u |}
  = Ok {| o_data := d ++ wmems l; o_room := None; o_bad := false; o_nbytes := wrap64 (u + len (wmems l)) |}.
Proof.
  intros l. induction l as [|[k v] l IH]; intros d u H; cbn [members_to_stream].
  - unfold wmems. cbn. now rewrite app_nil_r, N.add_0_r.
  - inversion H as [|? ? Hp Hl]; subst. unfold member_to_stream.
    erewrite object_stream_emits; [|apply e_root_member; auto|apply e_root_member; auto].
    rewrite IH by auto. unfold wmems. cbn [map concat fst snd]. rewrite len_app, <- app_assoc.
    do 2 f_equal. f_equal. lia.
Qed.

Lemma members_read : forall l ws, Forall fine l ->
  Forall2 (fun p w => over E (fst p) (snd p) w) l ws ->
  exists xs, Forall2 (fun p x => kcopy (fst p) (snd p) x) l xs /\
    forall after u, members_from_stream E span K f (combine (map fst l) ws)
      {| i_data := wmems l ++ after; i_nbytes := wrap64 u |}
    = Ok (xs, {| i_data := after; i_nbytes := wrap64 (u + len (wmems l)) |}).
Proof.
  intros l ws H Hw.
  induction Hw as [|[k v] w l ws Hp Hw IH]; cbn [map combine members_from_stream].
  - exists []. split; [constructor|]. intros after u. unfold wmems. cbn. now rewrite N.add_0_r.
  - inversion H as [|? ? Hk Hl]; subst. cbn [fst snd] in *.
    destruct (r_root_member k v w Hk Hp) as (x & Hx & Hr).
    destruct (IH Hl) as (xs & Hxs & Hi).
    exists (x :: xs). split; [constructor; auto|]. intros after u.
    unfold wmems. cbn [map concat fst snd]. rewrite <- app_assoc. unfold member_from_stream.
    rewrite (object_stream_reads _ _ _ _ Hr). fold (wmems l). rewrite Hi, len_app.
    do 2 f_equal. f_equal. f_equal. lia.
Qed.
End Objects.
