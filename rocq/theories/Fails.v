(** Executions that end in a failure, and what a successful execution says about
    the bytes that were produced. *)
From Coq Require Import List NArith Arith Bool Lia.
From Verif Require Import Base Syntax Prog Serializers Traverse ProgFacts.
Import ListNotations.
Local Open Scope N_scope.

Lemma interp_bind_inv : forall H A B (p : prog A) (f : A -> prog B) vf s r,
  interp H (bind p f) vf s = Ok r ->
  exists a vf' s', interp H p vf s = Ok (a, vf', s') /\ interp H (f a) vf' s' = Ok r.
Proof.
  intros * Hi. rewrite interp_bind in Hi.
  destruct (interp H p vf s) as [[[a vf'] s']|e]; [|discriminate]. eauto.
Qed.

Lemma interp_catch_inv : forall H A t (p : prog A) vf s x,
  interp H (catch t p) vf s = Ok x -> interp H p vf s = Ok x.
Proof.
  intros H A t p. induction p; intros vf s x Hi; cbn [catch interp] in *; eauto.
  - destruct (contig H b s) as [[b' s']|e]; eauto; discriminate.
  - destruct e; discriminate.
Qed.

(** ** Failing reads *)

(** [fails p vf i x]: on an input starting with [i], whatever follows and even if
    nothing does, [p] ends with failure [x]. *)
Definition fails {A} (p : prog A) (vf : bool) (i : bytes) (x : fail) : Prop :=
  forall e rest, interp (reader e) p vf (i ++ rest) = Err x.

Lemma fails_fail : forall A vf x, fails (@Fail A x) vf [] x.
Proof. intros A vf x e rest. reflexivity. Qed.

Lemma fails_bind_l : forall A B (p : prog A) (f : A -> prog B) vf i x,
  fails p vf i x -> fails (bind p f) vf i x.
Proof. intros * H e rest. now rewrite interp_bind, H. Qed.

Lemma fails_bind_r : forall A B (p : prog A) (f : A -> prog B) vf i a vf' j x,
  reads p vf i a vf' -> fails (f a) vf' j x -> fails (bind p f) vf (i ++ j) x.
Proof. intros * H1 H2 e rest. rewrite interp_bind, <- app_assoc, H1. apply H2. Qed.

Lemma fails_contig : forall A b (k : bytes -> prog A) vf y i x,
  length y = length b -> fails (k y) vf i x -> fails (Contig b k) vf (y ++ i) x.
Proof.
  intros * Hl H e rest. cbn [interp reader contig].
  rewrite <- app_assoc, split_at_app by auto. apply H.
Qed.

Lemma fails_count : forall A n (k : prog A) vf i x, fails k vf i x -> fails (Count n k) vf i x.
Proof. intros * H e rest. cbn. apply H. Qed.
Lemma fails_note : forall A n (k : prog A) vf i x, fails k vf i x -> fails (Note n k) vf i x.
Proof. intros * H e rest. cbn. apply H. Qed.
Lemma fails_getv : forall A (k : bool -> prog A) vf i x, fails (k vf) vf i x -> fails (GetV k) vf i x.
Proof. intros * H e rest. cbn. apply H. Qed.
Lemma fails_setv : forall A c (k : prog A) vf i x, fails k c i x -> fails (SetV c k) vf i x.
Proof. intros * H e rest. cbn. apply H. Qed.

Lemma fails_more : forall A (p : prog A) vf i j x, fails p vf i x -> fails p vf (i ++ j) x.
Proof. intros * H e rest. rewrite <- app_assoc. apply H. Qed.

Lemma fails_eq : forall A (p : prog A) vf i j x, fails p vf i x -> i = j -> fails p vf j x.
Proof. intros; subst; auto. Qed.

(** A failure that is not due to missing input happens alike in the body of a
    try block. *)
Lemma reader_catch : forall A t (p : prog A) vf s e x, interp (reader e) p vf s = Err x -> x <> e ->
  forall e', interp (reader e') (catch t p) vf s = Err (bump t x).
Proof.
  intros A t p. induction p; intros vf s e0 x Hi Hn e'; cbn [catch interp] in *; eauto.
  - discriminate.
  - cbn [contig reader] in *. destruct (split_at (length b) s) as [[y r]|]; eauto.
    congruence.
  - inversion Hi; subst. destruct x; reflexivity.
Qed.

Lemma other_fail : forall x : fail, exists e, x <> e.
Proof. intros []; first [exists UB; discriminate | exists RtErr; discriminate]. Qed.

Lemma fails_catch : forall A t (p : prog A) vf i x, fails p vf i x -> fails (catch t p) vf i (bump t x).
Proof.
  intros * H e rest. destruct (other_fail x) as (e0 & He).
  eapply reader_catch; [apply (H e0)|auto].
Qed.

Lemma fails_unpacker : forall A (p : prog A) vf i x, fails p vf i x ->
  forall before after u,
  interp unpacker p vf {| u_buf := before ++ i ++ after; u_cur := length before; u_used := wrap64 u |}
  = Err x.
Proof.
  intros * H before after u.
  pose proof (unpacker_reader _ p vf (before ++ i ++ after) (length before) u) as U.
  rewrite skipn_app, skipn_all, Nat.sub_diag, skipn_O in U. cbn [app] in U.
  rewrite (H UB after) in U. apply U. rewrite app_length. lia.
Qed.

Lemma fails_stream : forall A (p : prog A) vf i x, fails p vf i x ->
  forall after u,
  interp stream_unpacker p vf {| i_data := i ++ after; i_nbytes := wrap64 u |} = Err x.
Proof.
  intros * H after u. pose proof (stream_reader _ p vf (i ++ after) u) as U.
  now rewrite (H RtErr after) in U.
Qed.

(** ** Successful writes *)

(** Serializers that only take bytes hand them back unchanged, so they all run
    the program alike: success of one means [emits]. *)
Lemma sizer_emits : forall A (p : prog A) vf n a vf' n',
  interp sizer p vf n = Ok (a, vf', n') ->
  exists out, emits p vf a vf' out /\ (n < two64 -> n' = wrap64 (n + len out)).
Proof.
  intros A p. induction p; intros vf n0 x vf' n' Hi; cbn [interp] in Hi.
  - inversion Hi; subst. exists []. split; [apply emits_ret|]. intros Hn.
    rewrite len_nil, N.add_0_r. unfold wrap64. now rewrite N.mod_small by auto.
  - cbn [contig sizer] in Hi. apply H in Hi. destruct Hi as (out & He & Hn).
    exists (b ++ out). split; [now apply emits_contig|]. intros Hlt.
    rewrite Hn by (apply N.mod_lt; discriminate). rewrite wrap64_add, len_app. f_equal. lia.
  - apply IHp in Hi. destruct Hi as (out & He & Hn). exists out. split; [now apply emits_count|auto].
  - apply H in Hi. destruct Hi as (out & He & Hn). exists out. split; [now apply emits_getv|auto].
  - apply IHp in Hi. destruct Hi as (out & He & Hn). exists out. split; [now apply emits_setv|auto].
  - apply IHp in Hi. destruct Hi as (out & He & Hn). exists out. split; [now apply emits_note|auto].
  - discriminate.
Qed.

Lemma write_at_split : forall m off b m', write_at m off b = Some m' ->
  exists pre old post, m = pre ++ old ++ post /\ length pre = off /\ length old = length b /\
    m' = pre ++ b ++ post.
Proof.
  intros m off b m' H. unfold write_at in H.
  destruct (off + length b <=? length m)%nat eqn:E; [|discriminate]. apply Nat.leb_le in E.
  inversion H; subst. exists (firstn off m), (firstn (length b) (skipn off m)), (skipn (off + length b) m).
  split.
  { rewrite <- (firstn_skipn off m) at 1. f_equal.
    rewrite <- (firstn_skipn (length b) (skipn off m)) at 1. f_equal. now rewrite <- skipn_plus. }
  rewrite !firstn_length, skipn_length. repeat split; lia.
Qed.

Lemma packer_emits : forall A (p : prog A) vf s a vf' s',
  interp packer p vf s = Ok (a, vf', s') -> (p_cur s <= length (p_buf s))%nat ->
  exists out, emits p vf a vf' out /\ (p_cur s + length out <= length (p_buf s))%nat /\
    p_buf s' = firstn (p_cur s) (p_buf s) ++ out ++ skipn (p_cur s + length out) (p_buf s) /\
    p_cur s' = (p_cur s + length out)%nat /\
    (p_used s < two64 -> p_used s' = wrap64 (p_used s + len out)).
Proof.
  intros A p. induction p; intros vf s x vf' s' Hi Hc; cbn [interp] in Hi.
  - inversion Hi; subst. exists []. split; [apply emits_ret|]. cbn [length app].
    rewrite Nat.add_0_r, firstn_skipn. repeat split; auto. intros Hn.
    rewrite len_nil, N.add_0_r. unfold wrap64. now rewrite N.mod_small by auto.
  - cbn [contig packer] in Hi.
    destruct (write_at (p_buf s) (p_cur s) b) as [m|] eqn:Ew; [|discriminate].
    apply write_at_split in Ew. destruct Ew as (pre & old & post & Hm & Hp & Ho & ->).
    apply H in Hi.
    2:{ cbn [p_cur p_buf]. rewrite !app_length. lia. }
    destruct Hi as (out & He & Hl & Hb & Hcur & Hu). cbn [p_cur p_buf p_used] in *.
    assert (F1 : firstn (p_cur s + length b) (pre ++ b ++ post) = pre ++ b).
    { rewrite app_assoc, <- Hp, <- app_length, firstn_app, firstn_all, Nat.sub_diag, firstn_O.
      apply app_nil_r. }
    assert (F2 : forall x, length x = length b ->
      skipn (p_cur s + length b + length out) (pre ++ x ++ post) = skipn (length out) post).
    { intros y Hy. rewrite app_assoc, <- Hp, <- Hy, <- app_length, skipn_app.
      rewrite skipn_all2 by lia. cbn [app]. f_equal. lia. }
    assert (F3 : firstn (p_cur s) (pre ++ old ++ post) = pre).
    { rewrite <- Hp, firstn_app, firstn_all, Nat.sub_diag, firstn_O. apply app_nil_r. }
    exists (b ++ out). split; [now apply emits_contig|].
    rewrite Hm, !app_length, Nat.add_assoc, F3, (F2 old Ho).
    rewrite F1, (F2 b eq_refl) in Hb. rewrite !app_length in Hl.
    split; [lia|]. split; [|split; [lia|]].
    + rewrite Hb, <- !app_assoc. reflexivity.
    + intros Hn. rewrite Hu by (apply N.mod_lt; discriminate).
      rewrite wrap64_add, len_app, N.add_assoc. reflexivity.
  - apply IHp in Hi; [|exact Hc]. destruct Hi as (out & He & Hr). exists out. split; [now apply emits_count|auto].
  - apply H in Hi; [|exact Hc]. destruct Hi as (out & He & Hr). exists out. split; [now apply emits_getv|auto].
  - apply IHp in Hi; [|exact Hc]. destruct Hi as (out & He & Hr). exists out. split; [now apply emits_setv|auto].
  - apply IHp in Hi; [|exact Hc]. destruct Hi as (out & He & Hr). exists out. split; [now apply emits_note|auto].
  - discriminate.
Qed.

(** A stream without limit. *)
Lemma stream_emits : forall A (p : prog A) vf d u a vf' s',
  interp stream_packer p vf {| o_data := d; o_room := None; o_bad := false; o_nbytes := u |}
  = Ok (a, vf', s') ->
  exists out, emits p vf a vf' out /\ o_data s' = d ++ out /\ o_bad s' = false /\ o_room s' = None.
Proof.
  intros A p. induction p; intros vf d u x vf' s' Hi; cbn [interp] in Hi.
  - inversion Hi; subst. exists []. split; [apply emits_ret|]. cbn. now rewrite app_nil_r.
  - cbn [contig stream_packer owrite o_bad o_room o_data o_nbytes] in Hi. apply H in Hi.
    destruct Hi as (out & He & Hd & Hr). exists (b ++ out). split; [now apply emits_contig|].
    rewrite Hd, <- app_assoc. auto.
  - apply IHp in Hi. destruct Hi as (out & He & Hr). exists out. split; [now apply emits_count|auto].
  - apply H in Hi. destruct Hi as (out & He & Hr). exists out. split; [now apply emits_getv|auto].
  - apply IHp in Hi. destruct Hi as (out & He & Hr). exists out. split; [now apply emits_setv|auto].
  - apply IHp in Hi. destruct Hi as (out & He & Hr). exists out. split; [now apply emits_note|auto].
  - discriminate.
Qed.

Lemma emits_fun : forall A (p : prog A) vf a vf' out b vf'' out',
  emits p vf a vf' out -> emits p vf b vf'' out' -> a = b /\ vf' = vf'' /\ out = out'.
Proof.
  intros * H1 H2. specialize (H1 []). specialize (H2 []). cbn [app] in *. rewrite H1 in H2.
  inversion H2. auto.
Qed.

Lemma emits_inv_bind : forall A B (p : prog A) (f : A -> prog B) vf b vf' out,
  emits (bind p f) vf b vf' out ->
  exists a vf1 o1 o2, emits p vf a vf1 o1 /\ emits (f a) vf1 b vf' o2 /\ out = o1 ++ o2.
Proof.
  intros * H. specialize (H []). cbn [app] in H. apply interp_bind_inv in H.
  destruct H as (a & vf1 & s1 & H1 & H2).
  apply collector_app in H1. destruct H1 as (o1 & -> & H1).
  apply collector_app in H2. destruct H2 as (o2 & Ho & H2). cbn [app] in Ho.
  exists a, vf1, o1, o2. auto.
Qed.
