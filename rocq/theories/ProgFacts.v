(** Facts about programs and about how the serializers interpret them. *)
From Coq Require Import List NArith Arith Bool Lia.
From Verif Require Import Base Syntax Prog Serializers.
Import ListNotations.
Local Open Scope N_scope.

Definition app3 {A B C D} (f : A -> B -> C -> D) (x : A * B * C) : D :=
  let '(a, b, c) := x in f a b c.

Lemma interp_bind : forall H A B (p : prog A) (f : A -> prog B) vf s,
  interp H (bind p f) vf s =
  match interp H p vf s with
  | Ok (a, vf', s') => interp H (f a) vf' s'
  | Err e => Err e
  end.
Proof.
  intros H A B p f. induction p; intros vf s; cbn [bind interp]; auto.
  destruct (contig H b s) as [[b' s']|e]; auto.
Qed.

(** An exception leaving [catch] is the bumped one, unless it was thrown by the
    serializer itself. *)
Lemma interp_catch_ok : forall H A t (p : prog A) vf s x,
  interp H p vf s = Ok x -> interp H (catch t p) vf s = Ok x.
Proof.
  intros H A t p. induction p; intros vf s x Hi; cbn [catch interp] in *; eauto.
  - destruct (contig H b s) as [[b' s']|e]; eauto; discriminate.
  - discriminate.
Qed.

Lemma interp_catch_err : forall H A t (p : prog A) vf s e,
  (forall i b s e, contig H b s = Err e -> bump i e = e) ->
  interp H p vf s = Err e -> interp H (catch t p) vf s = Err (bump t e).
Proof.
  intros H A t p vf s e Hb. revert vf s e.
  induction p; intros vf s e0 Hi; cbn [catch interp] in *; eauto.
  - discriminate.
  - destruct (contig H b s) as [[b' s']|e1] eqn:E; eauto.
    inversion Hi; subst. rewrite (Hb _ _ _ _ E). reflexivity.
  - inversion Hi; subst. reflexivity.
Qed.

(* ------------------------------------------------------------------ *)
(** ** Writing *)

(** A serializer that collects the bytes it is given. *)
Definition collector : serializer := {|
  state := bytes;
  contig b s := Ok (b, s ++ b);
  count _ s := s;
  note _ s := s
|}.

(** [emits p vf a vf' out]: started with flag [vf] on a serializer that leaves
    objects alone, [p] returns [a], hands over exactly the bytes [out] and leaves
    the flag as [vf']. *)
Definition emits {A} (p : prog A) (vf : bool) (a : A) (vf' : bool) (out : bytes) : Prop :=
  forall s, interp collector p vf s = Ok (a, vf', s ++ out).

Lemma emits_ret : forall A (a : A) vf, emits (Ret a) vf a vf [].
Proof. intros A a vf s. cbn. now rewrite app_nil_r. Qed.

Lemma emits_bind : forall A B (p : prog A) (f : A -> prog B) vf a vf1 o1 b vf2 o2,
  emits p vf a vf1 o1 -> emits (f a) vf1 b vf2 o2 ->
  emits (bind p f) vf b vf2 (o1 ++ o2).
Proof.
  intros * H1 H2 s. rewrite interp_bind, H1, H2. now rewrite app_assoc.
Qed.

Lemma emits_contig : forall A b (k : bytes -> prog A) vf a vf' out,
  emits (k b) vf a vf' out -> emits (Contig b k) vf a vf' (b ++ out).
Proof. intros * H s. cbn. rewrite H. now rewrite app_assoc. Qed.

Lemma emits_count : forall A n (k : prog A) vf a vf' out,
  emits k vf a vf' out -> emits (Count n k) vf a vf' out.
Proof. intros * H s. cbn. apply H. Qed.

Lemma emits_note : forall A n (k : prog A) vf a vf' out,
  emits k vf a vf' out -> emits (Note n k) vf a vf' out.
Proof. intros * H s. cbn. apply H. Qed.

Lemma emits_getv : forall A (k : bool -> prog A) vf a vf' out,
  emits (k vf) vf a vf' out -> emits (GetV k) vf a vf' out.
Proof. intros * H s. cbn. apply H. Qed.

Lemma emits_setv : forall A f (k : prog A) vf a vf' out,
  emits k f a vf' out -> emits (SetV f k) vf a vf' out.
Proof. intros * H s. cbn. apply H. Qed.

Lemma emits_catch : forall A t (p : prog A) vf a vf' out,
  emits p vf a vf' out -> emits (catch t p) vf a vf' out.
Proof. intros * H s. apply interp_catch_ok, H. Qed.

Lemma emits_eq : forall A (p : prog A) vf a vf' out out',
  emits p vf a vf' out -> out = out' -> emits p vf a vf' out'.
Proof. intros; subst; auto. Qed.

(** What the collector sees decides what every writing serializer does. *)
Lemma collector_app : forall A (p : prog A) vf s a vf' s',
  interp collector p vf s = Ok (a, vf', s') ->
  exists out, s' = s ++ out /\ emits p vf a vf' out.
Proof.
  intros A p. induction p; intros vf s x vf' s' H0; cbn [interp] in H0.
  - inversion H0; subst. exists []. split; [now rewrite app_nil_r | apply emits_ret].
  - cbn [contig collector] in H0. apply H in H0. destruct H0 as (out & -> & Hout).
    exists (b ++ out). split; [now rewrite app_assoc | now apply emits_contig].
  - apply IHp in H0. destruct H0 as (out & -> & Ho). exists out. split; auto.
  - apply H in H0. destruct H0 as (out & -> & Ho). exists out. split; auto.
  - apply IHp in H0. destruct H0 as (out & -> & Ho). exists out. split; auto.
  - apply IHp in H0. destruct H0 as (out & -> & Ho). exists out. split; auto.
  - discriminate.
Qed.

Lemma wrap64_add : forall a b, wrap64 (wrap64 a + b) = wrap64 (a + b).
Proof. intros. unfold wrap64. apply N.add_mod_idemp_l. discriminate. Qed.

Lemma emits_inv_contig : forall A b (k : bytes -> prog A) vf a vf' out,
  emits (Contig b k) vf a vf' out ->
  exists out', out = b ++ out' /\ emits (k b) vf a vf' out'.
Proof.
  intros * H. pose proof (H []) as H0. cbn [interp contig collector] in H0.
  apply collector_app in H0. destruct H0 as (o & Ho & He).
  exists o. split; auto.
Qed.

Lemma emits_sizer : forall A (p : prog A) vf a vf' out,
  emits p vf a vf' out ->
  forall n, interp sizer p vf (wrap64 n) = Ok (a, vf', wrap64 (n + len out)).
Proof.
  intros A p. induction p; intros vf x vf' out He n0; cbn [interp].
  - specialize (He []). cbn in He. inversion He; subst.
    rewrite len_nil, N.add_0_r. reflexivity.
  - apply emits_inv_contig in He. destruct He as (o & -> & He).
    cbn [contig sizer]. rewrite wrap64_add.
    rewrite (H _ _ _ _ _ He), len_app. do 2 f_equal. f_equal. lia.
  - apply IHp. exact He.
  - apply H. exact He.
  - apply IHp. exact He.
  - apply IHp. exact He.
  - specialize (He []). discriminate.
Qed.

(** Writing [b] at the end of what has been written so far. *)
Lemma write_at_next : forall pre old rest b n,
  length old = length b -> n = length pre ->
  write_at (pre ++ old ++ rest) n b = Some (pre ++ b ++ rest).
Proof.
  intros * Hl ->. unfold write_at.
  rewrite !app_length, Hl.
  replace (length pre + length b <=? length pre + (length b + length rest))%nat
    with true by (symmetry; apply Nat.leb_le; lia).
  f_equal. rewrite firstn_app, Nat.sub_diag, firstn_all, firstn_O, app_nil_r.
  f_equal. f_equal.
  rewrite skipn_app. rewrite skipn_all2 by lia.
  replace (length pre + length b - length pre)%nat with (length b) by lia.
  rewrite <- Hl. rewrite skipn_app, skipn_all, Nat.sub_diag, skipn_O. reflexivity.
Qed.

(** The packer writes the emitted bytes consecutively from its position and
    touches nothing else. *)
Lemma emits_packer : forall A (p : prog A) vf a vf' out,
  emits p vf a vf' out ->
  forall before old after n u, length old = length out -> n = length before ->
  interp packer p vf {| p_buf := before ++ old ++ after; p_cur := n; p_used := wrap64 u |}
  = Ok (a, vf', {| p_buf := before ++ out ++ after; p_cur := n + length out;
                   p_used := wrap64 (u + len out) |}).
Proof.
  intros A p. induction p; intros vf x vf' out He before old after n0 u Hl Hn; cbn [interp].
  - specialize (He []). cbn in He. inversion He; subst.
    destruct old; [|discriminate]. rewrite len_nil, N.add_0_r, Nat.add_0_r. reflexivity.
  - apply emits_inv_contig in He. destruct He as (o & -> & He).
    rewrite app_length in Hl.
    assert (Hold : exists o1 o2, old = o1 ++ o2 /\ length o1 = length b /\ length o2 = length o).
    { exists (firstn (length b) old), (skipn (length b) old).
      rewrite firstn_skipn, firstn_length, skipn_length. split; [reflexivity|lia]. }
    destruct Hold as (o1 & o2 & -> & Hl1 & Hl2).
    cbn [contig packer p_buf p_cur p_used].
    rewrite <- app_assoc. rewrite write_at_next by auto.
    rewrite (app_assoc before b (o2 ++ after)).
    rewrite wrap64_add.
    rewrite (H _ _ _ _ _ He (before ++ b) o2 after (n0 + length b)%nat (u + len b)).
    + rewrite <- !app_assoc. rewrite app_length, len_app. do 2 f_equal. f_equal; try lia.
      f_equal; lia.
    + exact Hl2.
    + rewrite app_length. lia.
  - apply IHp; auto.
  - apply H; auto.
  - apply IHp; auto.
  - apply IHp; auto.
  - specialize (He []). discriminate.
Qed.

(** If more is emitted than the memory has room for, the packer writes out of
    bounds. *)
Lemma emits_packer_overflow : forall A (p : prog A) vf a vf' out,
  emits p vf a vf' out ->
  forall s, (length (p_buf s) < p_cur s + length out)%nat -> out <> [] ->
  interp packer p vf s = Err UB.
Proof.
  intros A p. induction p; intros vf x vf' out He s Hl Hne; cbn [interp].
  - specialize (He []). cbn in He. inversion He; subst. congruence.
  - apply emits_inv_contig in He. destruct He as (o & -> & He).
    cbn [contig packer]. unfold write_at.
    destruct (p_cur s + length b <=? length (p_buf s))%nat eqn:E; [|reflexivity].
    apply Nat.leb_le in E. rewrite app_length in Hl.
    eapply H; eauto.
    + cbn [p_buf p_cur]. rewrite !app_length, firstn_length, skipn_length. lia.
    + intros ->. cbn in Hl. lia.
  - eapply IHp; eauto.
  - eapply H; eauto.
  - eapply IHp; eauto.
  - eapply IHp; eauto.
  - specialize (He []). discriminate.
Qed.

Lemma emits_stream : forall A (p : prog A) vf a vf' out,
  emits p vf a vf' out ->
  forall d u,
  interp stream_packer p vf {| o_data := d; o_room := None; o_bad := false; o_nbytes := wrap64 u |}
  = Ok (a, vf', {| o_data := d ++ out; o_room := None; o_bad := false;
                   o_nbytes := wrap64 (u + len out) |}).
Proof.
  intros A p. induction p; intros vf x vf' out He d u; cbn [interp].
  - specialize (He []). cbn in He. inversion He; subst.
    rewrite app_nil_r, len_nil, N.add_0_r. reflexivity.
  - apply emits_inv_contig in He. destruct He as (o & -> & He).
    cbn [contig stream_packer owrite o_bad o_room o_data o_nbytes].
    rewrite wrap64_add, (H _ _ _ _ _ He), len_app, <- app_assoc.
    do 2 f_equal. f_equal. f_equal. lia.
  - apply IHp; auto.
  - apply H; auto.
  - apply IHp; auto.
  - apply IHp; auto.
  - specialize (He []). discriminate.
Qed.

(* ------------------------------------------------------------------ *)
(** ** Reading *)

(** A serializer that reads from a list of bytes and fails with [e] when there
    are not enough. *)
Definition reader (e : fail) : serializer := {|
  state := bytes;
  contig b s := match split_at (length b) s with
                | Some (x, r) => Ok (x, r)
                | None => Err e
                end;
  count _ s := s;
  note _ s := s
|}.

(** [reads p vf inp a vf']: started with flag [vf] and input [inp] followed by
    anything, [p] returns [a], consumes exactly [inp] and leaves flag [vf']. *)
Definition reads {A} (p : prog A) (vf : bool) (inp : bytes) (a : A) (vf' : bool) : Prop :=
  forall e rest, interp (reader e) p vf (inp ++ rest) = Ok (a, vf', rest).

Lemma reads_ret : forall A (a : A) vf, reads (Ret a) vf [] a vf.
Proof. intros A a vf e rest. reflexivity. Qed.

Lemma reads_bind : forall A B (p : prog A) (f : A -> prog B) vf i1 a vf1 i2 b vf2,
  reads p vf i1 a vf1 -> reads (f a) vf1 i2 b vf2 ->
  reads (bind p f) vf (i1 ++ i2) b vf2.
Proof.
  intros * H1 H2 e rest. rewrite interp_bind, <- app_assoc, H1. apply H2.
Qed.

Lemma reads_contig : forall A b (k : bytes -> prog A) vf x inp a vf',
  length x = length b -> reads (k x) vf inp a vf' ->
  reads (Contig b k) vf (x ++ inp) a vf'.
Proof.
  intros * Hl H e rest. cbn [interp reader contig].
  rewrite <- app_assoc, split_at_app by auto. apply H.
Qed.

Lemma reads_count : forall A n (k : prog A) vf i a vf',
  reads k vf i a vf' -> reads (Count n k) vf i a vf'.
Proof. intros * H e rest. cbn. apply H. Qed.

Lemma reads_note : forall A n (k : prog A) vf i a vf',
  reads k vf i a vf' -> reads (Note n k) vf i a vf'.
Proof. intros * H e rest. cbn. apply H. Qed.

Lemma reads_getv : forall A (k : bool -> prog A) vf i a vf',
  reads (k vf) vf i a vf' -> reads (GetV k) vf i a vf'.
Proof. intros * H e rest. cbn. apply H. Qed.

Lemma reads_setv : forall A f (k : prog A) vf i a vf',
  reads k f i a vf' -> reads (SetV f k) vf i a vf'.
Proof. intros * H e rest. cbn. apply H. Qed.

Lemma reads_catch : forall A t (p : prog A) vf i a vf',
  reads p vf i a vf' -> reads (catch t p) vf i a vf'.
Proof. intros * H e rest. apply interp_catch_ok, H. Qed.

Lemma reads_eq : forall A (p : prog A) vf i i' a vf',
  reads p vf i a vf' -> i = i' -> reads p vf i' a vf'.
Proof. intros; subst; auto. Qed.

(** One successful read determines [reads]: the bytes after those consumed are
    never looked at. *)
Lemma reader_local : forall A (p : prog A) e vf s a vf' r,
  interp (reader e) p vf s = Ok (a, vf', r) ->
  exists i, s = i ++ r /\ reads p vf i a vf'.
Proof.
  intros A p e. induction p; intros vf s x vf' r Hi; cbn [interp] in Hi.
  - inversion Hi; subst. exists []. split; auto. apply reads_ret.
  - cbn [contig reader] in Hi.
    destruct (split_at (length b) s) as [[y r']|] eqn:E; [|discriminate].
    apply split_at_inv in E. destruct E as (-> & El).
    apply H in Hi. destruct Hi as (i & -> & Hi).
    exists (y ++ i). split; [now rewrite app_assoc|]. now apply reads_contig.
  - cbn [count note reader] in Hi. apply IHp in Hi. destruct Hi as (i & -> & Hi). exists i; split; auto.
  - apply H in Hi. destruct Hi as (i & -> & Hi). exists i; split; auto.
  - cbn [count note reader] in Hi. apply IHp in Hi. destruct Hi as (i & -> & Hi). exists i; split; auto.
  - cbn [count note reader] in Hi. apply IHp in Hi. destruct Hi as (i & -> & Hi). exists i; split; auto.
  - discriminate.
Qed.

Lemma reads_inv_contig : forall A b (k : bytes -> prog A) vf i a vf',
  reads (Contig b k) vf i a vf' ->
  exists x i', i = x ++ i' /\ length x = length b /\ reads (k x) vf i' a vf'.
Proof.
  intros * H. pose proof (H UB []) as H0. cbn [interp reader contig] in H0.
  rewrite app_nil_r in H0.
  destruct (split_at (length b) i) as [[x r]|] eqn:E; [|discriminate].
  apply split_at_inv in E. destruct E as (-> & El).
  apply reader_local in H0. destruct H0 as (i' & -> & H0).
  rewrite app_nil_r. eauto.
Qed.

(** A program that consumes [i] runs short on every strict prefix of [i]. *)
Lemma reads_prefix : forall A (p : prog A) vf i a vf',
  reads p vf i a vf' ->
  forall er j l, i = j ++ l -> l <> [] -> interp (reader er) p vf j = Err er.
Proof.
  intros A p. induction p; intros vf i x vf' Hr er j l Hi Hk; cbn [interp].
  - specialize (Hr UB []). cbn in Hr. inversion Hr. subst i.
    rewrite app_nil_r in *. destruct j; destruct l; cbn in *; congruence.
  - apply reads_inv_contig in Hr. destruct Hr as (y & i' & -> & Hl & Hr).
    cbn [contig reader].
    destruct (split_at (length b) j) as [[z r]|] eqn:E; [|reflexivity].
    apply split_at_inv in E. destruct E as (-> & El).
    rewrite <- app_assoc in Hi.
    assert (Hz : y = z /\ i' = r ++ l).
    { clear -Hi Hl El. revert Hi. rewrite <- El in Hl. clear El b. revert z Hl.
      induction y; destruct z; cbn; intros Hl Hi; try discriminate; auto.
      inversion Hi; subst. apply IHy in H1; [|lia]. destruct H1; subst; auto. }
    destruct Hz as (-> & Hz). apply (H z vf i' x vf' Hr er r l Hz Hk).
  - exact (IHp _ _ _ _ Hr er j l Hi Hk).
  - exact (H _ _ _ _ _ Hr er j l Hi Hk).
  - exact (IHp _ _ _ _ Hr er j l Hi Hk).
  - exact (IHp _ _ _ _ Hr er j l Hi Hk).
  - specialize (Hr UB []). discriminate.
Qed.

Lemma skipn_plus : forall A a b (l : list A), skipn (a + b) l = skipn b (skipn a l).
Proof.
  intros A a. induction a; intros b l; cbn [Nat.add]; auto.
  destruct l; cbn [skipn]; auto. now rewrite skipn_nil.
Qed.

(** The memory unpacker and the stream unpacker are readers. *)
Lemma unpacker_reader : forall A (p : prog A) vf mem cur u,
  (cur <= length mem)%nat ->
  match interp (reader UB) p vf (skipn cur mem) with
  | Ok (a, vf', r) =>
    exists cur', r = skipn cur' mem /\ (cur <= cur' <= length mem)%nat /\
      interp unpacker p vf {| u_buf := mem; u_cur := cur; u_used := wrap64 u |}
      = Ok (a, vf', {| u_buf := mem; u_cur := cur';
                       u_used := wrap64 (u + N.of_nat (cur' - cur)) |})
  | Err e =>
      interp unpacker p vf {| u_buf := mem; u_cur := cur; u_used := wrap64 u |} = Err e
  end.
Proof.
  intros A p. induction p; intros vf mem cur u Hc; cbn [interp].
  - exists cur. rewrite Nat.sub_diag, N.add_0_r. repeat split; auto.
  - cbn [contig reader unpacker u_buf u_cur u_used].
    destruct (split_at (length b) (skipn cur mem)) as [[x r]|] eqn:E; [|reflexivity].
    apply split_at_inv in E. destruct E as (E1 & E2).
    assert (Hr : r = skipn (cur + length b) mem).
    { rewrite skipn_plus. rewrite E1, <- E2.
      rewrite skipn_app, skipn_all, Nat.sub_diag, skipn_O. reflexivity. }
    assert (Hl : (cur + length b <= length mem)%nat).
    { assert (length (skipn cur mem) = length x + length r)%nat by (rewrite E1; apply app_length).
      rewrite skipn_length in H0. lia. }
    rewrite wrap64_add. subst r. specialize (H x vf mem (cur + length b)%nat (u + len b) Hl).
    destruct (interp (reader UB) (k x) vf (skipn (cur + length b) mem)) as [[[a vf'] r']|e]; auto.
    destruct H as (cur' & -> & Hc' & ->). exists cur'. split; auto. split; [lia|].
    do 2 f_equal. f_equal. f_equal. unfold len. lia.
  - apply IHp; auto.
  - apply H; auto.
  - apply IHp; auto.
  - apply IHp; auto.
  - reflexivity.
Qed.

Lemma stream_reader : forall A (p : prog A) vf data u,
  match interp (reader RtErr) p vf data with
  | Ok (a, vf', r) =>
      interp stream_unpacker p vf {| i_data := data; i_nbytes := wrap64 u |}
      = Ok (a, vf', {| i_data := r; i_nbytes := wrap64 (u + (len data - len r)) |})
      /\ len r <= len data
  | Err e =>
      interp stream_unpacker p vf {| i_data := data; i_nbytes := wrap64 u |} = Err e
  end.
Proof.
  intros A p. induction p; intros vf data u; cbn [interp].
  - rewrite N.sub_diag, N.add_0_r. split; auto. lia.
  - cbn [contig reader stream_unpacker i_data i_nbytes].
    destruct (split_at (length b) data) as [[x r]|] eqn:E; [|reflexivity].
    apply split_at_inv in E. destruct E as (-> & E2).
    rewrite wrap64_add. specialize (H x vf r (u + len b)).
    destruct (interp (reader RtErr) (k x) vf r) as [[[a vf'] r']|e]; auto.
    destruct H as (-> & Hle). rewrite len_app. unfold len in *. rewrite E2 in *. split; [|lia].
    do 2 f_equal. f_equal. f_equal. lia.
  - apply IHp; auto.
  - apply H; auto.
  - apply IHp; auto.
  - apply IHp; auto.
  - reflexivity.
Qed.

(** [reads] for the two real unpackers. *)
Lemma reads_unpacker : forall A (p : prog A) vf i a vf',
  reads p vf i a vf' ->
  forall before after u,
  interp unpacker p vf {| u_buf := before ++ i ++ after; u_cur := length before; u_used := wrap64 u |}
  = Ok (a, vf', {| u_buf := before ++ i ++ after; u_cur := length before + length i;
                   u_used := wrap64 (u + len i) |}).
Proof.
  intros * H before after u.
  pose proof (unpacker_reader _ p vf (before ++ i ++ after) (length before) u) as U.
  rewrite skipn_app, skipn_all, Nat.sub_diag, skipn_O in U. cbn [app] in U.
  rewrite (H UB after) in U.
  destruct U as (cur' & Hs & Hc & ->).
  { rewrite app_length. lia. }
  assert (cur' = length before + length i)%nat.
  { assert (Hl : length after = length (skipn cur' (before ++ i ++ after))) by (rewrite <- Hs; reflexivity).
    rewrite skipn_length in Hl. rewrite !app_length in *. lia. }
  subst cur'. do 2 f_equal. f_equal. f_equal. unfold len. lia.
Qed.

Lemma reads_stream : forall A (p : prog A) vf i a vf',
  reads p vf i a vf' ->
  forall after u,
  interp stream_unpacker p vf {| i_data := i ++ after; i_nbytes := wrap64 u |}
  = Ok (a, vf', {| i_data := after; i_nbytes := wrap64 (u + len i) |}).
Proof.
  intros * H after u.
  pose proof (stream_reader _ p vf (i ++ after) u) as U.
  rewrite (H RtErr after) in U. destruct U as (-> & _).
  rewrite len_app. do 2 f_equal. f_equal. f_equal. lia.
Qed.
