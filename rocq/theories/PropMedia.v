(** C59: reading the same bytes, whatever they are, from a stream, from memory and from a
    file. *)
From Coq Require Import List NArith Arith Bool Lia.
From Coq.Strings Require Import Byte.
From Verif Require Import Base Syntax Prog Serializers Traverse Spec ProgFacts Api ApiFacts IO IOFacts
  Examples PropMemory PropFile Robust RobustFacts PropRobust Media.
Import ListNotations.
Local Open Scope N_scope.

(** [s]: what reading from a stream that holds [d] does, [r after]: what reading from memory
    does that holds [d] and then [after]. *)
Definition as_from_stream {A} (d : bytes) (s : res (A * istream)) (r : bytes -> res (A * N)) : Prop :=
  match s with
  | Ok (v, i) => exists used, d = used ++ i_data i /\ forall after, r after = Ok (v, len used)
  | Err RtErr => r [] = Err UB
  | Err e => forall after, r after = Err e
  end.

(** For any traversal that does not throw what a stream throws. *)
Lemma media_object : forall A (p : prog A) d before, quiet p ->
  as_from_stream d
    (match interp stream_unpacker p false (in_stream d) with Ok (v, _, i) => Ok (v, i) | Err e => Err e end)
    (fun after =>
       match interp unpacker p false
               {| u_buf := before ++ d ++ after; u_cur := length before; u_used := 0 |} with
       | Ok (v, _, s) => Ok (v, N.of_nat (u_cur s - length before))
       | Err e => Err e
       end).
Proof.
  intros A p d before Hq. unfold in_stream.
  pose proof (stream_reader _ p false d 0) as Hs.
  change (wrap64 0) with 0 in Hs.
  assert (Hm : forall after, (length before <= length (before ++ d ++ after))%nat)
    by (intros; rewrite app_length; lia).
  assert (Hk : forall after, skipn (length before) (before ++ d ++ after) = d ++ after)
    by (intros; rewrite skipn_app, skipn_all, Nat.sub_diag; reflexivity).
  assert (Hu : forall after, interp (reader UB) p false (d ++ after) = Err UB ->
    interp unpacker p false
      {| u_buf := before ++ d ++ after; u_cur := length before; u_used := 0 |} = Err UB).
  { intros after H. pose proof (unpacker_reader _ p false _ _ 0 (Hm after)) as U.
    rewrite Hk, H in U. exact U. }
  destruct (interp (reader RtErr) p false d) as [[[v vf'] r]|e] eqn:Hi.
  - destruct Hs as (-> & _). cbn [as_from_stream i_data].
    apply reader_local in Hi. destruct Hi as (i & -> & Hr).
    exists i. split; auto. intros after. rewrite <- app_assoc.
    pose proof (reads_unpacker _ _ _ _ _ _ Hr before (r ++ after) 0) as Hp.
    change (wrap64 0) with 0 in Hp. rewrite Hp. cbn [u_cur]. do 2 f_equal.
    rewrite Nat.add_comm, Nat.add_sub. reflexivity.
  - rewrite Hs. cbn [as_from_stream].
    assert (Ho : e <> RtErr -> forall after, match interp unpacker p false
      {| u_buf := before ++ d ++ after; u_cur := length before; u_used := 0 |} with
      | Ok (v, _, s) => Ok (v, N.of_nat (u_cur s - length before))
      | Err e => Err e
      end = Err e).
    { intros He after. pose proof (own_failure _ _ _ _ _ after He Hi) as Hx.
      pose proof (unpacker_reader _ p false _ _ 0 (Hm after)) as U.
      rewrite Hk, Hx in U. change (wrap64 0) with 0 in U. now rewrite U. }
    destruct e; try (apply Ho; discriminate).
    rewrite Hu; auto. rewrite app_nil_r. apply ran_out; auto.
Qed.
Lemma media : forall E f t w d before,
  as_from_stream d (deserialize_in_place_from_stream E f t (in_stream d) w)
    (fun after => deserialize_in_place E f t (before ++ d ++ after) (length before) w).
Proof.
  intros E f t w d before. exact (media_object _ (with_root E MUnpacking f t w) d before (q_root _ _ _ _ _)).
Qed.

(** Reading into an object from a stream and from memory do the same until the stream ends;
    where the stream throws because it has ended, the memory is read out of bounds. *)
Theorem C59_in_place : forall E f t w d before,
  as_from_stream d (deserialize_in_place_from_stream E f t (in_stream d) w)
    (fun after => deserialize_in_place E f t (before ++ d ++ after) (length before) w).
Proof. exact media. Qed.
Print Assumptions C59_in_place.

(** The same for calls that construct the object. *)
Theorem C59_new_object : forall E f t d before,
  as_from_stream d (deserialize_from_stream E f t (in_stream d))
    (fun after => deserialize E f t (before ++ d ++ after) (length before)).
Proof.
  intros E f t d before. unfold deserialize_from_stream, deserialize.
  destruct (recon E t) as [o|]; [apply media|]. intros after. reflexivity.
Qed.
Print Assumptions C59_new_object.

(** A file that holds the same bytes, read without failures of the file system: the same
    until the file ends.  (What follows its end in memory is the rest of the last page.) *)
Definition as_file {A} (s : res (A * istream)) (r : res A) : Prop :=
  match s with
  | Ok (v, _) => r = Ok v
  | Err RtErr => True
  | Err e => r = Err e
  end.

Lemma file_memory : forall page E f t o c, c <> [] ->
  fst (deserialize_in_place_from_file no_faults page E f t o (boot (Some c)))
  = match deserialize_in_place E f t (map_mem page c) 0 o with Ok (v, _) => Ok v | Err e => Err e end.
Proof.
  intros page E f t o [|b c] H; [congruence|]. unfold deserialize_in_place.
  unfold deserialize_in_place_from_file, setup_for_read, ibind, or_throw, syscall, scoped, unpack_file.
  cbn -[unpack_memory map_mem].
  destruct (unpack_memory E f t (map_mem page (b :: c)) 0 o) as [[v n]|e]; [reflexivity|].
  destruct e; reflexivity.
Qed.

Theorem C59_file : forall page E f t w c, c <> [] ->
  as_file (deserialize_in_place_from_stream E f t (in_stream c) w)
    (fst (deserialize_in_place_from_file no_faults page E f t w (boot (Some c)))) /\
  as_file (deserialize_from_stream E f t (in_stream c))
    (fst (deserialize_from_file no_faults page E f t (boot (Some c)))).
Proof.
  intros page E f t w c Hc.
  assert (H : forall o, as_file (deserialize_in_place_from_stream E f t (in_stream c) o)
    (fst (deserialize_in_place_from_file no_faults page E f t o (boot (Some c))))).
  { intros o. rewrite file_memory by exact Hc. unfold map_mem.
    set (z := repeat x00 _). pose proof (media E f t o c []) as Hm.
    destruct (deserialize_in_place_from_stream E f t (in_stream c) o) as [[v i]|e]; cbn [as_file as_from_stream] in *.
    - destruct Hm as (used & _ & Hm). specialize (Hm z). cbn [app length] in Hm. now rewrite Hm.
    - destruct e; auto; specialize (Hm z); cbn [app length] in Hm; now rewrite Hm. }
  split; [apply H|]. unfold deserialize_from_stream, deserialize_from_file.
  destruct (recon E t) as [o|]; [apply H|reflexivity].
Qed.
Print Assumptions C59_file.

(** So, for the types of C56, reading arbitrary bytes from memory always ends, with an object
    of the type and within the bytes, or with an exception or failed assertion, unless it
    runs off the end of the memory or the bytes read as a bool are not one. *)
Theorem C59_arbitrary_memory : forall E, wf_env any E -> forall T, readable E T ->
  forall t w before d, T t -> valid E t w ->
  exists f0 r, (forall f, (f0 <= f)%nat ->
      deserialize_in_place E f t (before ++ d) (length before) w = r) /\
    match r with
    | Ok (x, n) => valid E t x /\ n <= len d
    | Err e => e <> RtErr /\ caught True e
    end.
Proof.
  intros E wf T rd t w before d Ht Hw.
  destruct (read_any E wf T rd t w d Ht Hw) as (f0 & r & Hr & Hq).
  destruct r as [[x i]|e].
  - destruct Hq as (Hv & used & Hd). exists f0, (Ok (x, len used)). split.
    + intros f Hf. pose proof (media E f t w d before) as Hm. rewrite Hr in Hm by exact Hf.
      destruct Hm as (u & Hu & Hm). specialize (Hm []). rewrite app_nil_r in Hm.
      rewrite Hm. rewrite Hd in Hu. apply app_inv_tail in Hu. now subst.
    + split; auto. rewrite Hd, len_app. lia.
  - exists f0, (Err (match e with RtErr => UB | _ => e end)). split.
    + intros f Hf. pose proof (media E f t w d before) as Hm. rewrite Hr in Hm by exact Hf.
      cbn [as_from_stream] in Hm. rewrite <- (app_nil_r d). destruct e; apply Hm.
    + cbn [safe_read] in Hq. destruct e; cbn [caught] in *; auto; try (split; [discriminate|exact I]);
        try contradiction.
Qed.
Print Assumptions C59_arbitrary_memory.

(** The data of a pointer to a Circle (C56_case) with one byte changed: an unknown class, a
    class of another layout, another name; and the data cut short behind and before the error, where the stream
    throws and the others do something else. *)
Definition wrong (i : nat) (b : byte) : bytes := upd (circle_bytes (TUnique (TClass 1))) i b.
Definition all_media (c : bytes) : res val * res val * res val :=
  let obj {A} (r : res (val * A)) := match r with Ok (v, _) => Ok v | Err e => Err e end in
  let t := TUnique (TClass 1) in
  (obj (deserialize_from_stream pl 20 t (in_stream c)),
   obj (deserialize pl 20 t ([x07; x07] ++ c) 2),
   fst (deserialize_from_file no_faults pg pl 20 t (boot (Some c)))).

Example C59_case :
  all_media (wrong 21 x06) = (Err RangeErr, Err RangeErr, Err RangeErr) /\
  (exists m, all_media (wrong 21 x02) = (Err (SerErr 2 m), Err (SerErr 2 m), Err (SerErr 2 m)) /\
     all_media (firstn 150 (wrong 21 x02)) = (Err (SerErr 2 m), Err (SerErr 2 m), Err (SerErr 2 m))) /\
  (exists v, v <> circle /\ all_media (wrong 69 xff) = (Ok v, Ok v, Ok v)) /\
  exists m, all_media (firstn 24 (wrong 21 x02)) = (Err RtErr, Err UB, Err (SerErr 1 m)).
Proof.
  split; [vm_compute; reflexivity|].
  split; [eexists; split; [vm_compute; reflexivity|vm_compute; reflexivity]|].
  split; [eexists; split; [|vm_compute; reflexivity]; discriminate|].
  eexists. vm_compute. reflexivity.
Qed.

Example C59_case_arbitrary : forall before d, exists f0 r,
  (forall f, (f0 <= f)%nat ->
     deserialize_in_place pl f (TUnique (TClass 1)) (before ++ d) (length before) circle = r) /\
  match r with
  | Ok (x, n) => valid pl (TUnique (TClass 1)) x /\ n <= len d
  | Err e => e <> RtErr /\ caught True e
  end.
Proof.
  intros before d. apply (C59_arbitrary_memory pl pl_wf _ shapes_readable); [left; reflexivity|].
  unfold circle. apply VaUniqueV; [reflexivity|cbn; auto|discriminate|]. objects. split; constructor.
Qed.
