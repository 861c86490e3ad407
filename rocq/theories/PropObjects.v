(** C64: Kokkos views and maps, and objects that contain them, on streams and in files. *)
From Coq Require Import List NArith Arith Bool Lia.
From Coq.Strings Require Import Byte.
From Verif Require Import Base Syntax Prog Serializers Traverse Spec ProgFacts ApiFacts IO IOFacts
  PropMemory PropFile Media PropMedia Examples Views ViewSpec ViewRound KMap PropViews Members MembersSpec
  MembersFacts PropMembers ObjectIO ObjectFacts.
Import ListNotations.
Local Open Scope N_scope.

(** An object of type [k] that the traversal supports and that is not of a type without
    Kokkos objects (those are the subject of C07 and C08). *)
Definition supported (E : env) (span : list N -> list N -> N) (K : kokkos_map) (f : nat)
  (p : kty * kval) : Prop :=
  (forall t, fst p <> KVal t) /\ kty_ok E (fst p) /\ kheld E span K f (fst p) (snd p).

Section Objects.
Variable E : env.
Variable span : list N -> list N -> N.
Variable K : kokkos_map.
Variable f : nat.
Hypothesis wf : wf_env any E.
Hypothesis Hspan : wf_span span.
Hypothesis H0 : span [] [] = 1.
Hypothesis wk : wf_kokkos K.
Hypothesis Hf : (2 < f)%nat.

Lemma every_medium : forall k v, supported E span K f (k, v) -> exists b,
  (forall d, exists o, member_to_stream E span K f k v (out_stream d) = Ok (v, o) /\ o_data o = d ++ b) /\
  (len b < two64 ->
     serialize_member E span K f k v = Ok (b, v) /\
     forall hf page old, exists w,
       member_to_file E span K f no_faults hf page k v (boot old) = (Ok v, w) /\ w_file w = Some b) /\
  forall w, over E k v w -> exists x, kcopy k v x /\
    (forall before after,
       deserialize_member E span K f k (before ++ b ++ after) (length before) w = Ok (x, len b)) /\
    (forall after, exists i,
       member_from_stream E span K f k (in_stream (b ++ after)) w = Ok (x, i) /\ i_data i = after) /\
    (forall page, exists w', member_from_file E span K f no_faults page k w (boot (Some b)) = (Ok x, w')).
Proof.
  intros k v Hs. exists (wmem E span k v).
  pose proof (e_root_member E wf span H0 K f Hf MSizing (or_intror eq_refl) k v Hs) as Es.
  pose proof (e_root_member E wf span H0 K f Hf MPacking (or_introl eq_refl) k v Hs) as Ep.
  split.
  { intros d. eexists. split; [exact (object_stream_emits _ _ _ _ _ _ Es Ep d 0)|]. reflexivity. }
  split.
  { intros Hl. split; [exact (serialize_emits _ _ _ _ _ _ _ Es Ep Hl)|]. intros hf page old.
    destruct (object_file_run no_faults hf page _ _ _ _ _ _ (boot old) Es Ep
      (wmem_nonempty E span k v) Hl eq_refl (fun _ => eq_refl)) as (w & Hw).
    exists w. split; [exact Hw|].
    destruct (object_file_emits no_faults hf page _ _ _ _ _ _ (boot old) _ w Es Ep
      (wmem_nonempty E span k v) Hl eq_refl Hw) as (_ & _ & Hok). apply (Hok v eq_refl). }
  intros w Hw. destruct (r_root_member E wf span Hspan H0 K wk f Hf k v w Hs Hw) as (x & Hx & Hr).
  exists x. split; auto. split; [exact (deserialize_reads _ _ _ _ Hr)|]. split.
  - intros after. eexists. split; [exact (object_stream_reads _ _ _ _ Hr after 0)|reflexivity].
  - intros page.
    destruct (member_from_file E span K f no_faults page k w (boot (Some (wmem E span k v)))) as [r w'] eqn:Er.
    exists w'. transitivity (r, w'); [exact Er|]. f_equal.
    destruct (object_from_file_any no_faults page _ _ _ _ _ Er) as (_ & Hn).
    assert (Hnf : Forall (fun c => snd c = None) (w_trace w')).
    { clear - Er H0 wf Hspan wk Hf. unfold member_from_file, object_from_file in Er.
      unfold setup_for_read, ibind, or_throw, syscall, scoped, unpack_mapping in Er.
      pose proof (wmem_nonempty E span k v) as Hne.
      destruct (wmem E span k v) as [|b0 c0]; [congruence|].
      cbn -[deserialize_object map_mem root_member] in Er.
      destruct (deserialize_object (root_member E span K f k MUnpacking w) (map_mem page (b0 :: c0)) 0)
        as [[y n]|e].
      - inversion Er; subst. repeat constructor.
      - destruct e; inversion Er; subst; repeat constructor. }
    destruct (Hn Hnf) as (_ & Hr'). rewrite Hr'.
    change (contents (boot (Some (wmem E span k v)))) with (wmem E span k v).
    destruct (map_mem_eq page (wmem E span k v)) as (n & ->).
    pose proof (deserialize_reads _ _ _ _ Hr [] (IOFacts.zeros n)) as Hd. cbn [app length] in Hd. now rewrite Hd.
Qed.
End Objects.

(** Memory, streams and files: the same bytes, and each can be read back into any object that can be read into. *)
Theorem C64_every_medium : forall E span K f k v, wf_env any E -> wf_span span -> span [] [] = 1 ->
  wf_kokkos K -> (2 < f)%nat -> supported E span K f (k, v) -> exists b,
  (forall d, exists o, member_to_stream E span K f k v (out_stream d) = Ok (v, o) /\ o_data o = d ++ b) /\
  (len b < two64 ->
     serialize_member E span K f k v = Ok (b, v) /\
     forall hf page old, exists w,
       member_to_file E span K f no_faults hf page k v (boot old) = (Ok v, w) /\ w_file w = Some b) /\
  forall w, over E k v w -> exists x, kcopy k v x /\
    (forall before after,
       deserialize_member E span K f k (before ++ b ++ after) (length before) w = Ok (x, len b)) /\
    (forall after, exists i,
       member_from_stream E span K f k (in_stream (b ++ after)) w = Ok (x, i) /\ i_data i = after) /\
    (forall page, exists w', member_from_file E span K f no_faults page k w (boot (Some b)) = (Ok x, w')).
Proof. intros. now apply every_medium. Qed.
Print Assumptions C64_every_medium.

(** Several objects on one stream come back in order, and the stream is left behind the last. *)
Theorem C64_stream_sequence : forall E span K f l, wf_env any E -> wf_span span -> span [] [] = 1 ->
  wf_kokkos K -> (2 < f)%nat -> Forall (supported E span K f) l ->
  exists o, members_to_stream E span K f l (out_stream []) = Ok o /\
  forall ws, Forall2 (fun p w => over E (fst p) (snd p) w) l ws -> exists xs,
    Forall2 (fun p x => kcopy (fst p) (snd p) x) l xs /\
    forall after, exists i,
      members_from_stream E span K f (combine (map fst l) ws) (in_stream (o_data o ++ after)) = Ok (xs, i) /\
      i_data i = after.
Proof.
  intros E span K f l wf Hs H0 wk Hf Hl. eexists.
  split; [exact (members_write E wf span H0 K f Hf l [] 0 Hl)|]. cbn [o_data app].
  intros ws Hw.
  destruct (members_read E wf span Hs H0 K wk f Hf l ws Hl Hw) as (xs & Hxs & Hall).
  exists xs. split; auto. intros after. eexists. split; [exact (Hall after 0)|reflexivity].
Qed.
Print Assumptions C64_stream_sequence.

(** A stream that ends early is reported. *)
Theorem C64_truncated_stream : forall E span K f k v b w j l, wf_env any E -> wf_span span ->
  span [] [] = 1 -> wf_kokkos K -> (2 < f)%nat -> supported E span K f (k, v) -> over E k v w ->
  (exists o, member_to_stream E span K f k v (out_stream []) = Ok (v, o) /\ o_data o = b) ->
  b = j ++ l -> l <> [] ->
  member_from_stream E span K f k (in_stream j) w = Err RtErr.
Proof.
  intros E span K f k v b w j l wf Hs H0 wk Hf Hk Hw (o & Ho & Hb) Hj Hl.
  pose proof (e_root_member E wf span H0 K f Hf MSizing (or_intror eq_refl) k v Hk) as Es.
  pose proof (e_root_member E wf span H0 K f Hf MPacking (or_introl eq_refl) k v Hk) as Ep.
  unfold member_to_stream in Ho. pose proof (object_stream_emits _ _ _ _ _ _ Es Ep [] 0) as Hx.
  change (wrap64 0) with 0 in Hx. unfold out_stream in Ho. rewrite Hx in Ho. inversion Ho; subst o.
  cbn [o_data app] in Hb. rewrite <- Hb in Hj.
  destruct (r_root_member E wf span Hs H0 K wk f Hf k v w Hk Hw) as (x & _ & Hr).
  exact (object_stream_prefix _ _ _ _ Hr j l 0 Hj Hl).
Qed.
Print Assumptions C64_truncated_stream.

(** Whatever fails in the file system: a call that returns normally has written the whole file,
    durably; one that does not reports a failed call. *)
Theorem C64_file_written : forall E span K f k v o oracle hf page old r w', wf_env any E ->
  span [] [] = 1 -> (2 < f)%nat -> supported E span K f (k, v) ->
  member_to_stream E span K f k v (out_stream []) = Ok (v, o) -> len (o_data o) < two64 ->
  member_to_file E span K f oracle hf page k v (boot old) = (r, w') ->
  match r with
  | Ok x => x = v /\ w_file w' = Some (o_data o) /\ w_disk w' = Some (o_data o) /\
            w_dirty w' = [] /\ w_fd w' = false
  | Err e => (e = RtErr \/ e = Terminate) /\ exists s n, In (s, Some n) (w_trace w')
  end.
Proof.
  intros E span K f k v o oracle hf page old r w' wf H0 Hf Hk Ho Hl H.
  pose proof (e_root_member E wf span H0 K f Hf MSizing (or_intror eq_refl) k v Hk) as Es.
  pose proof (e_root_member E wf span H0 K f Hf MPacking (or_introl eq_refl) k v Hk) as Ep.
  unfold member_to_stream in Ho. pose proof (object_stream_emits _ _ _ _ _ _ Es Ep [] 0) as Hx.
  change (wrap64 0) with 0 in Hx. unfold out_stream in Ho. rewrite Hx in Ho. inversion Ho; subst o.
  cbn [o_data app] in *.
  destruct (object_file_emits oracle hf page _ _ _ _ _ _ (boot old) _ w' Es Ep
      (wmem_nonempty E span k v) Hl eq_refl H) as ((tr & T & _ & Te) & _ & Hok).
  destruct r as [x|e].
  - destruct (Hok x eq_refl) as (-> & A & B & C & D & _). auto.
  - destruct (Te e eq_refl) as (He & (s & [n|]) & Hc & Hn); [|now elim Hn].
    split; auto. exists s, n. rewrite T. exact Hc.
Qed.
Print Assumptions C64_file_written.

(** Reading a file, whatever it holds and whatever fails: a failed call is reported, and if
    none fails the result is that of reading the mapped bytes from memory. *)
Theorem C64_file_read : forall E span K f k w oracle page c r w',
  member_from_file E span K f oracle page k w (boot c) = (r, w') ->
  (exists s n, In (s, Some n) (w_trace w') /\ (r = Err RtErr \/ r = Err Terminate)) \/
  (exists b, c = Some b /\ exists pad,
     r = match deserialize_member E span K f k (b ++ pad) 0 w with Ok (x, _) => Ok x | Err e => Err e end).
Proof.
  intros E span K f k w oracle page c r w' H.
  destruct (object_from_file_any oracle page _ _ _ _ _ H) as ((tr & T & _ & Hb) & Hn).
  cbn [boot w_trace app length skipn] in *. rewrite T in *.
  assert (Hdec : forall c : sys * option N, {snd c = None} + {snd c <> None})
    by (intros (s & [n|]); [right; discriminate|left; reflexivity]).
  destruct (Forall_dec _ Hdec tr) as [Ha|Ha].
  - right. destruct (Hn Ha) as (Hc & Hr). destruct c as [b|]; [|now elim Hc].
    exists b. split; auto. eexists. exact Hr.
  - left. apply neg_Forall_Exists_neg in Ha; [|exact Hdec].
    apply Exists_exists in Ha. destruct Ha as ((s & [n|]) & Hi & Hx); [|now elim Hx].
    exists s, n. split; auto. apply Hb. exists (s, Some n). split; auto.
Qed.
Print Assumptions C64_file_read.

(** Any bytes, damaged or not: reading them from a stream and from memory do the same until
    the stream ends. *)
Theorem C64_any_bytes : forall E span K f k w d before,
  as_from_stream d (member_from_stream E span K f k (in_stream d) w)
    (fun after => deserialize_member E span K f k (before ++ d ++ after) (length before) w).
Proof.
  intros E span K f k w d before.
  exact (media_object _ (root_member E span K f k MUnpacking w) d before (q_root_member _ _ _ _ _ _ _)).
Qed.
Print Assumptions C64_any_bytes.

(** ** Cases *)

(** A map, an object with all kinds of members and a view on one stream. *)
Definition ex_list : list (kty * kval) :=
  [(KMap (TPrim 92 40) INT INT, OMap ex_kmap); (ex_owner, ex_object);
   (KView (ex_vt INT 2 LStride false), OView ex_strided)].
Definition ex_into : list kval := [OMap []; ex_used; OView (ex_line [1; 2])].

Lemma ex_list_ok : forall b, Forall (supported (ex b) ex_span ex_map 3) ex_list /\
  Forall2 (fun p w => over (ex b) (fst p) (snd p) w) ex_list ex_into.
Proof.
  intros b. destruct (ex_object_ok b) as (Ht & Hh & Ho).
  pose proof Ht as Ht'. pose proof Hh as Hh'.
  cbn [kty_ok ex_owner] in Ht'. cbn [kheld ex_owner ex_object] in Hh'.
  split.
  - constructor; [|constructor; [|constructor; [|constructor]]]; split; cbn [fst snd]; try discriminate.
    + split; [cbn; repeat split; discriminate|apply ex_kmap_ok].
    + auto.
    + split; [apply Ht'|apply Hh'].
  - constructor; [|constructor; [|constructor; [|constructor]]]; cbn [fst snd]; [reflexivity|exact Ho|exact I].
Qed.

Example C64_case : forall b, exists out, members_to_stream (ex b) ex_span ex_map 3 ex_list (out_stream []) = Ok out /\
  exists i a v, members_from_stream (ex b) ex_span ex_map 3 (combine (map fst ex_list) ex_into)
    (in_stream (o_data out ++ [x01; x02])) = Ok ([OMap [slot_ 3 30; slot_ 5 50; empty_slot; empty_slot]; a; OView v], i) /\
  i_data i = [x01; x02] /\ at_ v [1; 2] = Some (i_ 19).
Proof.
  destruct b; eexists; (split; [vm_compute; reflexivity|]); do 3 eexists;
    (split; [vm_compute; reflexivity|]); split; vm_compute; reflexivity.
Qed.

(** Every call failing, one at a time; fallocate (1) is ignored. *)
Example C64_case_failures :
  map (fun k => let '(r, w) := member_to_file (ex true) ex_span ex_map 3
                   (fun n => if Nat.eqb n k then Some 5 else None) true pg ex_owner ex_object (boot None) in
                (match r with Ok _ => None | Err e => Some e end, nth_error (w_trace w) k))
      [0; 1; 2; 3; 4; 5; 6; 7; 8]%nat
  = [(Some RtErr, Some (SOpen, Some 5)); (None, Some (SFallocate, Some 5));
     (Some RtErr, Some (SFtruncate, Some 5));
     (Some RtErr, Some (SFsync, Some 5)); (Some RtErr, Some (SMmap, Some 5));
     (Some Terminate, Some (SMsync, Some 5)); (Some Terminate, Some (SMunmap, Some 5));
     (Some Terminate, Some (SClose, Some 5)); (None, None)].
Proof. vm_compute. reflexivity. Qed.

(** The data of a map with a byte of its second type index changed, with the size made larger
    than the data, and cut short: from a stream and from memory. *)
Definition ex_map_bytes : bytes :=
  match serialize_member (ex true) ex_span ex_map 3 (KMap (TPrim 92 40) INT INT) (OMap ex_kmap) with
  | Ok (b, _) => b | Err _ => [] end.
Definition both (d : bytes) :=
  let obj {A} (r : res (kval * A)) := match r with Ok (v, _) => Ok v | Err e => Err e end in
  (obj (member_from_stream (ex true) ex_span ex_map 3 (KMap (TPrim 92 40) INT INT) (in_stream d) (OMap [])),
   obj (deserialize_member (ex true) ex_span ex_map 3 (KMap (TPrim 92 40) INT INT) d 0 (OMap []))).

Example C64_case_bytes :
  (exists n m, both (upd ex_map_bytes 5 x00) = (Err (SerErr n m), Err (SerErr n m))) /\
  (exists n m, both (upd ex_map_bytes 8 xff) = (Err (SerErr n m), Err (SerErr n m))) /\
  both (firstn 30 ex_map_bytes) = (Err RtErr, Err UB).
Proof.
  split; [do 2 eexists; vm_compute; reflexivity|]. split; [do 2 eexists; vm_compute; reflexivity|].
  vm_compute. reflexivity.
Qed.
