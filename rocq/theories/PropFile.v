(** Properties C07-C09 and C30-C33: files, streams and memory, failures of the
    operating system, crashes, truncated data, ownership on the error path.

    [oracle n] is the outcome of the n-th system call, [hf] whether the library
    was built with fallocate, [page] the page size. *)
From Coq Require Import List NArith Arith Bool Lia.
From Coq.Strings Require Import Byte.
From Verif Require Import Base Syntax Prog Serializers Traverse Spec ProgFacts EnvFacts ValFacts
  Pack Unpack Api ApiFacts Registry Examples IO IOFacts Trunc PropMemory.
Import ListNotations.
Local Open Scope N_scope.

(** No system call fails. *)
Definition no_faults : nat -> option N := fun _ => None.

Section Glue.
Variable E : env.
Hypothesis wf : wf_env any E.
Variable page : nat.

Lemma enc_nonempty : forall t v, enc_root E t v <> [].
Proof. intros. apply enc_root_nonempty. Qed.

Lemma file_read_back : forall f t v w, has_ty E t v -> constructible E t -> (depth v < f)%nat ->
  contents w = enc_root E t v ->
  exists x w', deserialize_from_file no_faults page E f t w = (Ok x, w') /\ copy_of v x /\
    forall z, deserialize E f t (enc_root E t v ++ z) 0 = Ok (x, len (enc_root E t v)).
Proof.
  intros f t v w Ht Hc Hd Hw.
  destruct (deserialize_ok E wf f t v Ht Hc Hd) as (x & Hx & H). specialize (H []).
  destruct (map_mem_eq page (enc_root E t v)) as (n & Hn).
  destruct (from_file_run no_faults page E f t w x (len (enc_root E t v))) as (w' & Hf).
  - reflexivity.
  - rewrite Hw. apply enc_nonempty.
  - rewrite Hw, Hn. apply (H (zeros n)).
  - exists x, w'. repeat split; auto.
Qed.

(** Reading back a file with a prefix of the data followed by zeros. *)
Lemma file_cut : forall oracle f t v j l n w r w', has_ty E t v -> constructible E t ->
  (depth v < f)%nat -> wrap64 (sizeof E t) <> 0 ->
  enc_root E t v = j ++ l -> contents w = j ++ zeros n ->
  deserialize_from_file oracle page E f t w = (r, w') ->
  forall x, r = Ok x -> copy_of v x.
Proof.
  intros oracle f t v j l n w r w' Ht Hc Hd Hs Hj Hw H x Hx.
  destruct (from_file oracle page E f t w r w' H) as (_ & Hr).
  destruct (Hr x Hx) as (_ & k & Hk). rewrite Hw in Hk.
  destruct (map_mem_eq page (j ++ zeros n)) as (n' & Hn'). rewrite Hn' in Hk.
  rewrite <- app_assoc, zeros_app in Hk. eapply deserialize_cut; eauto.
Qed.
End Glue.

(** ** C07 *)
Theorem C07_medium_independent : forall E f t v hf page old g before buf extra after d,
  wf_env any E -> has_ty E t v -> constructible E t -> (depth v < f)%nat ->
  len (enc_root E t v) < two64 ->
  get_size E f t v = Ok (v, len buf) ->
  g (len buf) = Some {| r_before := before; r_buf := buf ++ extra; r_after := after |} ->
  exists own usr o w,
    serialize E f t v None = Ok own /\
    serialize E f t v (Some g) = Ok usr /\
    serialize_to_stream E f t v (out_stream d) = Ok (v, o) /\
    serialize_to_file no_faults hf page E f t v (boot old) = (Ok v, w) /\
    s_bytes usr = s_bytes own /\
    o_data o = d ++ s_bytes own /\
    w_file w = Some (s_bytes own) /\
    (* and each can be read through any of the readers *)
    exists v', same v v' /\
      (forall b a, deserialize E f t (b ++ s_bytes own ++ a) (length b) = Ok (v', len (s_bytes own))) /\
      (forall a, exists i, deserialize_from_stream E f t (in_stream (s_bytes own ++ a)) = Ok (v', i) /\
                           i_data i = a) /\
      (exists w', deserialize_from_file no_faults page E f t (boot (Some (s_bytes own))) = (Ok v', w')).
Proof.
  intros E f t v hf page old g before buf extra after d wf Ht Hc Hd Hl Hs Hg.
  rewrite size_len in Hs by auto. inversion Hs as [Hlen]. rewrite <- Hlen in *.
  assert (Hb : length buf = length (enc_root E t v)) by (unfold len in Hlen; lia).
  destruct (to_file_run no_faults hf page E wf f t v (boot old) Ht Hd Hl eq_refl (fun _ => eq_refl))
    as (w & Hw).
  destruct (to_file no_faults hf page E wf f t v (boot old) _ w Ht Hd Hl eq_refl Hw)
    as (_ & _ & Hok). destruct (Hok v eq_refl) as (_ & Hfile & _).
  eexists. eexists. eexists. exists w.
  split; [apply serialize_managed; auto|].
  split; [apply (serialize_user E wf f t v g before buf extra after); auto|].
  split; [apply (to_stream_ok E wf f t v d 0); auto|].
  split; [exact Hw|]. cbn [s_bytes o_data]. repeat (split; [auto; fail|]).
  destruct (deserialize_ok E wf f t v Ht Hc Hd) as (x & Hx & H). exists x.
  split; [apply (sim_mono N.le); auto|]. split; [exact H|]. split.
  - intros a. destruct (from_stream_ok E wf f t v Ht Hc Hd) as (y & _ & Hy).
    specialize (Hy a 0). change (wrap64 0) with 0 in Hy.
    assert (Hxy : x = y).
    { pose proof (H [] []) as H0. cbn [app length] in H0. rewrite app_nil_r in H0.
      unfold deserialize, deserialize_from_stream in H0, Hy. unfold constructible in Hc.
      destruct (recon E t) as [q|] eqn:Er; [|congruence].
      pose proof (recon_target E wf t v q Ht Er) as HT.
      destruct (unpack_reads E wf f t v q Ht HT Hd) as (z & _ & Hz).
      pose proof (reads_unpacker _ _ _ _ _ _ Hz [] [] 0) as A.
      cbn [app length] in A. rewrite app_nil_r in A. change (wrap64 0) with 0 in A.
      unfold unpack_memory in H0. rewrite A in H0. inversion H0; subst.
      pose proof (reads_stream _ _ _ _ _ _ Hz a 0) as B. change (wrap64 0) with 0 in B.
      unfold deserialize_in_place_from_stream in Hy. rewrite B in Hy. now inversion Hy. }
    subst y. eexists. split; [exact Hy|reflexivity].
  - destruct (file_read_back E wf page f t v (boot (Some (enc_root E t v))) Ht Hc Hd eq_refl)
      as (y & w' & Hy & _ & Hz). exists w'.
    specialize (Hz []). specialize (H [] []). cbn [app length] in H. rewrite H in Hz.
    inversion Hz; subst. exact Hy.
Qed.
Print Assumptions C07_medium_independent.

Definition pg : nat := N.to_nat 64.
Example C07_case : exists own o,
  serialize (ex true) 12 t_shapes v_shapes None = Ok own /\
  serialize_to_stream (ex true) 12 t_shapes v_shapes (out_stream []) = Ok (v_shapes, o) /\
  o_data o = s_bytes own /\
  let '(r, w) := serialize_to_file no_faults true pg (ex true) 12 t_shapes v_shapes (boot (Some [x2a])) in
  r = Ok v_shapes /\ w_file w = Some (s_bytes own).
Proof.
  eexists. eexists. split; [vm_compute; reflexivity|]. split; [vm_compute; reflexivity|].
  split; [vm_compute; reflexivity|]. vm_compute. split; reflexivity.
Qed.

(** ** C08 *)
Theorem C08_file_round_trip : forall E f t v hf page old,
  wf_env any E -> has_ty E t v -> constructible E t -> (depth v < f)%nat ->
  len (enc_root E t v) < two64 ->
  exists w c n v' w',
    serialize_to_file no_faults hf page E f t v (boot old) = (Ok v, w) /\
    get_size E f t v = Ok (v, n) /\
    w_file w = Some c /\ len c = n /\
    deserialize_from_file no_faults page E f t w = (Ok v', w') /\ same v v' /\
    w_file w' = Some c.
Proof.
  intros E f t v hf page old wf Ht Hc Hd Hl.
  destruct (to_file_run no_faults hf page E wf f t v (boot old) Ht Hd Hl eq_refl (fun _ => eq_refl))
    as (w & Hw).
  destruct (to_file no_faults hf page E wf f t v (boot old) _ w Ht Hd Hl eq_refl Hw)
    as (_ & _ & Hok). destruct (Hok v eq_refl) as (_ & Hfile & _).
  assert (Hcw : contents w = enc_root E t v) by (unfold contents; now rewrite Hfile).
  destruct (file_read_back E wf page f t v w Ht Hc Hd Hcw) as (x & w' & Hx & Hcp & _).
  exists w, (enc_root E t v), (len (enc_root E t v)), x, w'.
  split; [exact Hw|]. split; [apply size_len; auto|]. split; [exact Hfile|].
  split; [reflexivity|]. split; [exact Hx|]. split; [apply (sim_mono N.le); auto|].
  rewrite <- Hfile. apply (from_file_keeps no_faults page E f t w (Ok x) w' Hx).
Qed.
Print Assumptions C08_file_round_trip.

(** A longer old file is replaced. *)
Example C08_case :
  let '(r, w) := serialize_to_file no_faults true pg (ex false) 12 (TClass 0) v_node
                   (boot (Some (repeat x2a 500))) in
  r = Ok v_node /\ option_map (@length _) (w_file w) = Some 85%nat.
Proof. vm_compute. split; reflexivity. Qed.

(** ** C09 *)

(** Reading: full statement. *)
Theorem C09_read_failures : forall E f t oracle page c r w' s e,
  deserialize_from_file oracle page E f t (boot c) = (r, w') ->
  In (s, Some e) (w_trace w') -> exists x, r = Err x /\ (x = RtErr \/ x = Terminate).
Proof.
  intros E f t oracle page c r w' s e H Hin.
  destruct (from_file oracle page E f t (boot c) r w' H) as ((tr & T & _ & Hb) & _).
  cbn [w_trace boot app] in T. rewrite T in Hin.
  assert (Hf : exists c, In c tr /\ snd c <> None) by (exists (s, Some e); split; [exact Hin|discriminate]).
  destruct (Hb Hf) as [->| ->]; [exists RtErr|exists Terminate]; auto.
Qed.
Print Assumptions C09_read_failures.

(** Writing: full statement except for fallocate failing with an error other than
    ENOSPC, which the library deliberately ignores (refuted below).  Without
    fallocate there is no exception. *)
Theorem C09_write_failures_partial : forall E f t v oracle hf page c r w' s e,
  wf_env any E -> has_ty E t v -> (depth v < f)%nat -> len (enc_root E t v) < two64 ->
  serialize_to_file oracle hf page E f t v (boot c) = (r, w') ->
  In (s, Some e) (w_trace w') ->
  (hf = true /\ s = SFallocate /\ e <> ENOSPC) \/
  exists x, r = Err x /\ (x = RtErr \/ x = Terminate).
Proof.
  intros E f t v oracle hf page c r w' s e wf Ht Hd Hl H Hin.
  destruct (to_file oracle hf page E wf f t v (boot c) r w' Ht Hd Hl eq_refl H)
    as ((tr & T & Hok & Herr) & _). cbn [w_trace boot app] in T. rewrite T in Hin.
  destruct r as [x|x].
  - left. destruct (Hok x eq_refl) as (Hb & Hf). rewrite Forall_forall in Hb.
    destruct (Hb _ Hin) as [Hn|(Hs & e' & He & Hne)]; [discriminate|].
    cbn in Hs, He. inversion He; subst. repeat split; auto.
    destruct hf; auto. specialize (Hf eq_refl). rewrite Forall_forall in Hf.
    specialize (Hf _ Hin). discriminate.
  - right. exists x. split; auto. now destruct (Herr x eq_refl).
Qed.
Print Assumptions C09_write_failures_partial.

(** fallocate fails with EIO, the call returns normally. *)
Theorem C09_fallocate_refuted : exists oracle,
  let '(r, w) := serialize_to_file oracle true pg (ex true) 12 t_shapes v_shapes (boot None) in
  r = Ok v_shapes /\ In (SFallocate, Some 5) (w_trace w).
Proof.
  exists (fun n => if Nat.eqb n 1 then Some 5 else None). vm_compute. split; auto.
Qed.
Print Assumptions C09_fallocate_refuted.

(** Every one of the other calls failing, one at a time. *)
Example C09_case :
  map (fun k => let '(r, w) := serialize_to_file (fun n => if Nat.eqb n k then Some 5 else None)
                   true pg (ex true) 12 t_shapes v_shapes (boot None) in
                (match r with Ok _ => None | Err e => Some e end, nth_error (w_trace w) k))
      [0; 2; 3; 4; 5; 6; 7; 8]%nat
  = [(Some RtErr, Some (SOpen, Some 5)); (Some RtErr, Some (SFtruncate, Some 5));
     (Some RtErr, Some (SFsync, Some 5)); (Some RtErr, Some (SMmap, Some 5));
     (Some Terminate, Some (SMsync, Some 5)); (Some Terminate, Some (SMunmap, Some 5));
     (Some Terminate, Some (SClose, Some 5)); (None, None)] /\
  map (fun k => match fst (deserialize_from_file (fun n => if Nat.eqb n k then Some 5 else None)
                   pg (ex true) 12 (TClass 0) (boot (Some (enc_root (ex true) (TClass 0) v_node)))) with
                | Ok _ => None | Err e => Some e end)
      [0; 1; 2; 3; 4; 5]%nat
  = [Some RtErr; Some RtErr; Some RtErr; Some Terminate; Some Terminate; None].
Proof. split; vm_compute; reflexivity. Qed.

(** ** C30 *)

(** Heap blocks allocated by the library and still allocated at the end. *)
Definition balance (n : nat) (e : hevent) : nat :=
  match e with HAlloc => S n | HFree false => pred n | _ => n end.
Definition outstanding (h : list hevent) : nat := fold_left balance h 0%nat.
Definition keeps_user_memory (h : list hevent) : Prop := ~ In (HFree true) h.

(** Missing from the full claim: caller-supplied memory, streams and files, all
    refuted below. *)
Theorem C30_buffer_partial : forall E f t mem off e h,
  deserialize_heap E f t mem off false = (Err e, h) -> is_exception e = true ->
  outstanding h = 0%nat /\ keeps_user_memory h /\ ~ In HReturn h.
Proof.
  intros E f t mem off e h H He. unfold deserialize_heap in H.
  destruct (recon E t) as [o|].
  - destruct (unpack_memory E f t mem off o) as [[x n]|e']; [discriminate|].
    inversion H; subst. rewrite He. unfold keeps_user_memory. cbn.
    repeat split; auto; intros Hi; repeat (destruct Hi as [Hi|Hi]; [discriminate|]); exact Hi.
  - inversion H; subst. discriminate.
Qed.
Print Assumptions C30_buffer_partial.

(** The other side of ownership: what deserialize returns is the object, once, in
    memory that has been neither destroyed nor freed. *)
Theorem C30_success : forall E f t mem off user v h,
  deserialize_heap E f t mem off user = (Ok v, h) ->
  outstanding h = (if user then 0 else 1)%nat /\ keeps_user_memory h /\
  ~ In HDestroy h /\ ~ In (HFree false) h /\ exists h', h = h' ++ [HReturn] /\ ~ In HReturn h'.
Proof.
  intros E f t mem off user v h H. unfold deserialize_heap in H.
  destruct (recon E t) as [o|]; [|discriminate].
  destruct (unpack_memory E f t mem off o) as [[x n]|e']; [|discriminate].
  inversion H; subst. unfold keeps_user_memory.
  destruct user; cbn; repeat split; try reflexivity;
    try (intros Hi; repeat (destruct Hi as [Hi|Hi]; [discriminate|]); exact Hi).
  - exists [HConstruct]. split; [reflexivity|]. intros Hi; repeat (destruct Hi as [Hi|Hi]; [discriminate|]); exact Hi.
  - exists [HAlloc; HConstruct]. split; [reflexivity|]. intros Hi; repeat (destruct Hi as [Hi|Hi]; [discriminate|]); exact Hi.
Qed.
Print Assumptions C30_success.

(** An exception while deserializing into caller-supplied memory always frees
    that memory. *)
Theorem C30_user_memory_refuted : forall E f t mem off e h,
  deserialize_heap E f t mem off true = (Err e, h) -> is_exception e = true ->
  ~ keeps_user_memory h.
Proof.
  intros E f t mem off e h H He. unfold deserialize_heap in H.
  destruct (recon E t) as [o|].
  - destruct (unpack_memory E f t mem off o) as [[x n]|e']; [discriminate|].
    inversion H; subst. rewrite He. unfold keeps_user_memory. cbn. tauto.
  - inversion H; subst. discriminate.
Qed.
Print Assumptions C30_user_memory_refuted.

(** An exception while deserializing from a stream or a file leaks the object. *)
Theorem C30_stream_refuted : forall E f t i e h,
  deserialize_stream_heap E f t i = (Err e, h) -> is_exception e = true -> outstanding h = 1%nat.
Proof.
  intros E f t i e h H He. unfold deserialize_stream_heap in H.
  destruct (recon E t) as [o|].
  - destruct (deserialize_in_place_from_stream E f t i o) as [[x n]|e']; [discriminate|].
    inversion H; subst. reflexivity.
  - inversion H; subst. discriminate.
Qed.
Print Assumptions C30_stream_refuted.

Theorem C30_file_refuted : forall oracle page E f t w e h,
  deserialize_file_heap oracle page E f t w = (Err e, h) -> is_exception e = true ->
  outstanding h = 1%nat.
Proof.
  intros oracle page E f t w e h H He. unfold deserialize_file_heap in H.
  destruct (recon E t) as [o|].
  - destruct (deserialize_in_place_from_file oracle page E f t o w) as [[x|e'] w']; [discriminate|].
    inversion H; subst. reflexivity.
  - inversion H; subst. discriminate.
Qed.
Print Assumptions C30_file_refuted.

(** Such exceptions happen: a node read as a vector, a truncated stream, a missing
    file. *)
Definition wrong_node : fail :=
  let i := tix (ex true) (TVector DBL) in SerErr 0 [WrongType i (tix (ex true) (TClass 0)) i].
Example C30_case :
  deserialize_heap (ex true) 12 (TVector DBL) (enc_root (ex true) (TClass 0) v_node) 0 false
    = (Err wrong_node, [HAlloc; HConstruct; HDestroy; HFree false]) /\
  deserialize_heap (ex true) 12 (TVector DBL) (enc_root (ex true) (TClass 0) v_node) 0 true
    = (Err wrong_node, [HConstruct; HDestroy; HFree true]) /\
  deserialize_stream_heap (ex true) 12 (TClass 0)
    (in_stream (firstn 50 (enc_root (ex true) (TClass 0) v_node))) = (Err RtErr, [HAlloc; HConstruct]) /\
  deserialize_file_heap no_faults pg (ex true) 12 (TClass 0) (boot None) = (Err RtErr, [HAlloc; HConstruct]).
Proof. repeat split; vm_compute; reflexivity. Qed.
Example C30_success_case :
  map snd (map (fun user => deserialize_heap (ex true) 12 (TClass 0) (enc_root (ex true) (TClass 0) v_node) 0 user)
             [false; true])
  = [[HAlloc; HConstruct; HReturn]; [HConstruct; HReturn]].
Proof. vm_compute. reflexivity. Qed.

(** ** C31 *)

(** Missing from the full claim: machine crashes while the new contents are longer
    than one page (refuted below), and that the outcome is an exception when it
    is not an object (a zeroed tail may also be undefined behaviour, C33). *)
Theorem C31_crash_one_page_partial : forall E f t v oracle hf page old r w s c oracle' r' w',
  wf_env any E -> has_ty E t v -> constructible E t -> (depth v < f)%nat ->
  wrap64 (sizeof E t) <> 0 -> (0 < page)%nat -> len (enc_root E t v) < two64 ->
  (length (enc_root E t v) <= page)%nat ->
  serialize_to_file oracle hf page E f t v (boot old) = (r, w) ->
  (* the machine stops at any moment ... *)
  In s (w_snaps w) -> crash_state page (fst s) (snd s) c ->
  (* ... and the file is read after the restart *)
  deserialize_from_file oracle' page E f t (boot c) = (r', w') ->
  c = old \/ forall x, r' = Ok x -> same v x.
Proof.
  intros E f t v oracle hf page old r w s c oracle' r' w' wf Ht Hc Hd Hs Hp Hl Hone H Hin Hcr Hr.
  destruct (to_file oracle hf page E wf f t v (boot old) r w Ht Hd Hl eq_refl H)
    as (_ & (sn & Hsn & Hall) & _). cbn [w_snaps w_disk boot] in *.
  rewrite Hsn in Hin. apply in_app_or in Hin. destruct Hin as [Hin|Hin].
  - destruct Hin as [<-|[]]. left. now apply crash_clean in Hcr.
  - rewrite Forall_forall in Hall. specialize (Hall s Hin). destruct s as [disk dirty].
    cbn [fst snd] in *.
    destruct (crash_one_page page Hp old _ disk dirty c Hall Hone Hcr) as [->|[->|(k & ->)]]; auto;
      right; intros x Hx; apply (sim_mono N.le); auto.
    + eapply (file_cut E wf page oracle' f t v [] (enc_root E t v) 0); eauto; reflexivity.
    + eapply (file_cut E wf page oracle' f t v (firstn k (enc_root E t v))
                (skipn k (enc_root E t v)) (length (enc_root E t v) - k)); eauto;
        [symmetry; apply firstn_skipn|reflexivity].
Qed.
Print Assumptions C31_crash_one_page_partial.

(** Only the process stops: the file is the latest version; any file size. *)
Theorem C31_process_stop_partial : forall E f t v oracle hf page old r w s oracle' r' w',
  wf_env any E -> has_ty E t v -> constructible E t -> (depth v < f)%nat ->
  wrap64 (sizeof E t) <> 0 -> len (enc_root E t v) < two64 ->
  serialize_to_file oracle hf page E f t v (boot old) = (r, w) ->
  In s (w_snaps w) ->
  deserialize_from_file oracle' page E f t (boot (last (fst s :: snd s) None)) = (r', w') ->
  last (fst s :: snd s) None = old \/ forall x, r' = Ok x -> same v x.
Proof.
  intros E f t v oracle hf page old r w s oracle' r' w' wf Ht Hc Hd Hs Hl H Hin Hr.
  destruct (to_file oracle hf page E wf f t v (boot old) r w Ht Hd Hl eq_refl H)
    as (_ & (sn & Hsn & Hall) & _). cbn [w_snaps w_disk boot] in *.
  rewrite Hsn in Hin. apply in_app_or in Hin. destruct Hin as [Hin|Hin].
  - destruct Hin as [<-|[]]. left. reflexivity.
  - rewrite Forall_forall in Hall. specialize (Hall s Hin). destruct s as [disk dirty].
    cbn [fst snd] in *. right. intros x Hx. apply (sim_mono N.le); auto.
    destruct (stop_state old _ disk dirty Hall) as [Hq|(k & Hq)]; rewrite Hq in Hr.
    + eapply (file_cut E wf page oracle' f t v [] (enc_root E t v) 0); eauto; reflexivity.
    + eapply (file_cut E wf page oracle' f t v (firstn k (enc_root E t v))
                (skipn k (enc_root E t v)) (length (enc_root E t v) - k)); eauto;
        [symmetry; apply firstn_skipn|reflexivity].
Qed.
Print Assumptions C31_process_stop_partial.

(** The crash states of a file whose pages are flushed in any order: the pages in
    [sel] come from the last version, the others from the disk. *)
Definition mix (page : nat) (sel : nat -> bool) (a b : bytes) : bytes :=
  map (fun k => nth k (if sel (k / page)%nat then b else a) x00) (seq 0 (length b)).

Lemma mix_crash : forall page sel a b dirty, (0 < page)%nat -> length a = length b ->
  Forall (fun d => exists x, d = Some x /\ length x = length b) dirty ->
  nth_error (Some a :: dirty) (length dirty) = Some (Some b) ->
  crash_state page (Some a) dirty (Some (mix page sel a b)).
Proof.
  intros page sel a b dirty Hp Hl Hd Hb.
  exists 0%nat, (Some a). split; [reflexivity|]. exists (mix page sel a b).
  split; auto. assert (Hm : length (mix page sel a b) = length b)
    by (unfold mix; now rewrite map_length, seq_length).
  split; [congruence|]. intros p Hpl.
  assert (Hall : forall j bj, nth_error (Some a :: dirty) j = Some (Some bj) -> length bj = length b).
  { intros j bj Hj. destruct j as [|j]; cbn [nth_error] in Hj; [inversion Hj; congruence|].
    apply nth_error_In in Hj. rewrite Forall_forall in Hd. destruct (Hd _ Hj) as (x & Hx & Hlx).
    congruence. }
  assert (Hnth : forall k, (k < length b)%nat ->
    nth_error (mix page sel a b) k = Some (nth k (if sel (k / page)%nat then b else a) x00)).
  { intros k Hk. unfold mix. rewrite nth_error_map.
    rewrite (nth_error_nth' (seq 0 (length b)) 0%nat) by (rewrite seq_length; auto).
    rewrite seq_nth by auto. reflexivity. }
  destruct (sel p) eqn:Es.
  - exists (length dirty), b. repeat split; [lia|auto| |].
    + intros j' bj' _ Hj. rewrite (Hall _ _ Hj). lia.
    + intros k Hk <-. rewrite Hnth by lia. now rewrite Es.
  - exists 0%nat, a. repeat split; [lia| |].
    + intros j' bj' _ Hj. rewrite (Hall _ _ Hj). lia.
    + intros k Hk <-. rewrite Hnth by lia. now rewrite Es.
Qed.

(** A vector of 12000 chars in a file of three 4 KiB pages. *)
Definition page4k : nat := N.to_nat 4096.
Definition big : val := VVec 12000 (repeat (VB [x41]) (N.to_nat 12000)).

Lemma big_ty : has_ty (ex false) (TVector CHAR) big.
Proof.
  assert (Hl : length (repeat (VB [x41]) (N.to_nat 12000)) = N.to_nat 12000) by apply repeat_length.
  apply HtVector.
  - unfold len. rewrite Hl, N2Nat.id. lia.
  - reflexivity.
  - vm_compute. discriminate.
  - discriminate.
  - apply Forall_forall. intros x Hx. apply repeat_spec in Hx. subst. now apply HtPrim.
Qed.

Definition bytes_eqb (a b : bytes) : bool := list_eqb Byte.eqb a b.
Lemma bytes_eqb_eq : forall a b, bytes_eqb a b = true -> a = b.
Proof.
  induction a as [|x a IH]; intros [|y b] H; try discriminate; auto.
  cbn in H. apply andb_true_iff in H. destruct H as [H1 H2].
  apply Byte.byte_dec_bl in H1. f_equal; auto.
Qed.

(** Everything the refutation needs, as one computation. *)
Definition sel_ends (p : nat) : bool := negb (Nat.eqb p 1).
Definition witness (w : world) : bool :=
  match nth_error (w_snaps w) 9 with
  | Some (Some a, dirty) =>
    match nth_error (Some a :: dirty) (length dirty) with
    | Some (Some b) =>
      Nat.eqb (length a) (length b) &&
      forallb (fun d => match d with Some x => Nat.eqb (length x) (length b) | None => false end) dirty &&
      match deserialize_from_file no_faults page4k (ex false) 4 (TVector CHAR)
              (boot (Some (mix page4k sel_ends a b))) with
      | (Ok (VVec _ l), _) => existsb (fun v => match v with VB [x00] => true | _ => false end) l
      | _ => false
      end
    | _ => false
    end
  | _ => false
  end.

Lemma same_repeat : forall n c c' l, same (VVec c (repeat (VB [x41]) n)) (VVec c' l) ->
  Forall (fun y => y = VB [x41]) l.
Proof.
  intros n c c' l Hs. inversion Hs as [| |? ? l0 ? _ Hf| | | | | | |]; subst l0. clear -Hf.
  revert l Hf. induction n as [|n IH]; intros l Hf; cbn [repeat] in Hf; inversion Hf; subst; constructor; auto.
  match goal with H : sim _ (VB _) _ |- _ => now inversion H end.
Qed.

Lemma witness_sound : forall w, witness w = true -> exists s c x w',
  In s (w_snaps w) /\ crash_state page4k (fst s) (snd s) c /\
  deserialize_from_file no_faults page4k (ex false) 4 (TVector CHAR) (boot c) = (Ok x, w') /\
  c <> None /\ ~ same big x.
Proof.
  intros w H. unfold witness in H.
  destruct (nth_error (w_snaps w) 9) as [[[a|] dirty]|] eqn:E1; try discriminate.
  destruct (nth_error (Some a :: dirty) (length dirty)) as [[b|]|] eqn:E2; try discriminate.
  apply andb_true_iff in H. destruct H as [H H3]. apply andb_true_iff in H. destruct H as [H1 H2].
  destruct (deserialize_from_file no_faults page4k (ex false) 4 (TVector CHAR)
              (boot (Some (mix page4k sel_ends a b)))) as [[x|] w'] eqn:E3; try discriminate.
  destruct x; try discriminate.
  exists (Some a, dirty), (Some (mix page4k sel_ends a b)), (VVec cap l), w'.
  split; [eapply nth_error_In; eauto|]. split.
  - cbn [fst snd]. apply mix_crash.
    + unfold page4k. lia.
    + now apply Nat.eqb_eq in H1.
    + apply Forall_forall. intros d Hd. rewrite forallb_forall in H2. specialize (H2 d Hd).
      destruct d as [y|]; [|discriminate]. apply Nat.eqb_eq in H2. eauto.
    + exact E2.
  - split; auto. split; [discriminate|]. intros Hs.
    apply existsb_exists in H3. destruct H3 as (y & Hy & Hz).
    pose proof (same_repeat _ _ _ _ Hs) as Hall.
    rewrite Forall_forall in Hall. specialize (Hall y Hy). subst y. discriminate.
Qed.

(** Its second page does not reach the disk before the crash; the file is then
    read without an error as a vector in which elements are lost. *)
Theorem C31_crash_refuted : exists w s c x w',
  has_ty (ex false) (TVector CHAR) big /\
  serialize_to_file no_faults true page4k (ex false) 4 (TVector CHAR) big (boot None) = (Ok big, w) /\
  In s (w_snaps w) /\ crash_state page4k (fst s) (snd s) c /\
  deserialize_from_file no_faults page4k (ex false) 4 (TVector CHAR) (boot c) = (Ok x, w') /\
  c <> None /\ ~ same big x.
Proof.
  destruct (to_file_run no_faults true page4k (ex false) (ex_wf false any I) 4 (TVector CHAR) big
    (boot None) big_ty) as (w & Hw).
  - vm_compute. lia.
  - vm_compute. reflexivity.
  - reflexivity.
  - reflexivity.
  - exists w. assert (W : witness (snd (serialize_to_file no_faults true page4k (ex false) 4
                            (TVector CHAR) big (boot None))) = true) by (vm_compute; reflexivity).
    rewrite Hw in W. destruct (witness_sound w W) as (s & c & x & w' & H).
    exists s, c, x, w'. split; [apply big_ty|]. split; [exact Hw|exact H].
Qed.
Print Assumptions C31_crash_refuted.

Example C31_case :
  (* a node fits in one 4 KiB page: there are crash states to talk about *)
  let '(r, w) := serialize_to_file no_faults true page4k (ex true) 12 (TClass 0) v_node
                   (boot (Some (enc_root (ex true) TString s_ab))) in
  r = Ok v_node /\ Nat.ltb 30 (length (w_snaps w)) = true /\
  Nat.leb (length (enc_root (ex true) (TClass 0) v_node)) page4k = true.
Proof. vm_compute. repeat split; auto. Qed.

(** ** C32 *)
Theorem C32_durable_on_return : forall E f t v oracle hf page old x w,
  wf_env any E -> has_ty E t v -> (depth v < f)%nat -> len (enc_root E t v) < two64 ->
  (0 < page)%nat ->
  serialize_to_file oracle hf page E f t v (boot old) = (Ok x, w) ->
  exists s, serialize E f t v None = Ok s /\ w_file w = Some (s_bytes s) /\
    (* a crash after the return leaves exactly these bytes *)
    (forall c, crash_state page (w_disk w) (w_dirty w) c -> c = Some (s_bytes s)) /\
    w_fd w = false /\ w_map w = false /\
    exists tr, w_trace w = tr ++ [(SMsync, None); (SMunmap, None); (SClose, None)].
Proof.
  intros E f t v oracle hf page old x w wf Ht Hd Hl Hp H.
  destruct (to_file oracle hf page E wf f t v (boot old) _ w Ht Hd Hl eq_refl H) as (_ & _ & Hok).
  destruct (Hok x eq_refl) as (-> & Hf & Hdk & Hdi & Hfd & Hm).
  eexists. split; [apply serialize_managed; auto|]. cbn [s_bytes]. split; [exact Hf|].
  split; [|split; [exact Hfd|split; [exact Hm|]]].
  - intros c Hc. rewrite Hdk, Hdi in Hc. now apply crash_clean in Hc.
  - exact (to_file_trace oracle hf page E f t v (boot old) v w wf Ht Hd Hl eq_refl H).
Qed.
Print Assumptions C32_durable_on_return.

Example C32_case :
  let '(r, w) := serialize_to_file no_faults true pg (ex true) 12 t_shapes v_shapes (boot None) in
  r = Ok v_shapes /\ w_disk w = Some (enc_root (ex true) t_shapes v_shapes) /\ w_dirty w = [] /\
  map fst (w_trace w) = [SOpen; SFallocate; SFtruncate; SFsync; SMmap; SMsync; SMunmap; SClose].
Proof. vm_compute. repeat split; auto. Qed.

(** ** C33 *)

(** Memory: a strict prefix at the end of the readable memory is not reported but
    undefined behaviour, always. *)
Theorem C33_memory_refuted : forall E f t v s k before,
  wf_env any E -> has_ty E t v -> constructible E t -> (depth v < f)%nat ->
  len (enc_root E t v) < two64 ->
  serialize E f t v None = Ok s -> (k < length (s_bytes s))%nat ->
  deserialize E f t (before ++ firstn k (s_bytes s)) (length before) = Err UB.
Proof.
  intros E f t v s k before wf Ht Hc Hd Hl Hs Hk.
  rewrite serialize_managed in Hs by auto. inversion Hs; subst s. cbn [s_bytes] in *.
  apply (memory_prefix E wf f t v _ (skipn k (enc_root E t v))); auto.
  - symmetry. apply firstn_skipn.
  - intros Hn. apply (f_equal (@length _)) in Hn. rewrite skipn_length in Hn. cbn in Hn. lia.
Qed.
Print Assumptions C33_memory_refuted.

(** Files: a truncated file may be accepted ... *)
Theorem C33_file_accepted_refuted : exists k w,
  let c := enc_root (ex true) (TClass 0) v_node in
  (k < length c)%nat /\
  deserialize_from_file no_faults pg (ex true) 12 (TClass 0) (boot (Some (firstn k c))) = (Ok v_node', w).
Proof. exists 294%nat. eexists. split; vm_compute; [lia|reflexivity]. Qed.
Print Assumptions C33_file_accepted_refuted.

(** ... or lead to undefined behaviour (reading behind the mapping). *)
Theorem C33_file_ub_refuted : exists k w,
  let c := enc_root (ex true) (TClass 0) v_node in
  (k < length c)%nat /\
  deserialize_from_file no_faults pg (ex true) 12 (TClass 0) (boot (Some (firstn k c))) = (Err UB, w).
Proof. exists 256%nat. eexists. split; vm_compute; [lia|reflexivity]. Qed.
Print Assumptions C33_file_ub_refuted.

(** What does hold for files: a truncated file never yields a different object,
    and an empty file or one without a complete type index is reported. *)
Theorem C33_file_partial : forall E f t v oracle page s k r w',
  wf_env any E -> has_ty E t v -> constructible E t -> (depth v < f)%nat ->
  wrap64 (sizeof E t) <> 0 -> len (enc_root E t v) < two64 -> (4 <= page)%nat ->
  serialize E f t v None = Ok s ->
  deserialize_from_file oracle page E f t (boot (Some (firstn k (s_bytes s)))) = (r, w') ->
  (forall x, r = Ok x -> same v x) /\
  ((k < 4)%nat -> exists e, r = Err e /\ (is_exception e = true \/ e = Terminate)).
Proof.
  intros E f t v oracle page s k r w' wf Ht Hc Hd Hs Hl Hp Hser H.
  rewrite serialize_managed in Hser by auto. inversion Hser; subst s. cbn [s_bytes] in *.
  split.
  - intros x Hx. apply (sim_mono N.le); auto.
    eapply (file_cut E wf page oracle f t v (firstn k (enc_root E t v)) (skipn k (enc_root E t v)) 0); eauto.
    + now rewrite firstn_skipn.
    + cbn [contents boot w_file]. cbn [zeros repeat]. now rewrite app_nil_r.
  - intros Hk. exact (file_short oracle page E f t v k r w' wf Hc ltac:(lia) Hp Hk H).
Qed.
Print Assumptions C33_file_partial.

Example C33_case :
  let c := enc_root (ex true) (TClass 0) v_node in
  deserialize (ex true) 12 (TClass 0) (firstn 300 c) 0 = Err UB /\
  reported 0 (fst (deserialize_from_file no_faults pg (ex true) 12 (TClass 0) (boot (Some (firstn 3 c))))) /\
  fst (deserialize_from_file no_faults pg (ex true) 12 (TClass 0) (boot (Some []))) = Err RtErr /\
  reported 1 (fst (deserialize_from_file no_faults pg (ex true) 12 (TClass 0) (boot (Some (firstn 280 c))))).
Proof. vm_compute. auto. Qed.
