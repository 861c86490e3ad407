(** Kokkos::UnorderedMaps with a free slot that holds the key of an occupied one: the other half of
    property C42, with proofs. *)
From Coq Require Import List NArith Arith Bool Lia Permutation.
From Coq.Strings Require Import Byte.
From Verif Require Import Base Syntax Prog Serializers Traverse Spec ProgFacts EnvFacts ValFacts
  Fails RegistryFacts Pack Unpack ApiFacts Views ViewSpec ViewFacts ViewRound KMap PropTypes Examples PropViews.
Import ListNotations.
Local Open Scope N_scope.

(** The pairs that are written: the key of every slot, occupied or not, whose key is present. *)
Definition visited (K : kokkos_map) (all mp : kmap) : list slot :=
  flat_map (fun s => match kfind K all (s_key s) with
                     | Some s' => [{| s_key := s_key s; s_val := s_val s'; s_occ := true |}]
                     | None => []
                     end) mp.

(** Also the keys of free slots are objects of the type of the keys. *)
Definition free_keys (E : env) (kt : ty) (f : nat) (mp : kmap) : Prop :=
  Forall (fun s => has_ty E kt (s_key s) /\ (depth (s_key s) < f)%nat) mp.
(** A key that is present is also left over in a free slot. *)
Definition leftover (K : kokkos_map) (mp : kmap) : Prop :=
  exists s s', In s mp /\ In s' mp /\ s_occ s = false /\ s_occ s' = true /\
  k_eq K (s_key s) (s_key s') = true.

Lemma leftover_or_not : forall K mp, leftover K mp \/ no_leftover K mp.
Proof.
  intros K mp.
  set (p := fun s => negb (s_occ s) && existsb (fun s' => s_occ s' && k_eq K (s_key s) (s_key s')) mp).
  destruct (existsb p mp) eqn:Hp.
  - left. apply existsb_exists in Hp. destruct Hp as (s & Hs & H). apply andb_true_iff in H. destruct H as (H1 & H2).
    apply existsb_exists in H2. destruct H2 as (s' & Hs' & H2). apply andb_true_iff in H2.
    apply negb_true_iff in H1. exists s, s'. tauto.
  - right. intros s s' Hs Hs' Ho Ho'. destruct (k_eq K (s_key s) (s_key s')) eqn:He; auto.
    assert (Ht : existsb p mp = true); [|congruence]. apply existsb_exists. exists s. split; auto.
    unfold p. rewrite Ho. cbn [negb andb]. apply existsb_exists. exists s'. split; auto. now rewrite Ho', He.
Qed.

Section Leftover.
Variable E : env.
Hypothesis wf : wf_env any E.
Variable K : kokkos_map.
Variable f : nat.
Hypothesis Hf : (1 < f)%nat.
Variables kt vt : ty.

Notation typed := (fun s => has_ty E kt (s_key s) /\ has_ty E vt (s_val s) /\
  (depth (s_key s) < f)%nat /\ (depth (s_val s) < f)%nat).

Lemma visited_typed : forall mp, kmap_ok E K kt vt f mp -> free_keys E kt f mp ->
  Forall typed (visited K mp mp).
Proof.
  intros mp Hok Hfk. apply Forall_forall. intros s Hs. unfold visited in Hs. apply in_flat_map in Hs.
  destruct Hs as (s0 & H0 & Hs). destruct (kfind K mp (s_key s0)) as [s'|] eqn:Hk; [|contradiction].
  destruct Hs as [<-|[]]. cbn [s_key s_val]. unfold kfind in Hk. apply find_some in Hk.
  destruct Hk as (Hin & Hp). apply andb_true_iff in Hp. destruct Hp as (Ho & _).
  pose proof (ko_elems _ _ _ _ _ _ Hok) as Hel. unfold free_keys in Hfk. rewrite Forall_forall in Hel, Hfk.
  destruct (Hel s') as (_ & H2 & _ & H4); [apply filter_In; auto|]. destruct (Hfk s0 H0) as (H1 & H3). auto.
Qed.

Lemma visited_more : forall mp, kmap_ok E K kt vt f mp -> leftover K mp ->
  (length (occupied mp) < length (visited K mp mp))%nat.
Proof.
  intros mp Hok (s & s' & Hs & Hs' & Ho & Ho' & He).
  assert (Hk : kfind K mp (s_key s) <> None).
  { unfold kfind. rewrite find_none_iff. intros Hn. specialize (Hn s' Hs'). rewrite Ho', He in Hn. discriminate. }
  assert (Hown : forall x, In x mp -> s_occ x = true -> kfind K mp (s_key x) <> None).
  { intros x Hx Hxo. rewrite (kfind_own E K kt vt f mp x) by auto. discriminate. }
  assert (G : forall l, (forall x, In x l -> In x mp) ->
    (length (occupied l) <= length (visited K mp l))%nat /\
    (In s l -> (length (occupied l) < length (visited K mp l))%nat)).
  { induction l as [|x l IH]; intros Hl; [split; [auto|contradiction]|].
    destruct IH as (H1 & H2); [intros; apply Hl; now right|].
    unfold occupied, visited in *. cbn [filter flat_map]. rewrite app_length.
    destruct (kfind K mp (s_key x)) eqn:Hx.
    - cbn [length]. destruct (s_occ x) eqn:Hxo; cbn [length]; (split; [lia|]).
      + intros [->|Hin]; [congruence|]. specialize (H2 Hin). lia.
      + intros _. lia.
    - destruct (s_occ x) eqn:Hxo.
      + exfalso. apply (Hown x); auto. apply Hl. now left.
      + cbn [length]. split; [lia|]. intros [->|Hin]; [congruence|]. auto. }
  apply (G mp); auto.
Qed.

Definition wvisited (mp : kmap) : bytes :=
  framed E (TPrim 2 4) 1 (le 4 (len (occupied mp))) ++ framed E (TPrim 2 4) 1 (le 4 (len mp)) ++
  concat (map (wpair E kt vt) (visited K mp mp)).

Lemma e_visited : forall m mp, m = MPacking \/ m = MSizing -> kmap_ok E K kt vt f mp -> free_keys E kt f mp ->
  emits (ser_kmap E K m (with_ E m f) kt vt mp) false mp false (wvisited mp).
Proof.
  intros m mp Hm Hok Hfk. unfold ser_kmap, wvisited. rewrite (m_unp m Hm).
  pose proof (occupied_len mp). pose proof (ko_cap _ _ _ _ _ _ Hok).
  pose proof (proj1 (pack_all any E wf m Hm f)) as P.
  eapply emits_bind; [apply (p_ser_word E _ f P); auto; change (256 ^ N.of_nat 4) with (2 ^ 32); lia|].
  eapply emits_bind; [apply (p_ser_word E _ f P); auto; change (256 ^ N.of_nat 4) with (2 ^ 32); lia|].
  eapply emits_eq; [|apply app_nil_r]. eapply emits_bind; [|apply emits_ret].
  unfold ser_kmap_elems. eapply emits_eq; [|apply app_nil_r].
  eapply emits_bind with (a := map (fun _ => tt) mp); [|apply emits_ret].
  replace (concat (map (wpair E kt vt) (visited K mp mp)))
    with (concat (map (fun s => match kfind K mp (s_key s) with
      | Some s' => enc E kt (s_key s) ++ enc E vt (s_val s') | None => [] end) mp)).
  2:{ unfold visited. generalize mp at 1 3 as all. intros all. clear. induction mp as [|s l IH]; auto.
      cbn [map concat flat_map]. rewrite map_app, concat_app, IH.
      destruct (kfind K all (s_key s)); cbn [map concat]; unfold wpair; cbn [s_key s_val]; now rewrite ?app_nil_r. }
  apply emits_mapP. intros s Hs. destruct (kfind K mp (s_key s)) as [s'|] eqn:Hk; [|apply emits_ret].
  unfold free_keys in Hfk. rewrite Forall_forall in Hfk. destruct (Hfk s Hs) as (H1 & H3).
  unfold kfind in Hk. apply find_some in Hk. destruct Hk as (Hin & Hp). apply andb_true_iff in Hp.
  pose proof (ko_elems _ _ _ _ _ _ Hok) as Hel. rewrite Forall_forall in Hel.
  destruct (Hel s') as (_ & H2 & _ & H4); [apply filter_In; tauto|].
  eapply emits_bind; [apply (p_ser E _ f P); auto; now constructor|].
  eapply emits_eq; [|apply app_nil_r].
  eapply emits_bind; [apply (p_ser E _ f P); auto; now constructor|]. apply emits_ret.
Qed.

Hypothesis Hkt : constructible E kt.
Hypothesis Hvt : constructible E vt.
Notation rec := (with_ E MUnpacking f).

Lemma r_pairs : forall l mp, Forall typed l ->
  exists mp', reads (foldP (fun mp (_ : unit) =>
      bind (construct E kt) (fun k0 => bind (construct E vt) (fun v0 =>
      bind (ser rec kt k0) (fun k => bind (ser rec vt v0) (fun v =>
      leave E kt k (leave E vt v (Ret (kinsert K mp k v)))))))) (repeat tt (length l)) mp)
      false (concat (map (wpair E kt vt) l)) mp' false.
Proof.
  induction l as [|s l IH]; intros mp Hel; [exists mp; apply reads_ret|].
  inversion Hel as [|? ? (H1 & H2 & H3 & H4) Hel']; subst.
  destruct (recon E kt) as [k0|] eqn:Hk0; [|now elim Hkt].
  destruct (recon E vt) as [v0|] eqn:Hv0; [|now elim Hvt].
  destruct (r_ser E wf f kt (s_key s) k0) as (k & Hk & Hrk); [auto| |].
  { eapply (recon_tgt any E wf Cany Cany_any); eauto. }
  destruct (r_ser E wf f vt (s_val s) v0) as (v & Hv & Hrv); [auto| |].
  { eapply (recon_tgt any E wf Cany Cany_any); eauto. }
  destruct (IH (kinsert K mp k v) Hel') as (mp' & Hr). exists mp'.
  cbn [length repeat foldP map concat]. unfold wpair at 1. eapply reads_bind; [|exact Hr].
  unfold construct. rewrite Hk0, Hv0. cbn [of_opt bind].
  apply reads_note. cbn [bind]. apply reads_note.
  eapply reads_bind; [exact Hrk|]. eapply reads_eq; [|apply app_nil_r].
  eapply reads_bind; [exact Hrv|]. apply reads_leave, reads_leave, reads_ret.
Qed.

Lemma r_short : forall mp w, kmap_ok E K kt vt f mp -> free_keys E kt f mp -> leftover K mp ->
  exists x i p r, wvisited mp = i ++ wpair E kt vt p ++ r /\ typed p /\
    reads (ser_kmap E K MUnpacking rec kt vt w) false i x false.
Proof.
  intros mp w Hok Hfk Hlo. pose proof (visited_more mp Hok Hlo) as Hmore.
  pose proof (visited_typed mp Hok Hfk) as Hty.
  pose proof (occupied_len mp) as Hle. pose proof (ko_cap _ _ _ _ _ _ Hok) as Hcap.
  set (n := length (occupied mp)) in *. pose proof (firstn_skipn n (visited K mp mp)) as Hsp.
  destruct (skipn n (visited K mp mp)) as [|p l2] eqn:Hsk.
  { apply (f_equal (@length slot)) in Hsk. rewrite skipn_length in Hsk. cbn [length] in Hsk. lia. }
  rewrite <- Hsp in Hty. apply Forall_app in Hty. destruct Hty as (Ht1 & Ht2).
  destruct (r_pairs (firstn n (visited K mp mp)) (k_rehash K w (len mp)) Ht1) as (x & Hr).
  rewrite firstn_length_le in Hr by lia.
  exists x, (framed E (TPrim 2 4) 1 (le 4 (len (occupied mp))) ++ framed E (TPrim 2 4) 1 (le 4 (len mp)) ++
    concat (map (wpair E kt vt) (firstn n (visited K mp mp)))), p, (concat (map (wpair E kt vt) l2)).
  split; [|split].
  - unfold wvisited. rewrite <- Hsp at 1. rewrite map_app, concat_app. cbn [map concat].
    now rewrite <- !app_assoc.
  - inversion Ht2; subst. auto.
  - pose proof (proj1 (unpack_all any E wf Cany N.le Cany_any Cany_max f)) as U.
    unfold ser_kmap. cbn [is_unpacking].
    eapply reads_bind; [apply (u_word E Cany N.le rec f U); auto; change (256 ^ N.of_nat 4) with (2 ^ 32); lia|].
    eapply reads_bind; [apply (u_word E Cany N.le rec f U); auto; change (256 ^ N.of_nat 4) with (2 ^ 32); lia|].
    unfold deser_kmap_elems. unfold len at 1. rewrite Nat2N.id. exact Hr.
Qed.
End Leftover.

(** The end of a root object that leaves data unread: the next eight bytes are taken for its size. *)
Lemma root_unread : forall E, wf_env any E -> forall A t (p : prog A) a i y r,
  reads p false i a false -> length y = 8%nat ->
  (unle y = wrap64 (sizeof E t) ->
     reads (root_object E MUnpacking t p) false (le 4 (tix E t) ++ i ++ y) a false) /\
  (unle y <> wrap64 (sizeof E t) ->
     fails (root_object E MUnpacking t p) false (le 4 (tix E t) ++ i ++ y ++ r)
       (SerErr 0 [MemUsed (tix E t) (unle y) (wrap64 (sizeof E t))])).
Proof.
  intros E wf A t p a i y r Hp Hy.
  assert (Hti : reads (with_type_idx E MUnpacking t) false (le 4 (tix E t)) tt false).
  { destruct (tix_ok any E wf t) as (Hu & Hval).
    unfold with_type_idx. eapply reads_eq; [|apply app_nil_r].
    apply reads_contig; [now rewrite !le_length|].
    cbn zeta. rewrite Hu, Hval, N.eqb_refl. apply reads_ret. }
  assert (Hc : reads (if chk E then catch (tix E t) p else p) false i a false).
  { destruct (chk E); [|exact Hp]. intros e rest. apply interp_catch_ok, Hp. }
  assert (Hro : root_object E MUnpacking t p =
    bind (with_type_idx E MUnpacking t) (fun _ => bind (if chk E then catch (tix E t) p else p)
      (fun a => bind (with_mem_used E MUnpacking t 1) (fun _ => Ret a)))).
  { unfold root_object, as_object. destruct (chk E); reflexivity. }
  rewrite Hro. unfold with_mem_used. rewrite N.mul_1_r. split; intros Hu.
  - eapply reads_bind; [exact Hti|]. eapply reads_bind; [exact Hc|].
    eapply reads_eq; [|apply app_nil_r]. eapply reads_bind with (a := tt) (vf1 := false); [|apply reads_ret].
    eapply reads_eq; [|apply app_nil_r]. apply reads_contig; [now rewrite le_length|].
    rewrite Hu, N.eqb_refl. apply reads_ret.
  - eapply fails_bind_r; [exact Hti|]. eapply fails_bind_r; [exact Hc|]. apply fails_bind_l.
    apply fails_contig; [now rewrite le_length|]. apply N.eqb_neq in Hu. rewrite Hu.
    eapply fails_eq; [apply fails_more, fails_fail|reflexivity].
Qed.

Lemma wroot_split : forall E t b, wroot E t b = le 4 (tix E t) ++ b ++ le 8 (wrap64 (sizeof E t)).
Proof. intros. unfold wroot, framed. rewrite N.mul_1_r. destruct (chk E); reflexivity. Qed.

(** ** C42 *)

(** If a key is left over, the map is written with more elements than its size says.  In builds
    with error checking it can never be deserialized again; in other builds it can only if eight
    bytes of its elements happen to be the size of the map, and leaves the rest of them unread. *)
Theorem C42_leftover : forall E K f name kt vt mp, wf_env any E -> (1 < f)%nat ->
  constructible E kt -> constructible E vt -> kmap_ok E K kt vt f mp -> free_keys E kt f mp ->
  leftover K mp -> sizeof E name < 2 ^ 31 ->
  (forall k v, has_ty E kt k -> has_ty E vt v -> enc E kt k ++ enc E vt v <> []) ->
  exists b, (stream_kmap E K f name kt vt mp = Ok (b, mp) /\
     (len b < two64 -> serialize_kmap E K f name kt vt mp = Ok (b, mp))) /\
    forall w, exists z x n, n < len b /\ forall before after,
      let r := deserialize_kmap E K f name kt vt (before ++ b ++ after) (length before) w in
      (r = Err (SerErr 0 [MemUsed (tix E name) z (sizeof E name)]) \/ r = Ok (x, n)) /\
      (chk E = true -> r = Err (SerErr 0 [MemUsed (tix E name) z (sizeof E name)])).
Proof.
  intros E K f name kt vt mp wf Hf Hkt Hvt Hok Hfk Hlo Hsz Hne.
  exists (wroot E name (wvisited E K kt vt mp)). split.
  - unfold stream_kmap, serialize_kmap, root_kmap.
    refine (both_ways _ _ _ _ mp mp _ _ _ _ eq_refl).
    + apply e_root; [now right|]. eapply e_visited; eauto.
    + apply e_root; [now left|]. eapply e_visited; eauto.
  - intros w. destruct (r_short E wf K f Hf kt vt Hkt Hvt mp w Hok Hfk Hlo) as (x & i & p & r & Hw & (Hp1 & Hp2 & _) & Hr).
    assert (Hsz64 : wrap64 (sizeof E name) = sizeof E name).
    { apply N.mod_small. change (2 ^ 31) with 2147483648 in Hsz. change two64 with 18446744073709551616. lia. }
    specialize (Hne _ _ Hp1 Hp2). fold (wpair E kt vt p) in Hne.
    set (tail := wpair E kt vt p ++ r ++ le 8 (wrap64 (sizeof E name))).
    assert (Htl : (8 < length tail)%nat).
    { unfold tail. rewrite !app_length, le_length. destruct (wpair E kt vt p); [congruence|]. cbn [length]. lia. }
    assert (Hb : wroot E name (wvisited E K kt vt mp) =
      le 4 (tix E name) ++ i ++ firstn 8 tail ++ skipn 8 tail).
    { rewrite wroot_split, Hw, firstn_skipn. unfold tail. now rewrite <- !app_assoc. }
    set (y := firstn 8 tail) in *.
    assert (Hy : length y = 8%nat) by (unfold y; rewrite firstn_length_le; lia).
    destruct (root_unread E wf _ name _ x i y (skipn 8 tail) Hr Hy) as (Hsame & Hdiff).
    exists (unle y), x, (len (le 4 (tix E name) ++ i ++ y)). split.
    { rewrite Hb. rewrite !len_app. assert (0 < len (skipn 8 tail)); [|lia].
      unfold len. rewrite skipn_length. lia. }
    intros before after. cbv zeta. rewrite Hb. rewrite Hsz64 in *. unfold deserialize_kmap.
    assert (Hno : unle y <> sizeof E name ->
      deserialize_object (root_kmap E K f name kt vt MUnpacking w)
        (before ++ (le 4 (tix E name) ++ i ++ y ++ skipn 8 tail) ++ after) (length before) =
      Err (SerErr 0 [MemUsed (tix E name) (unle y) (sizeof E name)])).
    { intros H. unfold deserialize_object.
      pose proof (fails_unpacker _ _ _ _ _ (Hdiff H) before after 0) as H'. change (wrap64 0) with 0 in H'.
      unfold root_kmap. now rewrite H'. }
    split.
    + destruct (N.eq_dec (unle y) (sizeof E name)) as [He|He]; [|left; auto]. right.
      rewrite (app_assoc i), (app_assoc (le 4 (tix E name))), <- (app_assoc (le 4 _ ++ i ++ y)).
      apply (deserialize_reads _ _ _ _ (Hsame He)).
    + intros Hc. apply Hno. intros He.
      (* the marker of a type index is no size *)
      assert (Hx : exists r', y = le 4 (tix E kt) ++ r').
      { unfold y, tail, wpair, enc, framed. rewrite Hc, <- !app_assoc.
        rewrite firstn_app, le_length. rewrite firstn_all2 by (rewrite le_length; lia). eauto. }
      destruct Hx as (r' & Hx).
      assert (Hle : le 8 (sizeof E name) = y) by (rewrite <- He, <- Hy; apply le_unle).
      destruct (word_split (sizeof E name)) as (r4 & H4). rewrite H4, Hx in Hle.
      apply app_inj_l in Hle; [|now rewrite !le_length].
      apply le_inj in Hle; [|apply N.mod_lt; discriminate|exact (proj1 (wf_tix _ _ wf kt))].
      pose proof (tix_big _ _ kt wf). pose proof (N.mod_le (sizeof E name) (2 ^ 32) ltac:(discriminate)). lia.
Qed.
Print Assumptions C42_leftover.

Example C42_leftover_case : forall b,
  kmap_ok (ex b) ex_map INT INT 3 ex_lossy /\ free_keys (ex b) INT 3 ex_lossy /\ leftover ex_map ex_lossy /\
  sizeof (ex b) (TPrim 92 40) < 2 ^ 31 /\
  (forall k v, has_ty (ex b) INT k -> has_ty (ex b) INT v -> enc (ex b) INT k ++ enc (ex b) INT v <> []).
Proof.
  intros b. split; [constructor|split; [|split; [|split]]].
  - reflexivity.
  - intros s H. repeat (destruct H as [<-|H]; [reflexivity|]). contradiction.
  - apart.
  - change (occupied ex_lossy) with [slot_ 0 10; slot_ 5 50]. unfold slot_. slots.
  - repeat (constructor; [split; [ht|cbn; lia]|]). constructor.
  - exists empty_slot, (slot_ 0 10). repeat split; auto; cbn; auto.
  - reflexivity.
  - intros k v Hk _. inversion Hk; subst. unfold enc, framed. destruct b; cbn [encb].
    + discriminate.
    + destruct b0; [discriminate|discriminate].
Qed.
