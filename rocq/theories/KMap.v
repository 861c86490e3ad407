(** Kokkos::UnorderedMap: specification and round trip. *)
From Coq Require Import List NArith Arith Bool Lia Permutation.
From Coq.Strings Require Import Byte.
From Verif Require Import Base Syntax Prog Serializers Traverse Spec ProgFacts EnvFacts ValFacts
  Fails RegistryFacts Pack Unpack ApiFacts Views ViewSpec ViewFacts ViewRound.
Import ListNotations.
Local Open Scope N_scope.

(** ** Specification *)

(** What the code relies on of Kokkos: the equality of keys does not see the
    difference between a key and its copy, rehashing an empty map leaves it empty and
    gives it at least the capacity asked for, and a new key goes to a free slot. *)
Record wf_kokkos (K : kokkos_map) : Prop := {
  wk_copy : forall a a' b b', copy_of a a' -> copy_of b b' -> k_eq K a' b' = k_eq K a b;
  wk_rehash : forall mp n, occupied mp = [] ->
    occupied (k_rehash K mp n) = [] /\ n <= len (k_rehash K mp n);
  wk_place : forall mp k, len (occupied mp) < len mp ->
    exists i s, k_place K mp k = Some i /\ nth_error mp i = Some s /\ s_occ s = false
}.

(** A map that a program can hold. *)
Record kmap_ok (E : env) (K : kokkos_map) (kt vt : ty) (f : nat) (mp : kmap) : Prop := {
  ko_cap : len mp < 2 ^ 32;
  ko_refl : forall s, In s (occupied mp) -> k_eq K (s_key s) (s_key s) = true;
  ko_distinct : forall i j s s', nth_error mp i = Some s -> nth_error mp j = Some s' ->
    s_occ s = true -> s_occ s' = true -> k_eq K (s_key s) (s_key s') = true -> i = j;
  ko_elems : Forall (fun s => has_ty E kt (s_key s) /\ has_ty E vt (s_val s) /\
                              (depth (s_key s) < f)%nat /\ (depth (s_val s) < f)%nat) (occupied mp)
}.

(** No key that is present is also left over in a free slot. *)
Definition no_leftover (K : kokkos_map) (mp : kmap) : Prop :=
  forall s s', In s mp -> In s' mp -> s_occ s = false -> s_occ s' = true ->
  k_eq K (s_key s) (s_key s') = false.

(** The same keys with the same mapped values. *)
Definition kmap_copy (mp mp' : kmap) : Prop :=
  exists l, Permutation l (occupied mp') /\
    Forall2 (fun s s' => copy_of (s_key s) (s_key s') /\ copy_of (s_val s) (s_val s')) (occupied mp) l.

(** ** Facts *)

Lemma find_none_iff : forall A (p : A -> bool) l, find p l = None <-> forall x, In x l -> p x = false.
Proof.
  induction l; cbn; [split; [contradiction|auto]|]. destruct (p a) eqn:Hp.
  - split; [discriminate|]. intros H. specialize (H a (or_introl eq_refl)). congruence.
  - rewrite IHl. split; intros H; [intros x [<-|Hx]; auto|auto].
Qed.

Definition wpair (E : env) (kt vt : ty) (s : slot) : bytes := enc E kt (s_key s) ++ enc E vt (s_val s).
Definition wkmap (E : env) (kt vt : ty) (mp : kmap) : bytes :=
  framed E (TPrim 2 4) 1 (le 4 (len (occupied mp))) ++ framed E (TPrim 2 4) 1 (le 4 (len mp)) ++
  concat (map (wpair E kt vt) (occupied mp)).

Lemma kfind_own : forall E K kt vt f mp s, kmap_ok E K kt vt f mp -> In s mp -> s_occ s = true ->
  kfind K mp (s_key s) = Some s.
Proof.
  intros E K kt vt f mp s Hok Hin Hocc. unfold kfind.
  destruct (find (fun s0 => s_occ s0 && k_eq K (s_key s) (s_key s0)) mp) as [s'|] eqn:Hf.
  - apply find_some in Hf. destruct Hf as (Hin' & Hp). apply andb_true_iff in Hp.
    destruct Hp as (Ho' & Heq).
    apply In_nth_error in Hin. apply In_nth_error in Hin'. destruct Hin as (i & Hi), Hin' as (j & Hj).
    assert (i = j) by (eapply (ko_distinct _ _ _ _ _ _ Hok); eauto). congruence.
  - rewrite find_none_iff in Hf. specialize (Hf s Hin). rewrite Hocc in Hf. cbn in Hf.
    rewrite (ko_refl _ _ _ _ _ _ Hok) in Hf; [discriminate|]. apply filter_In. auto.
Qed.

Lemma occupied_len : forall mp, len (occupied mp) <= len mp.
Proof.
  intros. unfold occupied, len. induction mp; cbn [filter length]; [lia|].
  destruct (s_occ a); cbn [length]; lia.
Qed.

Section Emit.
Variable F : N -> Prop.
Variable E : env.
Hypothesis wf : wf_env F E.
Variable K : kokkos_map.
Variable m : mode.
Hypothesis Hm : m = MPacking \/ m = MSizing.
Variable f : nat.
Hypothesis Hf : (1 < f)%nat.
Variables kt vt : ty.
Notation rec := (with_ E m f).
Let P := proj1 (pack_all F E wf m Hm f).

Lemma e_elems : forall mp, kmap_ok E K kt vt f mp -> no_leftover K mp ->
  emits (ser_kmap_elems K rec kt vt mp) false tt false (concat (map (wpair E kt vt) (occupied mp))).
Proof.
  intros mp Hok Hno. unfold ser_kmap_elems.
  eapply emits_eq; [|apply app_nil_r].
  eapply emits_bind with (a := map (fun _ => tt) mp); [|apply emits_ret].
  replace (concat (map (wpair E kt vt) (occupied mp)))
    with (concat (map (fun s => if s_occ s then wpair E kt vt s else []) mp)).
  2:{ unfold occupied. induction mp as [|s mp IH] in |- *; cbn [map concat filter]; auto.
      rewrite IH. destruct (s_occ s); reflexivity. }
  apply emits_mapP. intros s Hs. destruct (s_occ s) eqn:Ho.
  - rewrite (kfind_own E K kt vt f mp s) by auto.
    pose proof (ko_elems _ _ _ _ _ _ Hok) as Hel. rewrite Forall_forall in Hel.
    destruct (Hel s) as (H1 & H2 & H3 & H4); [apply filter_In; auto|].
    eapply emits_bind; [apply (p_ser E rec f P); auto; now constructor|].
    eapply emits_eq; [|apply app_nil_r].
    eapply emits_bind; [apply (p_ser E rec f P); auto; now constructor|]. apply emits_ret.
  - assert (Hn : kfind K mp (s_key s) = None).
    { unfold kfind. apply find_none_iff. intros s' Hs'. destruct (s_occ s') eqn:Ho'; auto.
      cbn [andb]. apply Hno; auto. }
    rewrite Hn. apply emits_ret.
Qed.

Lemma e_kmap : forall mp, kmap_ok E K kt vt f mp -> no_leftover K mp ->
  emits (ser_kmap E K m rec kt vt mp) false mp false (wkmap E kt vt mp).
Proof.
  intros mp Hok Hno. unfold ser_kmap, wkmap. rewrite (m_unp m Hm).
  pose proof (occupied_len mp). pose proof (ko_cap _ _ _ _ _ _ Hok).
  eapply emits_bind; [apply (p_ser_word E rec f P); auto; change (256 ^ N.of_nat 4) with (2 ^ 32); lia|].
  eapply emits_bind; [apply (p_ser_word E rec f P); auto; change (256 ^ N.of_nat 4) with (2 ^ 32); lia|].
  eapply emits_eq; [|apply app_nil_r]. eapply emits_bind; [now apply e_elems|]. apply emits_ret.
Qed.
End Emit.

Lemma occupied_upd : forall mp i s s', nth_error mp i = Some s -> s_occ s = false -> s_occ s' = true ->
  Permutation (s' :: occupied mp) (occupied (upd mp i s')).
Proof.
  unfold occupied. induction mp as [|a mp IH]; intros [|i] s s' Hn Ho Ho'; cbn [nth_error] in Hn; try discriminate.
  - inversion Hn; subst. cbn [upd filter]. rewrite Ho, Ho'. apply Permutation_refl.
  - cbn [upd filter]. destruct (s_occ a).
    + eapply perm_trans; [apply perm_swap|]. apply perm_skip. eapply IH; eauto.
    + eapply IH; eauto.
Qed.

Section Read.
Variable E : env.
Hypothesis wf : wf_env any E.
Variable K : kokkos_map.
Hypothesis wk : wf_kokkos K.
Variable f : nat.
Hypothesis Hf : (1 < f)%nat.
Variables kt vt : ty.
Hypothesis Hkt : constructible E kt.
Hypothesis Hvt : constructible E vt.
Notation m := MUnpacking.
Notation rec := (with_ E m f).
Let U := proj1 (unpack_all any E wf Cany N.le Cany_any Cany_max f).
Let Hf1 : (1 <= f)%nat. Proof. lia. Qed.

Notation cp := (fun s s' => copy_of (s_key s) (s_key s') /\ copy_of (s_val s) (s_val s')).

Definition distinct (K : kokkos_map) (l : list slot) : Prop :=
  ForallOrdPairs (fun s s' => k_eq K (s_key s') (s_key s) = false) l.

Lemma r_inserts : forall l done0 mp,
  Forall (fun s => has_ty E kt (s_key s) /\ has_ty E vt (s_val s) /\
                   (depth (s_key s) < f)%nat /\ (depth (s_val s) < f)%nat) l ->
  (forall s s', In s l -> In s' done0 -> k_eq K (s_key s) (s_key s') = false) ->
  distinct K l ->
  (exists q, Permutation q (occupied mp) /\ Forall2 cp done0 q) ->
  len (occupied mp) + len l <= len mp ->
  exists mp', reads (foldP (fun mp (_ : unit) =>
      bind (construct E kt) (fun k0 => bind (construct E vt) (fun v0 =>
      bind (ser rec kt k0) (fun k => bind (ser rec vt v0) (fun v =>
      leave E kt k (leave E vt v (Ret (kinsert K mp k v)))))))) (repeat tt (length l)) mp)
      false (concat (map (wpair E kt vt) l)) mp' false /\
    len mp' = len mp /\ exists q, Permutation q (occupied mp') /\ Forall2 cp (done0 ++ l) q.
Proof.
  induction l as [|s l IH]; intros done0 mp Hel Hfresh Hdist Hdone Hroom.
  - exists mp. split; [apply reads_ret|]. split; auto. now rewrite app_nil_r.
  - inversion Hel as [|? ? (H1 & H2 & H3 & H4) Hel']; subst.
    inversion Hdist as [|? ? Hd1 Hd2]; subst.
    destruct (recon E kt) as [k0|] eqn:Hk0; [|now elim Hkt].
    destruct (recon E vt) as [v0|] eqn:Hv0; [|now elim Hvt].
    destruct (r_ser E wf f kt (s_key s) k0) as (k & Hk & Hrk); [auto| |].
    { eapply (recon_tgt any E wf Cany Cany_any); eauto. }
    destruct (r_ser E wf f vt (s_val s) v0) as (v & Hv & Hrv); [auto| |].
    { eapply (recon_tgt any E wf Cany Cany_any); eauto. }
    destruct Hdone as (q & Hq & Hqc). rewrite len_cons in Hroom.
    assert (Hnf : kfind K mp k = None).
    { unfold kfind. apply find_none_iff. intros s' Hs'. destruct (s_occ s') eqn:Ho'; auto. cbn [andb].
      assert (Hin : In s' q).
      { eapply Permutation_in; [apply Permutation_sym; exact Hq|]. apply filter_In. auto. }
      destruct (In_nth_error _ _ Hin) as (i & Hi).
      assert (exists s0, In s0 done0 /\ cp s0 s') as (s0 & Hs0 & Hc0 & _).
      { clear -Hqc Hin. induction Hqc; [contradiction|]. destruct Hin as [<-|Hin].
        - eexists. split; [now left|]. auto.
        - destruct (IHHqc Hin) as (s0 & Hs0 & Hc). exists s0. split; auto. now right. }
      rewrite (wk_copy K wk _ _ _ _ Hk Hc0). apply Hfresh; auto. now left. }
    destruct (wk_place K wk mp k) as (i & s1 & Hpl & Hn1 & Ho1); [lia|].
    set (ns := {| s_key := k; s_val := v; s_occ := true |}).
    assert (Hins : kinsert K mp k v = upd mp i ns) by (unfold kinsert; now rewrite Hnf, Hpl).
    pose proof (occupied_upd mp i s1 ns Hn1 Ho1 eq_refl) as Hperm.
    assert (Hocc : len (occupied (upd mp i ns)) = len (occupied mp) + 1).
    { unfold len. rewrite <- (Permutation_length Hperm). cbn [length]. lia. }
    assert (Hlen : len (upd mp i ns) = len mp) by (unfold len; now rewrite upd_length).
    destruct (IH (done0 ++ [s]) (upd mp i ns)) as (mp' & Hr & Hl' & Hq'); auto.
    + intros a b Ha Hb. apply in_app_or in Hb. destruct Hb as [Hb|[<-|[]]].
      * apply Hfresh; auto. now right.
      * rewrite Forall_forall in Hd1. now apply Hd1.
    + exists (q ++ [ns]). split.
      * eapply perm_trans; [apply Permutation_sym, Permutation_cons_append|].
        eapply perm_trans; [|exact Hperm]. now apply perm_skip.
      * apply Forall2_app; auto.
    + rewrite Hocc, Hlen. lia.
    + exists mp'. split; [|split].
      * cbn [length repeat foldP map concat]. unfold wpair at 1. eapply reads_bind; [|exact Hr].
        unfold construct. rewrite Hk0, Hv0. cbn [of_opt bind].
        apply reads_note. cbn [bind]. apply reads_note.
        eapply reads_bind; [exact Hrk|]. eapply reads_eq; [|apply app_nil_r].
        eapply reads_bind; [exact Hrv|]. rewrite Hins. apply reads_leave, reads_leave, reads_ret.
      * congruence.
      * rewrite <- app_assoc in Hq'. exact Hq'.
Qed.

Lemma occupied_distinct : forall mp, kmap_ok E K kt vt f mp -> distinct K (occupied mp).
Proof.
  intros mp Hok. pose proof (ko_distinct _ _ _ _ _ _ Hok) as Hd.
  clear Hok. unfold distinct, occupied. induction mp as [|a mp IH]; cbn [filter]; [constructor|].
  assert (Hmp : ForallOrdPairs (fun s s' => k_eq K (s_key s') (s_key s) = false) (filter s_occ mp)).
  { apply IH. intros i j s s' Hi Hj H1 H2 H3.
    specialize (Hd (S i) (S j) s s' Hi Hj H1 H2 H3). congruence. }
  destruct (s_occ a) eqn:Ha; auto. constructor; auto.
  apply Forall_forall. intros s' Hs'. apply filter_In in Hs'. destruct Hs' as (Hin & Ho).
  destruct (In_nth_error _ _ Hin) as (j & Hj).
  destruct (k_eq K (s_key s') (s_key a)) eqn:He; auto.
  specialize (Hd (S j) 0%nat s' a Hj eq_refl Ho Ha He). discriminate.
Qed.

Lemma r_kmap : forall mp w, kmap_ok E K kt vt f mp -> occupied w = [] ->
  exists x, kmap_copy mp x /\ len x = len (k_rehash K w (len mp)) /\
    reads (ser_kmap E K m rec kt vt w) false (wkmap E kt vt mp) x false.
Proof.
  intros mp w Hok Hw.
  pose proof (occupied_len mp) as Hle. pose proof (ko_cap _ _ _ _ _ _ Hok) as Hcap.
  destruct (wk_rehash K wk w (len mp) Hw) as (Hr0 & Hrn).
  destruct (r_inserts (occupied mp) [] (k_rehash K w (len mp))) as (x & Hr & Hl & q & Hq & Hqc).
  - exact (ko_elems _ _ _ _ _ _ Hok).
  - intros s s' _ [].
  - now apply occupied_distinct.
  - exists []. rewrite Hr0. split; constructor.
  - rewrite Hr0, len_nil. lia.
  - exists x. split; [exists q; auto|]. split; auto.
    unfold ser_kmap, wkmap. cbn [is_unpacking].
    eapply reads_bind; [apply (u_word E Cany N.le rec f U); auto; change (256 ^ N.of_nat 4) with (2 ^ 32); lia|].
    eapply reads_bind; [apply (u_word E Cany N.le rec f U); auto; change (256 ^ N.of_nat 4) with (2 ^ 32); lia|].
    unfold deser_kmap_elems. rewrite len_nat. exact Hr.
Qed.
End Read.

Lemma kmap_round_trip : forall E K f name kt vt mp, wf_env any E -> wf_kokkos K -> (1 < f)%nat ->
  constructible E kt -> constructible E vt -> kmap_ok E K kt vt f mp -> no_leftover K mp ->
  exists b, (stream_kmap E K f name kt vt mp = Ok (b, mp) /\
     (len b < two64 -> serialize_kmap E K f name kt vt mp = Ok (b, mp))) /\
    forall w, occupied w = [] -> exists x, kmap_copy mp x /\ len x = len (k_rehash K w (len mp)) /\
      forall before after,
      deserialize_kmap E K f name kt vt (before ++ b ++ after) (length before) w = Ok (x, len b).
Proof.
  intros E K f name kt vt mp wf wk Hf Hkt Hvt Hok Hno.
  exists (wroot E name (wkmap E kt vt mp)). split.
  - unfold stream_kmap, serialize_kmap, root_kmap.
    refine (both_ways _ _ _ _ mp mp _ _ _ _ eq_refl).
    + apply e_root; [now right|]. eapply e_kmap; eauto.
    + apply e_root; [now left|]. eapply e_kmap; eauto.
  - intros w Hw. destruct (r_kmap E wf K wk f Hf kt vt Hkt Hvt mp w Hok Hw) as (x & Hx & Hl & Hr).
    exists x. split; auto. split; auto. intros before after. apply deserialize_reads.
    unfold root_kmap. now apply r_root.
Qed.
