(** Kokkos::UnorderedMap written and read again and again. *)
From Coq Require Import List NArith Arith Bool Lia Permutation.
From Coq.Strings Require Import Byte.
From Verif Require Import Base Syntax Prog Serializers Traverse Spec ProgFacts EnvFacts ValFacts
  Fails Pack Unpack ApiFacts Stable FootCopy PropLaws Views ViewSpec ViewFacts ViewRound KMap KStable.
Import ListNotations.
Local Open Scope N_scope.

(** ** Specification *)

(** The same keys with the same mapped values, capacities inside them included. *)
Definition slot_same (s s' : slot) : Prop := sim eq (s_key s) (s_key s') /\ sim eq (s_val s) (s_val s').
Definition map_same_as (mp mp' : kmap) : Prop :=
  exists l, Permutation l (occupied mp') /\ Forall2 slot_same (occupied mp) l.

(** No key that is present is the one that Kokkos puts into the slots of a new map. *)
Definition no_default_keys (K : kokkos_map) (mp : kmap) : Prop :=
  forall w n s s', occupied w = [] -> In s (k_rehash K w n) -> In s' (occupied mp) ->
  k_eq K (s_key s) (s_key s') = false.

(** The capacity that Kokkos gives to an empty map of which [n] is required. *)
Definition gives (K : kokkos_map) (g : N -> N) : Prop :=
  forall w n, occupied w = [] -> len (k_rehash K w n) = g n.

(** [map_restarts n mp y]: [y] is [mp], or was read into an empty map from what was written of a map
    that is the result of one restart less. *)
Inductive map_restarts (E : env) (K : kokkos_map) (f : nat) (name kt vt : ty) : nat -> kmap -> kmap -> Prop :=
| MrNone mp : map_restarts E K f name kt vt 0 mp mp
| MrMore n mp b w x q y :
    stream_kmap E K f name kt vt mp = Ok (b, mp) -> occupied w = [] ->
    deserialize_kmap E K f name kt vt b 0 w = Ok (x, q) ->
    map_restarts E K f name kt vt n x y -> map_restarts E K f name kt vt (S n) mp y.

(** ** Pairs of different keys *)
Notation apart_ K := (fun s s' => k_eq K (s_key s) (s_key s') = false /\ k_eq K (s_key s') (s_key s) = false).
Definition differ (K : kokkos_map) (l : list slot) : Prop := ForallOrdPairs (apart_ K) l.

Lemma differ_perm : forall K l l', Permutation l l' -> differ K l -> differ K l'.
Proof.
  intros K l l' H. induction H; intros Hd; auto.
  - inversion Hd as [|? ? D1 D2]; subst. constructor; auto. eapply Permutation_Forall; eauto. now apply IHPermutation.
  - inversion Hd as [|? ? D1 D2]; subst. inversion D2 as [|? ? D3 D4]; subst. inversion D1; subst.
    constructor; [constructor; auto; tauto|]. constructor; auto.
Qed.
Lemma differ_copy : forall K l l', wf_kokkos K -> Forall2 slot_same l l' -> differ K l -> differ K l'.
Proof.
  intros K l l' wk H.
  assert (Hle : forall a b, sim eq a b -> copy_of a b) by (apply sim_mono; intros ? ? ->; apply N.le_refl).
  induction H as [|s s' l l' (Hk & _) H IH]; intros Hd; [constructor|].
  inversion Hd as [|? ? D1 D2]; subst. constructor; [|now apply IH].
  clear - H D1 Hk Hle wk. induction H as [|a a' l l' (Ha & _) H IH]; constructor; inversion D1 as [|? ? (D3 & D4) D5]; subst; auto.
  rewrite (wk_copy K wk _ _ _ _ (Hle _ _ Hk) (Hle _ _ Ha)), (wk_copy K wk _ _ _ _ (Hle _ _ Ha) (Hle _ _ Hk)). auto.
Qed.
Lemma differ_of : forall K mp,
  (forall i j s s', nth_error mp i = Some s -> nth_error mp j = Some s' ->
     s_occ s = true -> s_occ s' = true -> k_eq K (s_key s) (s_key s') = true -> i = j) -> differ K (occupied mp).
Proof.
  intros K mp. unfold differ, occupied. induction mp as [|a mp IH]; intros Hd; cbn [filter]; [constructor|].
  assert (Hmp : ForallOrdPairs (apart_ K) (filter s_occ mp)).
  { apply IH. intros i j s s' Hi Hj H1 H2 H3. specialize (Hd (S i) (S j) s s' Hi Hj H1 H2 H3). congruence. }
  destruct (s_occ a) eqn:Ha; auto. constructor; auto.
  apply Forall_forall. intros s' Hs'. apply filter_In in Hs'. destruct Hs' as (Hin & Ho).
  destruct (In_nth_error _ _ Hin) as (j & Hj). split.
  - destruct (k_eq K (s_key a) (s_key s')) eqn:He; auto. specialize (Hd 0%nat (S j) a s' eq_refl Hj Ha Ho He). discriminate.
  - destruct (k_eq K (s_key s') (s_key a)) eqn:He; auto. specialize (Hd (S j) 0%nat s' a Hj eq_refl Ho Ha He). discriminate.
Qed.
Lemma of_differ : forall K mp, differ K (occupied mp) -> forall i j s s',
  nth_error mp i = Some s -> nth_error mp j = Some s' ->
  s_occ s = true -> s_occ s' = true -> k_eq K (s_key s) (s_key s') = true -> i = j.
Proof.
  intros K mp. unfold differ, occupied. induction mp as [|a mp IH]; intros Hd i j s s' Hi Hj H1 H2 H3; [destruct i; discriminate|].
  assert (Hd' : ForallOrdPairs (apart_ K) (filter s_occ mp)).
  { cbn [filter] in Hd. destruct (s_occ a); auto. now inversion Hd. }
  destruct i as [|i], j as [|j]; cbn [nth_error] in Hi, Hj; auto.
  - injection Hi as <-. cbn [filter] in Hd. rewrite H1 in Hd. inversion Hd as [|? ? D1 D2]; subst.
    rewrite Forall_forall in D1. destruct (D1 s') as (D & _); [apply filter_In; eauto using nth_error_In|]. congruence.
  - injection Hj as <-. cbn [filter] in Hd. rewrite H2 in Hd. inversion Hd as [|? ? D1 D2]; subst.
    rewrite Forall_forall in D1. destruct (D1 s) as (_ & D); [apply filter_In; eauto using nth_error_In|]. congruence.
  - f_equal. eapply IH; eauto.
Qed.

Lemma slot_same_list : forall l l', Forall2 slot_same l l' -> forall s', In s' l' -> exists s, In s l /\ slot_same s s'.
Proof.
  intros l l' H. induction H as [|a b l l' Hab H IH]; intros s' Hs; [contradiction|].
  destruct Hs as [<-|Hs]; [exists a; split; auto; now left|]. destruct (IH s' Hs) as (s & H1 & H2).
  exists s. split; auto. now right.
Qed.
Lemma In_upd : forall A (l : list A) i x y, In y (upd l i x) -> y = x \/ In y l.
Proof.
  induction l as [|a l IH]; intros [|i] x y H; cbn [upd] in H; auto.
  - destruct H as [<-|H]; auto. right. now right.
  - destruct H as [<-|H]; [right; now left|]. destruct (IH i x y H); auto. right. now right.
Qed.

(** ** Reading *)
Section Again.
Variable E : env.
Hypothesis wf0 : wf_env zero_cap E.
Let wf : wf_env any E := zero_any E wf0.
Variable K : kokkos_map.
Hypothesis wk : wf_kokkos K.
Variable f : nat.
Hypothesis Hf : (1 < f)%nat.
Variables name kt vt : ty.
Hypothesis Hkt : constructible E kt.
Hypothesis Hvt : constructible E vt.
Notation m := MUnpacking.
Notation rec := (with_ E m f).
Let U := proj1 (unpack_all any E wf Cany N.le Cany_any Cany_max f).

Lemma copy_eq : forall a b, sim eq a b -> copy_of a b.
Proof. apply sim_mono. intros ? ? ->. apply N.le_refl. Qed.

Lemma again_inserts : forall l done0 mp,
  Forall (fun s => has_ty E kt (s_key s) /\ has_ty E vt (s_val s) /\
                   (depth (s_key s) < f)%nat /\ (depth (s_val s) < f)%nat) l ->
  (forall s s', In s l -> In s' done0 -> k_eq K (s_key s) (s_key s') = false) ->
  distinct K l ->
  (exists q, Permutation q (occupied mp) /\ Forall2 slot_same done0 q) ->
  len (occupied mp) + len l <= len mp ->
  exists mp', reads (foldP (fun mp (_ : unit) =>
      bind (construct E kt) (fun k0 => bind (construct E vt) (fun v0 =>
      bind (ser rec kt k0) (fun k => bind (ser rec vt v0) (fun v =>
      leave E kt k (leave E vt v (Ret (kinsert K mp k v)))))))) (repeat tt (length l)) mp)
      false (concat (map (wpair E kt vt) l)) mp' false /\
    len mp' = len mp /\ (exists q, Permutation q (occupied mp') /\ Forall2 slot_same (done0 ++ l) q) /\
    forall s, In s mp' -> s_occ s = false -> In s mp.
Proof.
  induction l as [|s l IH]; intros done0 mp Hel Hfresh Hdist Hdone Hroom.
  - exists mp. split; [apply reads_ret|]. split; auto. rewrite app_nil_r. auto.
  - inversion Hel as [|? ? (H1 & H2 & H3 & H4) Hel']; subst.
    inversion Hdist as [|? ? Hd1 Hd2]; subst.
    destruct (recon E kt) as [k0|] eqn:Hk0; [|now elim Hkt].
    destruct (recon E vt) as [v0|] eqn:Hv0; [|now elim Hvt].
    destruct (g_ser E zero_cap wf0 Cless eq less_zero less_max f kt (s_key s) k0) as (k & Hk & Hrk); [auto| |].
    { eapply (recon_tgt zero_cap E wf0 Cless less_zero); eauto. }
    destruct (g_ser E zero_cap wf0 Cless eq less_zero less_max f vt (s_val s) v0) as (v & Hv & Hrv); [auto| |].
    { eapply (recon_tgt zero_cap E wf0 Cless less_zero); eauto. }
    destruct Hdone as (q & Hq & Hqc). rewrite len_cons in Hroom.
    assert (Hnf : kfind K mp k = None).
    { unfold kfind. apply find_none_iff. intros s' Hs'. destruct (s_occ s') eqn:Ho'; auto. cbn [andb].
      assert (Hin : In s' q).
      { eapply Permutation_in; [apply Permutation_sym; exact Hq|]. apply filter_In. auto. }
      destruct (slot_same_list _ _ Hqc s' Hin) as (s0 & Hs0 & Hc0 & _).
      rewrite (wk_copy K wk _ _ _ _ (copy_eq _ _ Hk) (copy_eq _ _ Hc0)). apply Hfresh; auto. now left. }
    destruct (wk_place K wk mp k) as (i & s1 & Hpl & Hn1 & Ho1); [lia|].
    set (ns := {| s_key := k; s_val := v; s_occ := true |}).
    assert (Hins : kinsert K mp k v = upd mp i ns) by (unfold kinsert; now rewrite Hnf, Hpl).
    pose proof (occupied_upd mp i s1 ns Hn1 Ho1 eq_refl) as Hperm.
    assert (Hocc : len (occupied (upd mp i ns)) = len (occupied mp) + 1).
    { unfold len. rewrite <- (Permutation_length Hperm). cbn [length]. lia. }
    assert (Hlen : len (upd mp i ns) = len mp) by (unfold len; now rewrite upd_length).
    destruct (IH (done0 ++ [s]) (upd mp i ns)) as (mp' & Hr & Hl' & Hq' & Hfree); auto.
    + intros a b Ha Hb. apply in_app_or in Hb. destruct Hb as [Hb|[<-|[]]].
      * apply Hfresh; auto. now right.
      * rewrite Forall_forall in Hd1. now apply Hd1.
    + exists (q ++ [ns]). split.
      * eapply perm_trans; [apply Permutation_sym, Permutation_cons_append|].
        eapply perm_trans; [|exact Hperm]. now apply perm_skip.
      * apply Forall2_app; auto. constructor; [split; auto|constructor].
    + rewrite Hocc, Hlen. lia.
    + exists mp'. split; [|split; [|split]].
      * cbn [length repeat foldP map concat]. unfold wpair at 1. eapply reads_bind; [|exact Hr].
        unfold construct. rewrite Hk0, Hv0. cbn [of_opt bind].
        apply reads_note. cbn [bind]. apply reads_note.
        eapply reads_bind; [exact Hrk|]. eapply reads_eq; [|apply app_nil_r].
        eapply reads_bind; [exact Hrv|]. rewrite Hins. apply reads_leave, reads_leave, reads_ret.
      * congruence.
      * rewrite <- app_assoc in Hq'. exact Hq'.
      * intros a Ha Ho. destruct (In_upd _ _ _ _ _ (Hfree a Ha Ho)) as [->|]; auto. discriminate.
Qed.

Definition plain_slots (mp : kmap) : Prop :=
  Forall (fun s => no_bags (s_key s) /\ no_bags (s_val s)) (occupied mp).

(** What holds of a map after every restart. *)
Definition lasting (mp : kmap) : Prop :=
  kmap_ok E K kt vt f mp /\ no_leftover K mp /\ no_default_keys K mp /\ plain_slots mp.

Lemma again_map : forall mp w, lasting mp -> occupied w = [] -> len (k_rehash K w (len mp)) < 2 ^ 32 ->
  exists x, lasting x /\ map_same_as mp x /\ len x = len (k_rehash K w (len mp)) /\
    reads (ser_kmap E K m rec kt vt w) false (wkmap E kt vt mp) x false.
Proof.
  intros mp w (Hok & Hno & Hdk & Hpl) Hw Hcapx.
  pose proof (occupied_len mp) as Hle. pose proof (ko_cap _ _ _ _ _ _ Hok) as Hcap.
  destruct (wk_rehash K wk w (len mp) Hw) as (Hr0 & Hrn).
  destruct (again_inserts (occupied mp) [] (k_rehash K w (len mp))) as (x & Hr & Hl & (q & Hq & Hqc) & Hfree).
  - exact (ko_elems _ _ _ _ _ _ Hok).
  - intros s s' _ [].
  - eapply occupied_distinct; eauto.
  - exists []. rewrite Hr0. split; constructor.
  - rewrite Hr0, len_nil. lia.
  - cbn [app] in Hqc. exists x.
    assert (Hback : forall s', In s' (occupied x) -> exists s, In s (occupied mp) /\ slot_same s s').
    { intros s' Hs'. eapply slot_same_list; [exact Hqc|]. eapply Permutation_in; [|exact Hs'].
      now apply Permutation_sym. }
    split; [|split; [exists q; auto|split; [exact Hl|]]].
    + assert (Hndk : no_default_keys K x).
      { intros w' n s s' Hw' Hs Hs'. destruct (Hback s' Hs') as (s0 & H1 & H2 & _).
        rewrite (wk_copy K wk (s_key s) (s_key s) (s_key s0) (s_key s')).
        - eapply Hdk; eauto.
        - apply sim_refl. apply N.le_refl.
        - now apply copy_eq. }
      split; [|split; [|split; [exact Hndk|]]].
      * constructor.
        -- now rewrite Hl.
        -- intros s' Hs'. destruct (Hback s' Hs') as (s0 & H1 & H2 & _). pose proof (copy_eq _ _ H2) as Hc.
           rewrite (wk_copy K wk _ _ _ _ Hc Hc). eapply ko_refl; eauto.
        -- apply of_differ. eapply differ_perm; [exact Hq|]. eapply differ_copy; [exact wk|exact Hqc|].
           apply differ_of. exact (ko_distinct _ _ _ _ _ _ Hok).
        -- apply Forall_forall. intros s' Hs'. destruct (Hback s' Hs') as (s0 & H1 & H2 & H3).
           pose proof (ko_elems _ _ _ _ _ _ Hok) as Hel. rewrite Forall_forall in Hel.
           destruct (Hel s0 H1) as (A1 & A2 & A3 & A4).
           unfold plain_slots in Hpl. rewrite Forall_forall in Hpl. destruct (Hpl s0 H1) as (B1 & B2).
           rewrite <- (depth_copy eq _ _ H2), <- (depth_copy eq _ _ H3).
           split; [|split; [|split; auto]]; eapply has_ty_sim; eauto.
      * intros s s' Hs Hs' Ho Ho'. eapply Hndk; [exact Hw|exact (Hfree s Hs Ho)|]. apply filter_In. auto.
      * apply Forall_forall. intros s' Hs'. destruct (Hback s' Hs') as (s0 & H1 & H2 & H3).
        unfold plain_slots in Hpl. rewrite Forall_forall in Hpl. destruct (Hpl s0 H1) as (B1 & B2).
        split; eapply no_bags_sim; eauto.
    + unfold ser_kmap, wkmap. cbn [is_unpacking].
      eapply reads_bind; [apply (u_word E Cany N.le rec f U); try lia; change (256 ^ N.of_nat 4) with (2 ^ 32); lia|].
      eapply reads_bind; [apply (u_word E Cany N.le rec f U); try lia; change (256 ^ N.of_nat 4) with (2 ^ 32); lia|].
      unfold deser_kmap_elems. rewrite len_nat. exact Hr.
Qed.

Lemma again_root : forall mp, lasting mp ->
  exists b, stream_kmap E K f name kt vt mp = Ok (b, mp) /\
    forall w, occupied w = [] -> len (k_rehash K w (len mp)) < 2 ^ 32 ->
    exists x, lasting x /\ map_same_as mp x /\ len x = len (k_rehash K w (len mp)) /\
      deserialize_kmap E K f name kt vt b 0 w = Ok (x, len b).
Proof.
  intros mp Hm. destruct Hm as (Hok & Hno & Hm).
  exists (wroot E name (wkmap E kt vt mp)). split.
  - unfold stream_kmap, root_kmap. refine (proj1 (both_ways _ 0 _ _ mp mp _ _ _ _ eq_refl)).
    + apply e_root; [now right|]. eapply e_kmap; eauto.
    + apply e_root; [now left|]. eapply e_kmap; eauto.
  - intros w Hw Hc. destruct (again_map mp w (conj Hok (conj Hno Hm)) Hw Hc) as (x & Hx & Hs & Hl & Hr).
    exists x. split; auto. split; auto. split; auto.
    assert (H : forall before after, deserialize_kmap E K f name kt vt
      (before ++ wroot E name (wkmap E kt vt mp) ++ after) (length before) w = Ok (x, len (wroot E name (wkmap E kt vt mp)))).
    { intros before after. apply deserialize_reads. unfold root_kmap. now apply r_root. }
    specialize (H [] []).
    cbn [app length] in H. rewrite app_nil_r in H. exact H.
Qed.

Lemma same_as_refl : forall mp, map_same_as mp mp.
Proof.
  intros mp. exists (occupied mp). split; auto. induction (occupied mp); constructor; auto.
  split; apply sim_refl; auto.
Qed.
Lemma same_as_trans : forall a b c, map_same_as a b -> map_same_as b c -> map_same_as a c.
Proof.
  intros a b c (l & Hl & Hab) (r & Hr & Hbc).
  destruct (Forall2_perm_l _ _ _ _ _ (Permutation_sym Hl) _ Hbc) as (r' & Hr' & HP).
  exists r'. split; [eapply perm_trans; [apply Permutation_sym; exact HP|exact Hr]|].
  clear - Hab Hr'. revert r' Hr'. induction Hab as [|x y l l' (H1 & H2) H IH]; intros r' Hr'; inversion Hr' as [|? z ? r2 (G1 & G2) G3]; subst; constructor; auto.
  split; eapply sim_trans; eauto; congruence.
Qed.
End Again.
