(** C42: reading a map into one that already holds keys. *)
From Coq Require Import List NArith Arith Bool Lia Permutation.
From Coq.Strings Require Import Byte.
From Verif Require Import Base Syntax Prog Serializers Traverse Spec ProgFacts EnvFacts ValFacts
  Fails RegistryFacts Pack Unpack Api ApiFacts Examples Views ViewSpec ViewFacts ViewRound KMap PropViews.
Import ListNotations.
Local Open Scope N_scope.

(** The elements of [q] whose keys are not among those of [old]. *)
Definition news (K : kokkos_map) (old q : list slot) : list slot :=
  filter (fun s => negb (existsb (fun s' => k_eq K (s_key s) (s_key s')) old)) q.

Section Onto.
Variable E : env.
Hypothesis wf : wf_env any E.
Variable K : kokkos_map.
Hypothesis wk : wf_kokkos K.
Variable f : nat.
Hypothesis Hf : (1 < f)%nat.
Variables kt vt : ty.
Hypothesis Hkt : constructible E kt.
Hypothesis Hvt : constructible E vt.
Notation m := MUnpacking.
Notation rec := (with_ E m f).
Let U := proj1 (unpack_all any E wf Cany N.le Cany_any Cany_max f).
Let Hf1 : (1 <= f)%nat. Proof. lia. Qed.
Notation cp := (fun s s' => copy_of (s_key s) (s_key s') /\ copy_of (s_val s) (s_val s')).

Lemma onto_inserts : forall ow l done0 mp,
  Forall (fun s => has_ty E kt (s_key s) /\ has_ty E vt (s_val s) /\
                   (depth (s_key s) < f)%nat /\ (depth (s_val s) < f)%nat) l ->
  (forall s s', In s l -> In s' done0 -> k_eq K (s_key s) (s_key s') = false) ->
  distinct K l ->
  (exists q, Permutation (ow ++ news K ow q) (occupied mp) /\ Forall2 cp done0 q) ->
  len (occupied mp) + len l <= len mp ->
  exists mp', reads (foldP (fun mp (_ : unit) =>
      bind (construct E kt) (fun k0 => bind (construct E vt) (fun v0 =>
      bind (ser rec kt k0) (fun k => bind (ser rec vt v0) (fun v =>
      leave E kt k (leave E vt v (Ret (kinsert K mp k v)))))))) (repeat tt (length l)) mp)
      false (concat (map (wpair E kt vt) l)) mp' false /\
    len mp' = len mp /\
    exists q, Permutation (ow ++ news K ow q) (occupied mp') /\ Forall2 cp (done0 ++ l) q.
Proof.
  intros ow. induction l as [|s l IH]; intros done0 mp Hel Hfresh Hdist Hdone Hroom.
  - exists mp. split; [apply reads_ret|]. split; auto. now rewrite app_nil_r.
  - inversion Hel as [|? ? (H1 & H2 & H3 & H4) Hel']; subst.
    inversion Hdist as [|? ? Hd1 Hd2]; subst.
    destruct (recon E kt) as [k0|] eqn:Hk0; [|now elim Hkt].
    destruct (recon E vt) as [v0|] eqn:Hv0; [|now elim Hvt].
    destruct (r_ser E wf f kt (s_key s) k0) as (k & Hk & Hrk); [auto| |].
    { eapply (recon_tgt any E wf Cany Cany_any); eauto. }
    destruct (r_ser E wf f vt (s_val s) v0) as (v & Hv & Hrv); [auto| |].
    { eapply (recon_tgt any E wf Cany Cany_any); eauto. }
    destruct Hdone as (q & Hq & Hqc). rewrite len_cons in Hroom.
    set (ns := {| s_key := k; s_val := v; s_occ := true |}).
    assert (Hfresh' : forall s0 s', In s0 l -> In s' (done0 ++ [s]) -> k_eq K (s_key s0) (s_key s') = false).
    { intros a b Ha Hb. apply in_app_or in Hb. destruct Hb as [Hb|[<-|[]]].
      - apply Hfresh; auto. now right.
      - rewrite Forall_forall in Hd1. now apply Hd1. }
    assert (Hread : forall mp1 mp', kinsert K mp k v = mp1 ->
      reads (foldP (fun mp (_ : unit) =>
        bind (construct E kt) (fun k0 => bind (construct E vt) (fun v0 =>
        bind (ser rec kt k0) (fun k => bind (ser rec vt v0) (fun v =>
        leave E kt k (leave E vt v (Ret (kinsert K mp k v)))))))) (repeat tt (length l)) mp1)
        false (concat (map (wpair E kt vt) l)) mp' false ->
      reads (foldP (fun mp (_ : unit) =>
        bind (construct E kt) (fun k0 => bind (construct E vt) (fun v0 =>
        bind (ser rec kt k0) (fun k => bind (ser rec vt v0) (fun v =>
        leave E kt k (leave E vt v (Ret (kinsert K mp k v)))))))) (repeat tt (length (s :: l))) mp)
        false (concat (map (wpair E kt vt) (s :: l))) mp' false).
    { intros mp1 mp' Hi Hr. cbn [length repeat foldP map concat]. unfold wpair at 1.
      eapply reads_bind; [|exact Hr].
      unfold construct. rewrite Hk0, Hv0. cbn [of_opt bind].
      apply reads_note. cbn [bind]. apply reads_note.
      eapply reads_bind; [exact Hrk|]. eapply reads_eq; [|apply app_nil_r].
      eapply reads_bind; [exact Hrv|]. rewrite Hi. apply reads_leave, reads_leave, reads_ret. }
    destruct (existsb (fun s' => k_eq K k (s_key s')) ow) eqn:Hex.
    + assert (Hins : kinsert K mp k v = mp).
      { unfold kinsert. destruct (kfind K mp k) eqn:Hk'; auto. exfalso.
        apply existsb_exists in Hex. destruct Hex as (s' & Hs' & He).
        assert (Hin : In s' (occupied mp)).
        { eapply Permutation_in; [exact Hq|]. apply in_or_app. now left. }
        apply filter_In in Hin. destruct Hin as (Hin & Ho).
        unfold kfind in Hk'. rewrite find_none_iff in Hk'. specialize (Hk' s' Hin).
        rewrite Ho, He in Hk'. discriminate. }
      destruct (IH (done0 ++ [s]) mp) as (mp' & Hr & Hl' & Hq'); auto; [|lia|].
      { exists (q ++ [ns]). split; [|apply Forall2_app; auto].
        unfold news. rewrite filter_app. cbn [filter s_key ns]. rewrite Hex. cbn [negb].
        now rewrite app_nil_r. }
      exists mp'. split; [eapply Hread; eauto|]. split; auto. now rewrite <- app_assoc in Hq'.
    + assert (Hnf : kfind K mp k = None).
      { unfold kfind. apply find_none_iff. intros s' Hs'. destruct (s_occ s') eqn:Ho'; auto. cbn [andb].
        assert (Hin : In s' (ow ++ news K ow q)).
        { eapply Permutation_in; [apply Permutation_sym; exact Hq|]. apply filter_In. auto. }
        apply in_app_or in Hin. destruct Hin as [Hin|Hin].
        - destruct (k_eq K k (s_key s')) eqn:He; auto.
          assert (existsb (fun s' => k_eq K k (s_key s')) ow = true); [|congruence].
          apply existsb_exists. eauto.
        - apply filter_In in Hin. destruct Hin as (Hin & _).
          assert (exists s0, In s0 done0 /\ cp s0 s') as (s0 & Hs0 & Hc0 & _).
          { clear -Hqc Hin. induction Hqc; [contradiction|]. destruct Hin as [<-|Hin].
            - eexists. split; [now left|]. auto.
            - destruct (IHHqc Hin) as (s0 & Hs0 & Hc). exists s0. split; auto. now right. }
          rewrite (wk_copy K wk _ _ _ _ Hk Hc0). apply Hfresh; auto. now left. }
      destruct (wk_place K wk mp k) as (i & s1 & Hpl & Hn1 & Ho1); [lia|].
      assert (Hins : kinsert K mp k v = upd mp i ns) by (unfold kinsert; now rewrite Hnf, Hpl).
      pose proof (occupied_upd mp i s1 ns Hn1 Ho1 eq_refl) as Hperm.
      assert (Hocc : len (occupied (upd mp i ns)) = len (occupied mp) + 1).
      { unfold len. rewrite <- (Permutation_length Hperm). cbn [length]. lia. }
      assert (Hlen : len (upd mp i ns) = len mp) by (unfold len; now rewrite upd_length).
      destruct (IH (done0 ++ [s]) (upd mp i ns)) as (mp' & Hr & Hl' & Hq'); auto.
      * exists (q ++ [ns]). split; [|apply Forall2_app; auto].
        unfold news. rewrite filter_app. cbn [filter s_key ns]. rewrite Hex. cbn [negb].
        rewrite app_assoc.
        eapply perm_trans; [apply Permutation_sym, Permutation_cons_append|].
        eapply perm_trans; [|exact Hperm]. now apply perm_skip.
      * rewrite Hocc, Hlen. lia.
      * exists mp'. split; [eapply Hread; eauto|]. split; [congruence|]. now rewrite <- app_assoc in Hq'.
Qed.

Lemma onto_kmap : forall mp w, kmap_ok E K kt vt f mp ->
  Permutation (occupied w) (occupied (k_rehash K w (len mp))) ->
  len (occupied w) + len (occupied mp) <= len (k_rehash K w (len mp)) ->
  exists x q, reads (ser_kmap E K m rec kt vt w) false (wkmap E kt vt mp) x false /\
    len x = len (k_rehash K w (len mp)) /\
    Forall2 cp (occupied mp) q /\ Permutation (occupied w ++ news K (occupied w) q) (occupied x).
Proof.
  intros mp w Hok Hkeep Hroom.
  pose proof (occupied_len mp). pose proof (ko_cap _ _ _ _ _ _ Hok).
  destruct (onto_inserts (occupied w) (occupied mp) [] (k_rehash K w (len mp))) as (x & Hr & Hl & q & Hq & Hc).
  - exact (ko_elems _ _ _ _ _ _ Hok).
  - contradiction.
  - exact (occupied_distinct E K f kt vt mp Hok).
  - exists []. split; [|constructor]. cbn [news filter]. now rewrite app_nil_r.
  - replace (len (occupied (k_rehash K w (len mp)))) with (len (occupied w)); auto.
    unfold len. now rewrite (Permutation_length Hkeep).
  - exists x, q. split; [|auto]. unfold ser_kmap, wkmap. cbn [is_unpacking].
    eapply reads_bind; [apply (u_word E Cany N.le rec f U); auto; change (256 ^ N.of_nat 4) with (2 ^ 32); lia|].
    eapply reads_bind; [apply (u_word E Cany N.le rec f U); auto; change (256 ^ N.of_nat 4) with (2 ^ 32); lia|].
    unfold deser_kmap_elems. unfold len at 1. rewrite Nat2N.id. exact Hr.
Qed.
End Onto.

(** Reading into a map that holds keys: those stay with their values; of the elements read,
    the others are added.  The two last hypotheses say that rehashing keeps the elements and
    that there is room for all. *)
Theorem C42_in_place : forall E K f name kt vt mp w, wf_env any E -> wf_kokkos K -> (1 < f)%nat ->
  constructible E kt -> constructible E vt -> kmap_ok E K kt vt f mp -> no_leftover K mp ->
  Permutation (occupied w) (occupied (k_rehash K w (len mp))) ->
  len (occupied w) + len (occupied mp) <= len (k_rehash K w (len mp)) ->
  exists b x q, stream_kmap E K f name kt vt mp = Ok (b, mp) /\
    Forall2 (fun s s' => copy_of (s_key s) (s_key s') /\ copy_of (s_val s) (s_val s')) (occupied mp) q /\
    Permutation (occupied w ++ news K (occupied w) q) (occupied x) /\
    forall before after,
      deserialize_kmap E K f name kt vt (before ++ b ++ after) (length before) w = Ok (x, len b).
Proof.
  intros E K f name kt vt mp w wf wk Hf Hkt Hvt Hok Hno Hkeep Hroom.
  destruct (onto_kmap E wf K wk f Hf kt vt Hkt Hvt mp w Hok Hkeep Hroom) as (x & q & Hr & _ & Hc & Hp).
  exists (wroot E name (wkmap E kt vt mp)), x, q. split; [|split; [auto|split; [auto|]]].
  - unfold stream_kmap, root_kmap.
    refine (proj1 (both_ways _ 0 _ _ mp mp _ _ _ _ eq_refl)).
    + apply e_root; [now right|]. eapply e_kmap; eauto.
    + apply e_root; [now left|]. eapply e_kmap; eauto.
  - intros before after. apply deserialize_reads. unfold root_kmap. now apply r_root.
Qed.
Print Assumptions C42_in_place.

(** The keys 3 and 5 are read into a map that holds 3 with another value, and 9. *)
Definition held : kmap := [slot_ 9 90; slot_ 3 99].
Example C42_in_place_case : forall b,
  Permutation (occupied held) (occupied (k_rehash ex_map held (len ex_kmap))) /\
  len (occupied held) + len (occupied ex_kmap) <= len (k_rehash ex_map held (len ex_kmap)) /\
  exists out x n, stream_kmap (ex b) ex_map 3 (TPrim 92 40) INT INT ex_kmap = Ok (out, ex_kmap) /\
    deserialize_kmap (ex b) ex_map 3 (TPrim 92 40) INT INT out 0 held = Ok (x, n) /\
    occupied x = [slot_ 9 90; slot_ 3 99; slot_ 5 50].
Proof.
  intros b. split; [apply Permutation_refl|]. split; [vm_compute; discriminate|].
  destruct b; do 3 eexists; (split; [vm_compute; reflexivity|]); (split; [vm_compute; reflexivity|]);
    reflexivity.
Qed.

(** So the map read is no copy of the one written, and without room elements are dropped in
    silence. *)
Definition filled : kmap := [slot_ 6 1; slot_ 7 2; slot_ 8 3; slot_ 9 4].
Theorem C42_in_place_refuted : exists E K f name kt vt mp w b n,
  wf_env any E /\ wf_kokkos K /\ (1 < f)%nat /\ constructible E kt /\ constructible E vt /\
  kmap_ok E K kt vt f mp /\ no_leftover K mp /\ kmap_ok E K kt vt f w /\
  serialize_kmap E K f name kt vt mp = Ok (b, mp) /\ occupied mp <> [] /\
  deserialize_kmap E K f name kt vt b 0 w = Ok (w, n) /\
  forall s s', In s mp -> In s' w -> s_occ s = true -> k_eq K (s_key s) (s_key s') = false.
Proof.
  exists (ex true), ex_map, 3%nat, (TPrim 92 40), INT, INT, ex_kmap, filled. do 2 eexists.
  split; [now apply ex_wf|]. split; [apply ex_map_wf|]. split; [lia|].
  split; [apply int_constructible|]. split; [apply int_constructible|].
  split; [apply ex_kmap_ok|]. split; [apply (ex_kmap_ok true)|]. split; [|split; [|split; [|split]]].
  - constructor.
    + reflexivity.
    + intros s H. repeat (destruct H as [<-|H]; [reflexivity|]). contradiction.
    + apart.
    + change (occupied filled) with filled. unfold filled, slot_. slots.
  - vm_compute. reflexivity.
  - discriminate.
  - vm_compute. reflexivity.
  - intros s s' H H'. repeat (destruct H as [<-|H]; [|]); try contradiction;
      repeat (destruct H' as [<-|H']; [|]); try contradiction; cbn; intros; auto; discriminate.
Qed.
Print Assumptions C42_in_place_refuted.
