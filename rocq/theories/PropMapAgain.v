(** C77: Kokkos maps restarted again and again. *)
From Coq Require Import List NArith Arith Bool Lia Permutation.
From Coq.Strings Require Import Byte.
From Verif Require Import Base Syntax Prog Serializers Traverse Spec ProgFacts ValFacts ApiFacts Stable PropLaws
  Examples Views ViewSpec KMap PropViews MapAgain.
Import ListNotations.
Local Open Scope N_scope.

Lemma iter_succ_r : forall (g : N -> N) n c, Nat.iter (S n) g c = Nat.iter n g (g c).
Proof. intros g n c. induction n; auto. change (g (Nat.iter (S n) g c) = g (Nat.iter n g (g c))). now rewrite IHn. Qed.

(** Any number of restarts keeps the keys and values, and the capacity is what Kokkos makes of it: as
    often as there are restarts, and never less.
    Missing: the capacity stays the same; keys that are equal to those in the slots of a new map
    ([C77_refuted]). *)
Theorem C77_restarts_partial : forall E K f name kt vt g, wf_env zero_cap E -> wf_kokkos K -> gives K g ->
  (1 < f)%nat -> constructible E kt -> constructible E vt -> forall n mp, lasting E K f kt vt mp ->
  (forall i, (i <= n)%nat -> Nat.iter i g (len mp) < 2 ^ 32) ->
  (exists y, map_restarts E K f name kt vt n mp y) /\
  forall y, map_restarts E K f name kt vt n mp y ->
    map_same_as mp y /\ len y = Nat.iter n g (len mp) /\ len mp <= len y /\ lasting E K f kt vt y.
Proof.
  intros E K f name kt vt g wf wk Hg Hf Hk Hv. induction n as [|n IH]; intros mp Hm Hb.
  - split; [exists mp; constructor|]. intros y Hy. inversion Hy; subst.
    split; [apply same_as_refl|]. split; [reflexivity|]. split; [apply N.le_refl|exact Hm].
  - destruct (again_root E wf K wk f Hf name kt vt Hk Hv mp Hm) as (b & Hw & Hr).
    assert (Hc : forall w, occupied w = [] -> len (k_rehash K w (len mp)) < 2 ^ 32).
    { intros w H. rewrite (Hg w (len mp) H). apply (Hb 1%nat). lia. }
    assert (Hnext : forall w x q, occupied w = [] -> deserialize_kmap E K f name kt vt b 0 w = Ok (x, q) ->
      lasting E K f kt vt x /\ map_same_as mp x /\ len x = g (len mp) /\
      forall i, (i <= n)%nat -> Nat.iter i g (len x) < 2 ^ 32).
    { intros w x q H Hx. destruct (Hr w H (Hc w H)) as (x' & H1 & H2 & H3 & H4). rewrite H4 in Hx.
      injection Hx as <- <-. rewrite (Hg w (len mp) H) in H3. do 2 (split; auto). split; auto.
      intros i Hi. rewrite H3. rewrite <- iter_succ_r. apply Hb. lia. }
    split.
    + destruct (Hr [] eq_refl (Hc [] eq_refl)) as (x & _ & _ & _ & H4).
      destruct (Hnext [] x (len b) eq_refl H4) as (H1 & _ & _ & H5).
      destruct (IH x H1 H5) as ((y & Hy) & _). exists y. econstructor; eauto. reflexivity.
    + intros y Hy. inversion Hy as [|? ? b' w x q ? S1 S2 S3 S4]; subst.
      rewrite Hw in S1. injection S1 as <-. destruct (Hnext w x q S2 S3) as (H1 & H2 & H3 & H5).
      destruct (IH x H1 H5) as (_ & Hy'). destruct (Hy' y S4) as (Y1 & Y2 & Y3 & Y4).
      split; [eapply same_as_trans; eauto|]. split; [rewrite Y2, H3; symmetry; apply iter_succ_r|].
      split; [|exact Y4]. destruct (wk_rehash K wk w (len mp) S2) as (_ & Hle).
      rewrite (Hg w (len mp) S2) in Hle. lia.
Qed.
Print Assumptions C77_restarts_partial.

(** How Kokkos is believed to choose the capacity of a map of which [c] is required
    (Kokkos_UnorderedMap.hpp, calculate_capacity): a sixth more, rounded up to a multiple of 128.
    Kokkos is not part of /repo, so that this has been written from memory and not been compared
    with its source.  Only [C77_growth] and the examples use it. *)
Definition kokkos_rule (c : N) : N := if c =? 0 then 128 else (7 * c / 6 + 127) / 128 * 128.

Lemma rule_le : forall c, c <= kokkos_rule c.
Proof.
  intros c. unfold kokkos_rule. destruct (N.eqb_spec c 0); [lia|].
  assert (H1 : c <= 7 * c / 6) by (apply N.div_le_lower_bound; lia).
  pose proof (N.div_mod (7 * c / 6 + 127) 128 ltac:(lia)) as H2.
  pose proof (N.mod_lt (7 * c / 6 + 127) 128 ltac:(lia)) as H3. lia.
Qed.
Lemma rule_more : forall c k, 0 < c -> c = 128 * k -> c + 128 <= kokkos_rule c /\ exists k', kokkos_rule c = 128 * k'.
Proof.
  intros c k Hc Hk. unfold kokkos_rule. destruct (N.eqb_spec c 0); [lia|].
  assert (H1 : c + 1 <= 7 * c / 6) by (apply N.div_le_lower_bound; lia).
  split; [|eexists; apply N.mul_comm].
  assert (H2 : k + 1 <= (7 * c / 6 + 127) / 128) by (apply N.div_le_lower_bound; lia). lia.
Qed.

(** So a map grows by at least 128 slots whenever it is written and read. *)
Theorem C77_growth : forall E K f name kt vt, wf_env zero_cap E -> wf_kokkos K -> gives K kokkos_rule ->
  (1 < f)%nat -> constructible E kt -> constructible E vt -> forall n mp k y, lasting E K f kt vt mp ->
  0 < len mp -> len mp = 128 * k ->
  (forall i, (i <= n)%nat -> Nat.iter i kokkos_rule (len mp) < 2 ^ 32) ->
  map_restarts E K f name kt vt n mp y -> len mp + 128 * N.of_nat n <= len y.
Proof.
  intros E K f name kt vt wf wk Hg Hf Hk Hv n mp k y Hm H0 H128 Hb Hy.
  destruct (C77_restarts_partial E K f name kt vt _ wf wk Hg Hf Hk Hv n mp Hm Hb) as (_ & H).
  destruct (H y Hy) as (_ & -> & _). clear - H0 H128. revert H0 H128. generalize (len mp) as c. intros c H0 H128.
  assert (G : c + 128 * N.of_nat n <= Nat.iter n kokkos_rule c /\ exists k', Nat.iter n kokkos_rule c = 128 * k').
  { induction n as [|n (IH1 & k' & IH2)]; [cbn; split; [lia|eauto]|].
    change (Nat.iter (S n) kokkos_rule c) with (kokkos_rule (Nat.iter n kokkos_rule c)). destruct (rule_more (Nat.iter n kokkos_rule c) k') as (R1 & R2); [lia|exact IH2|].
    split; [lia|exact R2]. }
  apply G.
Qed.
Print Assumptions C77_growth.

(** Maps that follow the rule. *)
Definition ruled_map : kokkos_map := {|
  k_eq := i_eq;
  k_rehash := fun mp n => occupied mp ++ repeat empty_slot (N.to_nat (kokkos_rule n - len (occupied mp)));
  k_place := fun mp _ => first_free mp
|}.
Lemma ruled_wf : wf_kokkos ruled_map.
Proof.
  constructor.
  - exact (wk_copy ex_map ex_map_wf).
  - intros mp n H. cbn [k_rehash ruled_map]. rewrite H, N.sub_0_r. cbn [app]. split.
    + unfold occupied. induction (N.to_nat (kokkos_rule n)); auto.
    + unfold len. rewrite repeat_length. pose proof (rule_le n). lia.
  - exact (wk_place ex_map ex_map_wf).
Qed.
Lemma ruled_gives : gives ruled_map kokkos_rule.
Proof.
  intros w n H. cbn [k_rehash ruled_map]. rewrite H, N.sub_0_r. unfold len. cbn [app].
  rewrite repeat_length. apply N2Nat.id.
Qed.
Lemma ruled_new : forall w n s, occupied w = [] -> In s (k_rehash ruled_map w n) -> s = empty_slot.
Proof. intros w n s H Hs. cbn [k_rehash ruled_map] in Hs. rewrite H in Hs. eapply repeat_spec. exact Hs. Qed.

Definition ex_128 : kmap := slot_ 3 30 :: slot_ 5 50 :: repeat empty_slot 126.
Lemma ex_128_occ : occupied ex_128 = [slot_ 3 30; slot_ 5 50].
Proof. vm_compute. reflexivity. Qed.
Lemma ex_128_lasting : forall b, lasting (ex b) ruled_map 3 INT INT ex_128.
Proof.
  intros b. unfold lasting, no_default_keys, plain_slots. rewrite ex_128_occ. split; [constructor|split; [|split]].
  - vm_compute. reflexivity.
  - rewrite ex_128_occ. intros s H. repeat (destruct H as [<-|H]; [reflexivity|]). contradiction.
  - apply of_differ. rewrite ex_128_occ. repeat constructor.
  - rewrite ex_128_occ. unfold slot_. slots.
  - intros s s' Hs Hs' Ho Ho'.
    assert (Hi : In s' (occupied ex_128)) by (apply filter_In; auto). rewrite ex_128_occ in Hi.
    assert (He : s = empty_slot).
    { destruct Hs as [<-|[<-|Hs]]; try discriminate. eapply repeat_spec. exact Hs. }
    subst s. repeat (destruct Hi as [<-|Hi]; [reflexivity|]). contradiction.
  - intros w n s s' Hw Hs Hs'. rewrite (ruled_new w n s Hw Hs).
    repeat (destruct Hs' as [<-|Hs']; [reflexivity|]). contradiction.
  - repeat constructor.
Qed.

Lemma ex_128_bound : forall i, (i <= 3)%nat -> Nat.iter i kokkos_rule (len ex_128) < 2 ^ 32.
Proof. intros i Hi. do 4 (destruct i as [|i]; [vm_compute; reflexivity|]). lia. Qed.
Example C77_case : forall b, exists y,
  map_restarts (ex b) ruled_map 3 (TPrim 92 40) INT INT 3 ex_128 y /\
  map_same_as ex_128 y /\ len y = 512.
Proof.
  intros b. destruct (C77_restarts_partial (ex b) ruled_map 3 (TPrim 92 40) INT INT kokkos_rule) with (n := 3%nat) (mp := ex_128)
    as ((y & Hy) & H); auto using ruled_wf, ruled_gives, int_constructible, ex_128_lasting, ex_128_bound.
  { apply ex_wf. reflexivity. }
  exists y. split; auto. destruct (H y Hy) as (H1 & H2 & _). split; auto.
Qed.
Example C77_growth_case : forall b y,
  map_restarts (ex b) ruled_map 3 (TPrim 92 40) INT INT 3 ex_128 y -> 512 <= len y.
Proof.
  intros b y Hy. apply (C77_growth (ex b) ruled_map 3 (TPrim 92 40) INT INT) with (n := 3%nat) (mp := ex_128) (k := 1) (y := y);
    auto using ruled_wf, ruled_gives, int_constructible, ex_128_lasting, ex_128_bound.
  { apply ex_wf. reflexivity. }
  vm_compute. reflexivity.
Qed.

(** A map of 128 keys without a free slot, one of which is the key of free slots. *)
Definition full_128 : kmap := map (fun i => slot_ (N.of_nat i) 7) (seq 0 128).
Fixpoint all_apart (l : list slot) : bool :=
  match l with
  | [] => true
  | s :: r => forallb (fun s' => negb (i_eq (s_key s) (s_key s')) && negb (i_eq (s_key s') (s_key s))) r && all_apart r
  end.
Lemma all_apart_ok : forall l, all_apart l = true -> differ ruled_map l.
Proof.
  induction l as [|s r IH]; intros H; [constructor|]. cbn [all_apart] in H. apply andb_true_iff in H.
  destruct H as (H1 & H2). constructor; [|now apply IH]. rewrite forallb_forall in H1. apply Forall_forall.
  intros s' Hs'. specialize (H1 s' Hs'). apply andb_true_iff in H1. rewrite !negb_true_iff in H1. exact H1.
Qed.
Lemma full_128_ok : forall b, kmap_ok (ex b) ruled_map INT INT 3 full_128 /\ no_leftover ruled_map full_128.
Proof.
  intros b.
  assert (Ho : occupied full_128 = full_128) by (vm_compute; reflexivity).
  split; [constructor|].
  - vm_compute. reflexivity.
  - rewrite Ho. intros s H. apply in_map_iff in H. destruct H as (i & <- & _). cbn [slot_ s_key].
    cbn [k_eq ruled_map]. unfold i_, i_eq. apply eqb_bytes_refl.
  - apply of_differ. rewrite Ho. apply all_apart_ok. vm_compute. reflexivity.
  - rewrite Ho. apply Forall_forall. intros s H. apply in_map_iff in H. destruct H as (i & <- & _).
    unfold slot_. cbn [s_key s_val]. split; [ht|]. split; [ht|]. split; cbn; lia.
  - intros s s' Hs _ Hf. apply in_map_iff in Hs. destruct Hs as (i & <- & _). discriminate.
Qed.

(** What is read from its data, and what is written of a map. *)
Definition full_read : kmap := full_128 ++ repeat empty_slot 128.
Definition written (mp : kmap) : bytes :=
  match stream_kmap (ex true) ruled_map 3 (TPrim 92 40) INT INT mp with Ok (b, _) => b | Err _ => [] end.

(** The capacity of a map is not kept; and a map that was read without error, with the same keys and
    values, may not be readable from what is written of it. *)
Theorem C77_refuted : exists E K f name kt vt,
  wf_env zero_cap E /\ wf_kokkos K /\ gives K kokkos_rule /\ (1 < f)%nat /\ constructible E kt /\ constructible E vt /\
  (exists mp y, lasting E K f kt vt mp /\ map_restarts E K f name kt vt 1 mp y /\ len mp < len y) /\
  (exists mp y b d m, kmap_ok E K kt vt f mp /\ no_leftover K mp /\ map_restarts E K f name kt vt 1 mp y /\
     map_same_as mp y /\ stream_kmap E K f name kt vt y = Ok (b, y) /\
     deserialize_kmap E K f name kt vt b 0 [] = Err (SerErr d m)).
Proof.
  exists (ex true), ruled_map, 3%nat, (TPrim 92 40), INT, INT.
  split; [apply ex_wf; reflexivity|]. split; [apply ruled_wf|]. split; [apply ruled_gives|]. split; [lia|].
  split; [apply int_constructible|]. split; [apply int_constructible|]. split.
  - exists ex_128. destruct (C77_restarts_partial (ex true) ruled_map 3 (TPrim 92 40) INT INT kokkos_rule) with (n := 1%nat) (mp := ex_128)
      as ((y & Hy) & H); auto using ruled_wf, ruled_gives, int_constructible, ex_128_lasting.
    { apply ex_wf. reflexivity. }
    { intros i Hi. apply ex_128_bound. lia. }
    exists y. split; [apply ex_128_lasting|]. split; [exact Hy|]. destruct (H y Hy) as (_ & -> & _). vm_compute. reflexivity.
  - exists full_128, full_read, (written full_read). do 2 eexists.
    split; [exact (proj1 (full_128_ok true))|]. split; [exact (proj2 (full_128_ok true))|]. split; [|split; [|split]].
    + apply MrMore with (b := written full_128) (w := []) (x := full_read) (q := len (written full_128)).
      * vm_compute. reflexivity.
      * reflexivity.
      * vm_compute. reflexivity.
      * constructor.
    + assert (Ho : occupied full_read = occupied full_128) by (vm_compute; reflexivity).
      unfold map_same_as. rewrite Ho. apply same_as_refl.
    + vm_compute. reflexivity.
    + vm_compute. reflexivity.
Qed.
Print Assumptions C77_refuted.
