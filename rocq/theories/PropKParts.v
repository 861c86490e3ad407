(** Property C80 for objects that contain Kokkos views and maps (Members.v): the data of
    such a part is in the data of the whole. *)
From Coq Require Import List NArith Arith Bool Lia.
From Coq.Strings Require Import Byte.
From Verif Require Import Base Syntax Prog Serializers Traverse Spec ProgFacts ApiFacts Examples
  Views ViewSpec ViewRound KMap PropViews Members MembersSpec MembersFacts PropMembers Patch Parts
  PropParts.
Import ListNotations.
Local Open Scope N_scope.

(** An object with a place left open for a part: a member, an element of a vector, or
    what an optional or a pointer holds. *)
Inductive kctx :=
| KCHere
| KCObj (before : list kval) (c : kctx) (after : list kval)
| KCVec (cap : N) (before : list kval) (c : kctx) (after : list kval)
| KCSome (c : kctx).

(** The object with [x] in the open place. *)
Fixpoint kplug (c : kctx) (x : kval) : kval :=
  match c with
  | KCHere => x
  | KCObj l c r => OObj (l ++ kplug c x :: r)
  | KCVec cap l c r => OVec cap (l ++ kplug c x :: r)
  | KCSome c => OOpt (Some (kplug c x))
  end.

(** The type of the open place, and whether the part is written by itself, like
    [part_type] (Parts.v). *)
Fixpoint kpart_type (o : bool) (k : kty) (c : kctx) : option (kty * bool) :=
  match c with
  | KCHere => Some (k, o)
  | KCObj l c _ =>
    match k with
    | KClass _ ms => match nth_error ms (length l) with Some k' => kpart_type true k' c | None => None end
    | _ => None
    end
  | KCVec _ _ c _ => match k with KVec _ k' => kpart_type false k' c | _ => None end
  | KCSome c => match k with KOpt _ k' | KPtr _ k' => kpart_type true k' c | _ => None end
  end.

Section KParts.
Variable E : env.
Variable span : list N -> list N -> N.
Variable K : kokkos_map.
Variable f : nat.

Lemma kwithin_framed : forall (g : kval -> bytes) t k F, within g F ->
  within g (fun b => framed E t k (F b)).
Proof. intros g t k F H. unfold framed. destruct (chk E); auto. now apply within_l, within_r. Qed.

(** Members by their positions. *)
Fixpoint wmembers_of (ks : list kty) (vs : list kval) : bytes :=
  match ks, vs with
  | k :: ks', v :: vs' => wmember E k v (wown E span k v) ++ wmembers_of ks' vs'
  | _, _ => []
  end.
Fixpoint kheld_all (ks : list kty) (vs : list kval) : Prop :=
  match ks, vs with
  | [], [] => True
  | k :: ks', v :: vs' => kheld E span K f k v /\ kheld_all ks' vs'
  | _, _ => False
  end.
Fixpoint kty_all (ks : list kty) : Prop :=
  match ks with [] => True | k :: r => kty_ok E k /\ kty_all r end.

Definition kdata (o : bool) (k : kty) (v : kval) : bytes :=
  if o then wmember E k v (wown E span k v) else wown E span k v.

Lemma kwithin_members : forall (g : kval -> bytes) c l ms r k,
  nth_error ms (length l) = Some k ->
  within g (fun x => wmember E k (kplug c x) (wown E span k (kplug c x))) ->
  within g (fun x => wmembers_of ms (l ++ kplug c x :: r)).
Proof.
  intros g c. induction l; intros [|k0 ms] r k Hn H; try discriminate; cbn [app wmembers_of length] in *.
  - cbn in Hn. inversion Hn; subst. now apply within_r.
  - apply within_l. eapply IHl; eauto.
Qed.

Lemma kheld_nth : forall ms l x r k, kheld_all ms (l ++ x :: r) -> nth_error ms (length l) = Some k ->
  kheld E span K f k x.
Proof.
  induction ms; intros [|y l] x r k H Hn; try discriminate; cbn in *; try contradiction;
    destruct H as (H1 & H2); [congruence|eauto].
Qed.
Lemma kty_nth : forall ms n k, kty_all ms -> nth_error ms n = Some k -> kty_ok E k.
Proof.
  induction ms; intros [|n] k H Hn; try discriminate; cbn in *; destruct H as (H1 & H2);
    [congruence|eauto].
Qed.

Lemma kwithin_part : forall k' o' c k o x0, kheld E span K f k (kplug c x0) -> kty_ok E k ->
  kpart_type o k c = Some (k', o') ->
  within (kdata o' k') (fun x => kdata o k (kplug c x)).
Proof.
  intros k' o'. induction c; intros k o x0 Hh Ht Hp; cbn [kplug kpart_type] in *.
  - inversion Hp; subst. apply within_id.
  - destruct k; try discriminate.
    destruct (nth_error members (length before)) as [k1|] eqn:Hn; [|discriminate].
    change (kheld_all members (before ++ kplug c x0 :: after)) in Hh.
    change (kty_all members) in Ht.
    assert (HW : within (kdata o' k') (fun x => wmembers_of members (before ++ kplug c x :: after))).
    { eapply kwithin_members; eauto. apply (IHc k1 true x0); auto.
      - eapply kheld_nth; eauto.
      - eapply kty_nth; eauto. }
    destruct o; [|exact HW]. now apply kwithin_framed.
  - destruct k; try discriminate. destruct Hh as (Hh & _). destruct Ht as (Ht & _).
    assert (HW : within (kdata o' k') (fun x => wown E span (KVec name k) (OVec cap (before ++ kplug c x :: after)))).
    { apply within_ext with (fun x => wsize E cap ++ wsize E (len before + (1 + len after)) ++
        framed E (name_of k) (length before + S (length after))
          (concat (map (wown E span k) before ++ wown E span k (kplug c x) :: map (wown E span k) after))).
      - intros x. cbn [wown].
        replace (len before + (1 + len after)) with (len (before ++ kplug c x :: after))
          by (unfold len; rewrite app_length; cbn [length]; lia).
        replace (length before + S (length after))%nat with (length (before ++ kplug c x :: after))
          by (rewrite app_length; reflexivity).
        rewrite map_app. cbn [map]. do 2 f_equal. destruct before; reflexivity.
      - apply within_l, within_l, kwithin_framed.
        apply (within_concat _ _ (fun x => wown E span k (kplug c x))).
        apply (IHc k false x0); auto. eapply in_mid; eauto. }
    destruct o; [|exact HW]. now apply kwithin_framed.
  - destruct k; try discriminate; destruct Ht as (Ht & _); cbn [kheld] in Hh.
    + assert (HW : within (kdata o' k') (fun x => wown E span (KOpt name k) (OOpt (Some (kplug c x))))).
      { cbn [wown]. apply within_l. apply (IHc k true x0); auto. }
      destruct o; [|exact HW]. now apply kwithin_framed.
    + assert (HW : within (kdata o' k') (fun x => wown E span (KPtr name k) (OOpt (Some (kplug c x))))).
      { cbn [wown]. apply within_l. apply (IHc k true x0); auto. }
      destruct o; [|exact HW]. now apply kwithin_framed.
Qed.

Lemma kpart_held : forall k' o' c k o x, kheld E span K f k (kplug c x) -> kty_ok E k ->
  kpart_type o k c = Some (k', o') -> kheld E span K f k' x /\ kty_ok E k'.
Proof.
  intros k' o'. induction c; intros k o x Hh Ht Hp; cbn [kplug kpart_type] in *.
  - inversion Hp; subst. auto.
  - destruct k; try discriminate.
    destruct (nth_error members (length before)) as [k1|] eqn:Hn; [|discriminate].
    change (kheld_all members (before ++ kplug c x :: after)) in Hh.
    change (kty_all members) in Ht.
    apply (IHc k1 true); auto; [eapply kheld_nth; eauto|eapply kty_nth; eauto].
  - destruct k; try discriminate. destruct Hh as (Hh & _). destruct Ht as (Ht & _).
    apply (IHc k false); auto. eapply in_mid; eauto.
  - destruct k; try discriminate; destruct Ht as (Ht & _); cbn [kheld] in Hh; eauto.
Qed.
End KParts.

Lemma wroot_len : forall E t b, length (wroot E t b) = (12 + length b)%nat.
Proof. intros E t b. unfold wroot, framed. destruct (chk E); rewrite !app_length, !le_length; lia. Qed.

Lemma contents_wroot : forall E t b, contents (wroot E t b) = b.
Proof.
  intros E t b. assert (H : wroot E t b = le 4 (tix E t) ++ b ++ le 8 (wrap64 (sizeof E t))).
  { unfold wroot, framed. destruct (chk E); auto. now rewrite N.mul_1_r. }
  unfold contents. rewrite H.
  replace (length (le 4 (tix E t) ++ b ++ le 8 (wrap64 (sizeof E t))) - 12)%nat
    with (length b) by (rewrite !app_length, !le_length; lia).
  rewrite (skipn_app 4). rewrite skipn_all2 by now rewrite le_length.
  rewrite le_length, Nat.sub_diag. cbn [skipn app].
  rewrite firstn_app, Nat.sub_diag, firstn_all. cbn [firstn]. apply app_nil_r.
Qed.

(** The data [d] is what is written of [v], to a stream and to memory, and [v] is what is
    read from it, into any object that may be overwritten. *)
Definition kstands_for (E : env) (span : list N -> list N -> N) (K : kokkos_map) (f : nat)
    (k : kty) (d : bytes) (v : kval) : Prop :=
  stream_member E span K f k v = Ok (d, v) /\
  (len d < two64 -> serialize_member E span K f k v = Ok (d, v)) /\
  forall w, over E k v w -> exists x, kcopy k v x /\ forall before after,
    deserialize_member E span K f k (before ++ d ++ after) (length before) w = Ok (x, len d).

Lemma kstands_root : forall E span K f k v, wf_env any E -> wf_span span -> span [] [] = 1 ->
  wf_kokkos K -> (2 < f)%nat -> (forall t, k <> KVal t) -> kty_ok E k -> kheld E span K f k v ->
  kstands_for E span K f k (wroot E (name_of k) (wown E span k v)) v.
Proof.
  intros E span K f k v wf Hs H0 wk Hf Hn Ht Hh.
  assert (HW : stream_member E span K f k v = Ok (wroot E (name_of k) (wown E span k v), v) /\
    (len (wroot E (name_of k) (wown E span k v)) < two64 ->
     serialize_member E span K f k v = Ok (wroot E (name_of k) (wown E span k v), v))).
  { unfold stream_member, serialize_member, root_member.
    refine (both_ways _ _ _ _ v v _ _ _ _ eq_refl).
    - apply e_root; [now right|]. apply e_own; auto.
    - apply e_root; [now left|]. apply e_own; auto. }
  destruct HW as (H1 & H2). split; [auto|split; [auto|]].
  intros w Hw. destruct (r_own E wf span H0 Hs K wk f Hf k v w Ht Hh Hw Hn) as (x & Hx & Hr).
  exists x. split; auto. intros before after. apply deserialize_reads.
  unfold root_member. now apply r_root.
Qed.

Lemma whole_not_val : forall o k c k' o', kpart_type o k c = Some (k', o') ->
  (forall t, k' <> KVal t) -> forall t, k <> KVal t.
Proof.
  intros o k c k' o' Hp Hn t ->. destruct c; cbn in Hp; try discriminate.
  inversion Hp; subst. now apply (Hn t).
Qed.

(** ** C80 *)
(** The contents of the part are the same bytes by themselves and in the data of the
    whole. *)
Theorem C80_objects : forall E span K f k c x0 k' o,
  wf_env any E -> wf_span span -> span [] [] = 1 -> wf_kokkos K -> (2 < f)%nat ->
  kty_ok E k -> kheld E span K f k (kplug c x0) ->
  kpart_type true k c = Some (k', o) -> (forall t, k' <> KVal t) ->
  exists p q, forall x, kheld E span K f k (kplug c x) ->
    exists b, kstands_for E span K f k' b x /\
      kstands_for E span K f k (p ++ contents b ++ q) (kplug c x).
Proof.
  intros E span K f k c x0 k' o wf Hs H0 wk Hf Ht Hh0 Hp Hn.
  assert (HC : exists o2, kpart_type false k c = Some (k', o2)).
  { destruct c; cbn [kpart_type] in *; eauto. inversion Hp; subst. eauto. }
  destruct HC as (o2 & HC).
  assert (HB : within (wown E span k') (fun x => wown E span k (kplug c x))).
  { apply (within_trans _ _ (kdata E span o2 k')).
    - destruct o2; cbn [kdata]; [|apply within_id].
      apply within_ext with (fun x => framed E (name_of k') 1 (wown E span k' x)).
      + intros x. destruct k'; try reflexivity. now destruct (Hn t).
      + apply kwithin_framed, within_id.
    - apply (kwithin_part E span K f k' o2 c k false x0); auto. }
  destruct HB as (p & q & H).
  exists (le 4 (tix E (name_of k)) ++ p), (q ++ le 8 (wrap64 (sizeof E (name_of k)))). intros x Hh.
  destruct (kpart_held E span K f k' o c k true x Hh Ht Hp) as (Hh' & Ht').
  exists (wroot E (name_of k') (wown E span k' x)). split; [now apply kstands_root|].
  rewrite contents_wroot.
  replace ((le 4 (tix E (name_of k)) ++ p) ++ wown E span k' x ++ q ++ le 8 (wrap64 (sizeof E (name_of k))))
    with (wroot E (name_of k) (wown E span k (kplug c x))).
  - apply kstands_root; auto. eapply whole_not_val; eauto.
  - unfold wroot, framed. rewrite H. destruct (chk E); rewrite ?N.mul_1_r, <- !app_assoc; auto.
Qed.
Print Assumptions C80_objects.

(** With error checking the data of a part that is written by itself is in the data of the
    whole; by [kstands_for], which is for any bytes before and after, it can be read from
    there. *)
Theorem C80_objects_read : forall E span K f k c x0 k',
  wf_env any E -> wf_span span -> span [] [] = 1 -> wf_kokkos K -> (2 < f)%nat -> chk E = true ->
  kty_ok E k -> kheld E span K f k (kplug c x0) ->
  kpart_type true k c = Some (k', true) -> (forall t, k' <> KVal t) ->
  exists p q, forall x, kheld E span K f k (kplug c x) ->
    exists b, kstands_for E span K f k' b x /\
      kstands_for E span K f k (p ++ b ++ q) (kplug c x) /\
      forall w, over E k' x w -> exists y, kcopy k' x y /\
        deserialize_member E span K f k' (p ++ b ++ q) (length p) w = Ok (y, len b).
Proof.
  intros E span K f k c x0 k' wf Hs H0 wk Hf Hchk Ht Hh0 Hp Hn.
  destruct (kwithin_part E span K f k' true c k true x0 Hh0 Ht Hp) as (p & q & H).
  pose proof (whole_not_val _ _ _ _ _ Hp Hn) as Hn'.
  assert (HR : forall k v, (forall t, k <> KVal t) ->
            wroot E (name_of k) (wown E span k v) = kdata E span true k v).
  { intros k1 v Hk. unfold wroot. rewrite Hchk. destruct k1; try reflexivity. now destruct (Hk t). }
  exists p, q. intros x Hh.
  destruct (kpart_held E span K f k' true c k true x Hh Ht Hp) as (Hh' & Ht').
  exists (kdata E span true k' x). rewrite <- H, <- !HR by auto.
  split; [now apply kstands_root|]. split; [now apply kstands_root|].
  intros w Hw. rewrite (HR k) by auto. rewrite H, <- HR by auto.
  destruct (kstands_root E span K f k' x wf Hs H0 wk Hf Hn Ht' Hh') as (_ & _ & HD).
  destruct (HD w Hw) as (y & Hy & HY). eauto.
Qed.
Print Assumptions C80_objects_read.

(** The optional view of the owner of PropMembers.v, and the map in the first of its
    parts, which is an element of a vector. *)
Definition opt_view : kctx :=
  KCObj [OVal (i_ 7); OView ex_strided; OVec 4 [ex_part_of ex_kmap [x61]; ex_part_of [] []]]
    (KCSome KCHere) [OOpt (Some (ODynamic ex_dynamic)); OOpt None].
Definition first_map : kctx :=
  KCObj [OVal (i_ 7); OView ex_strided]
    (KCVec 4 [] (KCObj [] KCHere [OVal (str_ [x61])]) [ex_part_of [] []])
    [OOpt (Some (OView ex_strided)); OOpt (Some (ODynamic ex_dynamic)); OOpt None].
Definition first_part : kctx :=
  KCObj [OVal (i_ 7); OView ex_strided] (KCVec 4 [] KCHere [ex_part_of [] []])
    [OOpt (Some (OView ex_strided)); OOpt (Some (ODynamic ex_dynamic)); OOpt None].

Example C80_objects_places :
  kplug opt_view (OView ex_strided) = ex_object /\
  kpart_type true ex_owner opt_view = Some (KDynRank (ex_vt INT 0 LStride false), true) /\
  kplug first_map (OMap ex_kmap) = ex_object /\
  kpart_type true ex_owner first_map = Some (KMap (TPrim 92 40) INT INT, true) /\
  kplug first_part (ex_part_of ex_kmap [x61]) = ex_object /\
  kpart_type true ex_owner first_part = Some (ex_part, false).
Proof. repeat split; reflexivity. Qed.

Example C80_objects_case :
  (exists p q, forall x, kheld (ex true) ex_span ex_map 3 ex_owner (kplug first_map x) ->
    exists b, kstands_for (ex true) ex_span ex_map 3 (KMap (TPrim 92 40) INT INT) b x /\
      kstands_for (ex true) ex_span ex_map 3 ex_owner (p ++ b ++ q) (kplug first_map x) /\
      forall w, over (ex true) (KMap (TPrim 92 40) INT INT) x w -> exists y,
        kcopy (KMap (TPrim 92 40) INT INT) x y /\
        deserialize_member (ex true) ex_span ex_map 3 (KMap (TPrim 92 40) INT INT)
          (p ++ b ++ q) (length p) w = Ok (y, len b)) /\
  (forall c, exists p q, forall x, kheld (ex c) ex_span ex_map 3 ex_owner (kplug first_part x) ->
    exists b, kstands_for (ex c) ex_span ex_map 3 ex_part b x /\
      kstands_for (ex c) ex_span ex_map 3 ex_owner (p ++ contents b ++ q) (kplug first_part x)).
Proof.
  split.
  - apply (C80_objects_read (ex true) ex_span ex_map 3 ex_owner first_map (OMap ex_kmap));
      [apply ex_wf; exact I|apply ex_span_wf|reflexivity|apply ex_map_wf|lia|reflexivity|
       apply ex_object_ok|apply ex_object_ok|reflexivity|discriminate].
  - intros c.
    apply (C80_objects (ex c) ex_span ex_map 3 ex_owner first_part (ex_part_of ex_kmap [x61]) ex_part false);
      [apply ex_wf; exact I|apply ex_span_wf|reflexivity|apply ex_map_wf|lia|
       apply ex_object_ok|apply ex_object_ok|reflexivity|discriminate].
Qed.
