(** C72 for objects that contain Kokkos views and maps. *)
From Coq Require Import List NArith Arith Bool Lia.
From Coq.Strings Require Import Byte.
From Verif Require Import Base Syntax Prog Serializers Traverse Spec ProgFacts EnvFacts
  RegistryFacts Unpack Api ApiFacts Examples Robust RobustFacts PropRobust Views ViewSpec ViewFacts
  ViewRound Members ObjectIO PropViews PropMemory Damage DamageDyn PropDamageDyn DamageMembers.
Import ListNotations.
Local Open Scope N_scope.

(** Full statement: never undefined behaviour.  This is false of objects with data of views that is
    damaged, or with bools that are neither false nor true, see [C72_objects_refuted]. *)
Theorem C72_objects_partial : forall E, wf_env any E -> forall T, Robust.readable E T ->
  forall span K k w d, wf_span span -> (forall t, k <> KVal t) -> kreadable E T K k ->
  ksound E K false k w ->
  exists f0 r, (forall f, (f0 <= f)%nat -> member_from_stream E span K f k (in_stream d) w = r) /\
    may_end (fun e =>
        caught (flagged T \/ exists k', part_of k' k /\ hurt E span d k') e \/
        (e = Terminate /\ exists k', part_of k' k /\ overfull E d k'))
      (ksound E K true k) d r.
Proof.
  intros E wf T rd span K k w d Hsp Hn Hk Hw. unfold member_from_stream.
  apply (from_stream_ends _ _ (fun f => root_member E span K f k MUnpacking w)).
  eapply (root_ends E wf T rd span Hsp K (flagged T \/ exists k', part_of k' k /\ hurt E span d k')
    (exists k', part_of k' k /\ overfull E d k')); eauto.
  intros t H1 H2. left. exists t. auto.
Qed.
Print Assumptions C72_objects_partial.

(** Objects made of plain members, views of dynamic size, maps, classes and vectors: whatever the
    data, no undefined behaviour. *)
Definition no_views (k : kty) : Prop := forall k', part_of k' k ->
  match k' with KView _ | KDynRank _ | KOpt _ _ | KPtr _ _ => False | _ => True end.

Theorem C72_objects_safe : forall E, wf_env any E -> forall T, Robust.readable E T ->
  (forall t, T t -> by_flag t = false) ->
  forall span K k w d, wf_span span -> (forall t, k <> KVal t) -> kreadable E T K k -> no_views k ->
  ksound E K false k w ->
  exists f0 r, (forall f, (f0 <= f)%nat -> member_from_stream E span K f k (in_stream d) w = r) /\
    may_end (fun e => caught False e \/ (e = Terminate /\ exists k', part_of k' k /\ overfull E d k'))
      (ksound E K true k) d r.
Proof.
  intros E wf T rd Hf span K k w d Hsp Hn Hk Hv Hw. unfold member_from_stream.
  apply (from_stream_ends _ _ (fun f => root_member E span K f k MUnpacking w)).
  eapply (root_ends E wf T rd span Hsp K False (exists k', part_of k' k /\ overfull E d k')); eauto.
  - intros t H1 H2. rewrite Hf in H2; [discriminate|exact H1].
  - intros k' Hp Hh. specialize (Hv k' Hp). destruct k'; auto.
Qed.
Print Assumptions C72_objects_safe.

(** ** Cases *)

(** struct { int; std::vector<struct { UnorderedMap<int, int>; std::string }>; DynamicView<int*> } *)
Definition safe_owner : kty := KClass (TPrim 100 240)
  [KVal OINT; KVec (TPrim 101 24) (KClass (TPrim 102 80) [KMap (TPrim 92 40) OINT OINT; KVal TString]);
   KDynamic (TPrim 93 48) OINT].
Definition safe_object : kval :=
  OObj [OVal (i_ 7); OVec 4 [OObj [OMap ex_kmap; OVal (str_ [x61])]]; ODynamic ex_dynamic].
(** struct { int; std::optional<View<int*>> } *)
Definition opt_owner : kty := KClass (TPrim 100 240)
  [KVal OINT; KOpt (TPrim 103 32) (KView (ex_vt OINT 1 LRight false))].

Lemma part_inv : forall k k', part_of k k' -> k = k' \/
  match k' with
  | KClass _ ms => exists k1, In k1 ms /\ part_of k k1
  | KVec _ k1 | KOpt _ k1 | KPtr _ k1 => part_of k k1
  | _ => False
  end.
Proof. intros k k' H. destruct H; eauto. Qed.

Lemma no_flags_plain : forall t, in_plain t -> by_flag t = false.
Proof.
  intros t H. unfold in_plain, plain_types in H.
  repeat (destruct H as [H|H]; [subst; reflexivity|]). destruct H.
Qed.

Example C72_objects_hypotheses : wf_env any pl /\ Robust.readable pl in_plain /\ wf_span ex_span /\
  kreadable pl in_plain ex_map safe_owner /\ no_views safe_owner /\
  ksound pl ex_map false safe_owner safe_object /\
  kreadable pl in_plain ex_map opt_owner /\ ksound pl ex_map false opt_owner (OObj [OVal (i_ 1); OOpt None]).
Proof.
  assert (HO : in_plain OINT) by (unfold in_plain; ins).
  assert (HS : in_plain TString) by (unfold in_plain; ins).
  split; [apply pl_wf|]. split; [apply plain_readable|]. split; [apply ex_span_wf|].
  split; [|split; [|split; [|split]]].
  - cbn [kreadable safe_owner]. split; [exact HO|]. split; [|split; [|exact I]].
    + split; [|split; [discriminate|discriminate]]. split; [|split; [exact HS|exact I]].
      split; [exact HO|]. split; [exact HO|]. split; [discriminate|]. split; [discriminate|]. apply safe_ex_map.
    + split; [exact HO|discriminate].
  - intros k' H.
    repeat (apply part_inv in H; destruct H as [->|H]; [exact I|];
      try (destruct H as (k1 & Hin & H); cbn [In] in Hin;
           repeat (destruct Hin as [<-|Hin]; [|]); [..|destruct Hin])); try contradiction.
    all: repeat (apply part_inv in H; destruct H as [->|H]; [exact I|];
      try (destruct H as (k1 & Hin & H); cbn [In] in Hin;
           repeat (destruct Hin as [<-|Hin]; [|]); [..|destruct Hin])); try contradiction.
  - cbn [ksound safe_owner safe_object]. split; [repeat constructor|]. split; [|split; [discriminate|exact I]].
    constructor; [|constructor]. split; [|split; [constructor; vm_compute; (discriminate || reflexivity)|exact I]].
    constructor; change (occupied ex_kmap) with [slot_ 3 30; slot_ 5 50]; repeat constructor.
  - cbn [kreadable opt_owner]. split; [exact HO|]. split; [|exact I]. split; [|discriminate].
    split; [exact HO|]. split; [discriminate|]. split; [cbn; lia|]. now left.
  - cbn [ksound opt_owner]. split; [repeat constructor|]. split; exact I.
Qed.

(** The data of such an object: [c] is the byte for whether the optional has a value. *)
Definition opt_bytes (E : env) (c : byte) (held : bytes) : bytes :=
  le 4 (tix E (TPrim 100 240)) ++ enc E OINT (i_ 1) ++
  le 4 (tix E (TPrim 103 32)) ++ flag E c ++ held ++
  le 8 (wrap64 (sizeof E (TPrim 103 32) * 1)) ++ le 8 (wrap64 (sizeof E (TPrim 100 240) * 1)).

(** The type of the object is plain, the data has a bool of value 2. *)
Theorem C72_objects_refuted : exists E T span K k w d f, wf_env any E /\ Robust.readable E T /\ wf_span span /\
  kreadable E T K k /\ ksound E K false k w /\ ~ flagged T /\
  (exists k', part_of k' k /\ hurt E span d k') /\
  member_from_stream E span K f k (in_stream d) w = Err UB.
Proof.
  destruct C72_objects_hypotheses as (H1 & H2 & H3 & _ & _ & _ & H4 & H5).
  exists pl, in_plain, ex_span, ex_map, opt_owner, (OObj [OVal (i_ 1); OOpt None]), (opt_bytes pl x02 []), 3%nat.
  split; [exact H1|]. split; [exact H2|]. split; [exact H3|]. split; [exact H4|]. split; [exact H5|].
  split; [intros (t & Ht & Hf); rewrite no_flags_plain in Hf; [discriminate|exact Ht]|].
  split; [|vm_compute; reflexivity].
  exists (KOpt (TPrim 103 32) (KView (ex_vt OINT 1 LRight false))). split.
  - eapply PoMember; [right; left; reflexivity|constructor].
  - exists x02, (le 8 (wrap64 (sizeof pl (TPrim 103 32) * 1)) ++ le 8 (wrap64 (sizeof pl (TPrim 100 240) * 1))).
    split; [|split; discriminate].
    exists (le 4 (tix pl (TPrim 100 240)) ++ enc pl OINT (i_ 1) ++ le 4 (tix pl (TPrim 103 32))). reflexivity.
Qed.
Print Assumptions C72_objects_refuted.

(** With the values that a bool has, the same data is read. *)
Example C72_objects_case : forall w, In w [OObj [OVal (i_ 9); OOpt None]; OObj [OVal (i_ 9); OOpt (Some (OView no_view))]] ->
  exists i, member_from_stream pl ex_span ex_map 3 opt_owner (in_stream (opt_bytes pl x00 [])) w =
    Ok (OObj [OVal (i_ 1); OOpt None], i) /\ i_data i = [].
Proof.
  intros w [<-|[<-|[]]]; eexists; (split; [vm_compute; reflexivity|reflexivity]).
Qed.

(** Every cut of the data of an object is reported. *)
Example C72_objects_cut : forallb (fun n =>
    match member_from_stream pl ex_span ex_map 3 opt_owner
            (in_stream (firstn n (opt_bytes pl x00 []))) (OObj [OVal (i_ 9); OOpt None]) with
    | Err (SerErr _ _) | Err RtErr => true
    | _ => false
    end) (seq 0 (length (opt_bytes pl x00 []))) = true.
Proof. vm_compute. reflexivity. Qed.
