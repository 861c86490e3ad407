(** C63: objects that contain Kokkos views and maps. *)
From Coq Require Import List NArith Arith Bool Lia.
From Coq.Strings Require Import Byte.
From Verif Require Import Base Syntax Prog Serializers Traverse Spec ProgFacts ApiFacts Examples
  Views ViewSpec KMap PropViews Members MembersSpec MembersFacts.
Import ListNotations.
Local Open Scope N_scope.

(** [span [] [] = 1]: a view of rank 0 has one element (Kokkos). *)
Theorem C63_round_trip : forall E span K f k v, wf_env any E -> wf_span span -> span [] [] = 1 ->
  wf_kokkos K -> (2 < f)%nat -> (forall t, k <> KVal t) ->
  kty_ok E k -> kheld E span K f k v ->
  exists b, (stream_member E span K f k v = Ok (b, v) /\
     (len b < two64 -> serialize_member E span K f k v = Ok (b, v))) /\
    forall w, over E k v w -> exists x, kcopy k v x /\ forall before after,
      deserialize_member E span K f k (before ++ b ++ after) (length before) w = Ok (x, len b).
Proof. exact member_round_trip. Qed.
Print Assumptions C63_round_trip.

(** A new object, which is what the calls that return an object read into. *)
Theorem C63_new_object : forall E span K f k v d, wf_env any E -> wf_span span -> span [] [] = 1 ->
  wf_kokkos K -> (2 < f)%nat -> (forall t, k <> KVal t) ->
  kty_ok E k -> kheld E span K f k v -> blank E k = Some d ->
  exists b x, (stream_member E span K f k v = Ok (b, v) /\
     (len b < two64 -> serialize_member E span K f k v = Ok (b, v))) /\ kcopy k v x /\
    forall before after,
      deserialize_member E span K f k (before ++ b ++ after) (length before) d = Ok (x, len b).
Proof.
  intros E span K f k v d wf Hs H0 wk Hf Hn Ht Hh Hd.
  destruct (member_round_trip E span K f k v) as (b & Hb & Hr); auto.
  destruct (Hr d) as (x & Hx & H); [eapply blank_over; eauto|]. eauto.
Qed.
Print Assumptions C63_new_object.

(** ** A class with all kinds of members *)

(** struct {
      int id;
      View<int**, LayoutStride> a;
      std::vector<Part> parts;                     // struct Part { UnorderedMap<int, int>; std::string }
      std::optional<DynRankView<int>> r;
      std::unique_ptr<DynamicView<int*>> d;
      std::optional<DynRankView<int>> none;
    } *)
Definition ex_part : kty := KClass (TPrim 102 80) [KMap (TPrim 92 40) INT INT; KVal TString].
Definition ex_owner : kty := KClass (TPrim 100 240)
  [KVal INT; KView (ex_vt INT 2 LStride false); KVec (TPrim 101 24) ex_part;
   KOpt (TPrim 103 32) (KDynRank (ex_vt INT 0 LStride false));
   KPtr (TPrim 104 8) (KDynamic (TPrim 93 48) INT);
   KOpt (TPrim 103 32) (KDynRank (ex_vt INT 0 LStride false))].
Definition ex_part_of (m : kmap) (b : bytes) : kval := OObj [OMap m; OVal (str_ b)].
Definition ex_object : kval :=
  OObj [OVal (i_ 7); OView ex_strided; OVec 4 [ex_part_of ex_kmap [x61]; ex_part_of [] []];
        OOpt (Some (OView ex_strided)); OOpt (Some (ODynamic ex_dynamic)); OOpt None].
(** An object that is in use already: one part, a different view, an optional that holds
    a value, and no pointer. *)
Definition ex_used : kval :=
  OObj [OVal (i_ 9); OView (ex_line [1; 2]); OVec 1 [ex_part_of [empty_slot] [x7a]];
        OOpt None; OOpt None; OOpt (Some (OView ex_strided))].

Lemma ex_object_ok : forall b, kty_ok (ex b) ex_owner /\
  kheld (ex b) ex_span ex_map 3 ex_owner ex_object /\ over (ex b) ex_owner ex_object ex_used.
Proof.
  intros b.
  assert (Hs : forall l, len l <= 15 -> has_ty (ex b) TString (str_ l)).
  { intros l Hl. unfold str_. constructor; [exact Hl|]. eapply N.le_lt_trans; [exact Hl|reflexivity]. }
  split; [|split].
  - cbn. repeat split; discriminate.
  - cbn [kheld ex_owner ex_object]. split; [split; [ht|cbn; lia]|]. split; [apply ex_strided_ok|].
    split.
    { cbn [kheld ex_part ex_part_of]. split; [|split; [vm_compute; discriminate|reflexivity]].
      constructor; [|constructor; [|constructor]].
      - split; [apply ex_kmap_ok|]. split; [|exact I]. split; [|cbn; lia]. apply Hs. vm_compute. discriminate.
      - split; [|split; [|exact I]].
        + split; [constructor|].
          * reflexivity.
          * intros s [].
          * intros [|i] j s s' H; discriminate.
          * constructor.
          * intros s s' [].
        + split; [|cbn; lia]. apply Hs. vm_compute. discriminate. }
    split; [apply (C44_case b)|]. split; [|split; exact I].
    split; [apply ex_dynamic_ok|]. split; reflexivity.
  - cbn [over ex_owner ex_object ex_used]. split; [constructor; reflexivity|].
    split; [exact I|]. split; [|repeat split].
    intros x y [<-|[<-|[]]] [<-|[]]; cbn [over ex_part ex_part_of];
      (split; [reflexivity|]); (split; [constructor|exact I]).
Qed.

Example C63_case : forall b, exists out x,
  serialize_member (ex b) ex_span ex_map 3 ex_owner ex_object = Ok (out, ex_object) /\
  deserialize_member (ex b) ex_span ex_map 3 ex_owner out 0 ex_used = Ok (x, len out) /\
  exists va vr, x =
    OObj [OVal (i_ 7); OView va;
          OVec 4 [ex_part_of [slot_ 3 30; slot_ 5 50; empty_slot; empty_slot] [x61]; ex_part_of [] []];
          OOpt (Some (OView vr));
          OOpt (Some (ODynamic {| d_label := [x61]; d_chunk := 4; d_chunks := 2;
                                  d_elems := map i_ [1; 2; 3; 4; 5] |}));
          OOpt None] /\
    at_ va [1; 2] = Some (i_ 19) /\ at_ vr [1; 2] = Some (i_ 19).
Proof.
  destruct b; do 2 eexists; (split; [vm_compute; reflexivity|]); (split; [vm_compute; reflexivity|]);
    do 2 eexists; (split; [reflexivity|]); split; vm_compute; reflexivity.
Qed.

(** Without the condition on maps that are read into: the keys they have stay. *)
Example C63_case_stale : forall b, exists out x,
  serialize_member (ex b) ex_span ex_map 3 ex_part (ex_part_of [slot_ 3 30; empty_slot] []) =
    Ok (out, ex_part_of [slot_ 3 30; empty_slot] []) /\
  deserialize_member (ex b) ex_span ex_map 3 ex_part out 0 (ex_part_of [slot_ 5 50] []) = Ok (x, len out) /\
  x = ex_part_of [slot_ 5 50; slot_ 3 30] [].
Proof.
  destruct b; do 2 eexists; (split; [vm_compute; reflexivity|]); (split; [vm_compute; reflexivity|]);
    reflexivity.
Qed.
