(** C62 for objects with Kokkos views and maps in them. *)
From Coq Require Import List NArith Arith Bool Lia.
From Coq.Strings Require Import Byte.
From Verif Require Import Base Syntax Prog Serializers Traverse Spec ApiFacts IO Views Crs Members
  ObjectIO Message Closure Unpack MessageFacts KMessage KMessageFacts Examples PropVirtual PropMessage
  PropViews PropMembers PropGrow PropExchange.
Import ListNotations.
Local Open Scope N_scope.

Section Calls.
Variable E : env.
Variable wf : wf_env any E.
Variable nobv : no_bytewise_virtual E.
Variable span : list N -> list N -> N.
Variable K : kokkos_map.

(** What every call that reads an object [r] guarantees of a serialization_error. *)
Definition accounts {A} (r : item) (x : res A) : Prop := forall d ls,
  x = Err (SerErr d ls) -> accounted E r d ls /\ (chk E = false -> d = 0%nat).

Lemma object_accounts : forall H, honest H -> silent H -> forall f k v s, (forall t, k <> KVal t) ->
  accounts (IObject k) (interp H (root_member E span K f k MUnpacking v) false s).
Proof.
  intros H Hh Hs f k v s Hn d ls He.
  pose proof (o_root E wf nobv span K MUnpacking f k v Hn H Hh Hs s) as Hx. rewrite He in Hx.
  destruct Hx as (_ & Hm & Hd). split; [now apply message_accounted|exact Hd].
Qed.
Lemma object_never : forall H, honest H -> silent H -> forall m f k v s, (forall t, k <> KVal t) ->
  m <> MUnpacking -> never (interp H (root_member E span K f k m v) false s).
Proof.
  intros H Hh Hs m f k v s Hn Hm d ls He.
  pose proof (o_root E wf nobv span K m f k v Hn H Hh Hs s) as Hx. rewrite He in Hx. tauto.
Qed.

(** Missing from the full claim: the labels in the line about a wrong type index, see
    [C62_labels_refuted]. *)
Theorem C62_objects_reading_partial : forall f k v, (forall t, k <> KVal t) ->
  (forall mem off, accounts (IObject k) (deserialize_member E span K f k mem off v)) /\
  (forall i, accounts (IObject k) (member_from_stream E span K f k i v)) /\
  (forall oracle page w, accounts (IObject k) (fst (member_from_file E span K f oracle page k v w))).
Proof.
  intros f k v Hn.
  assert (M : forall mem off, accounts (IObject k) (deserialize_member E span K f k mem off v)).
  { intros mem off d ls. unfold deserialize_member, deserialize_object.
    pose proof (object_accounts unpacker (proj1 (proj2 (proj2 honest_all))) (proj1 (proj2 (proj2 silent_all)))
      f k v {| u_buf := mem; u_cur := off; u_used := 0 |} Hn) as H.
    destruct (interp _ _ _ _) as [[[a vf] s]|e]; [discriminate|]. intros He. apply H. now inversion He. }
  split; [exact M|]. split.
  - intros i d ls. unfold member_from_stream, object_from_stream.
    pose proof (object_accounts stream_unpacker (proj2 (proj2 (proj2 (proj2 (proj2 honest_all)))))
      (proj2 (proj2 (proj2 (proj2 (proj2 silent_all))))) f k v i Hn) as H.
    destruct (interp _ _ _ _) as [[[a vf] s]|e]; [discriminate|]. intros He. apply H. now inversion He.
  - intros oracle page w d ls. revert w d ls.
    apply (io_bind (fun d ls => accounted E (IObject k) d ls /\ (chk E = false -> d = 0%nat))
      _ _ _ _ (io_setup _ _)).
    intros _. apply io_scoped. intros w d ls. unfold unpack_mapping.
    pose proof (M (map_mem page (contents w)) 0%nat) as H. unfold deserialize_member in H.
    destruct (deserialize_object _ _ _) as [[a s]|e]; [discriminate|].
    intros He. apply H. now inversion He.
Qed.

Theorem C62_objects_writing : forall f k v, (forall t, k <> KVal t) ->
  (forall n, never (footprint_member E span K f k v n)) /\
  (forall o, never (member_to_stream E span K f k v o)) /\
  (forall oracle hf page w, never (fst (member_to_file E span K f oracle hf page k v w))) /\
  forall d ls, serialize_member E span K f k v = Err (SerErr d ls) ->
    d = 0%nat /\ exists n p, n <> p /\ ls = [Sized (tix E (name_of k)) n p].
Proof.
  intros f k v Hn.
  destruct honest_all as (H1 & H2 & _ & H4 & H5 & _), silent_all as (S1 & S2 & _ & S4 & S5 & _).
  pose proof (object_never sizer H1 S1 MSizing f k v 0 Hn ltac:(discriminate)) as G.
  split; [|split; [|split]].
  - intros n d ls. unfold footprint_member, footprint_object.
    pose proof (object_never footprinter H4 S4 MFootprinting f k v 0 Hn ltac:(discriminate)) as H.
    destruct (interp footprinter _ _ _) as [[[a vf] s]|e]; intros He; [discriminate He|]. inversion He; subst.
    now apply (H d ls).
  - intros o d ls. unfold member_to_stream, object_to_stream.
    destruct (interp sizer _ _ _) as [[[a vf] n]|e].
    + pose proof (object_never stream_packer H5 S5 MPacking f k v o Hn ltac:(discriminate)) as H.
      destruct (interp stream_packer _ _ _) as [[[a' vf'] s]|e]; intros He; [discriminate He|]. inversion He; subst.
      now apply (H d ls).
    + intros He. inversion He; subst. now apply (G d ls).
  - intros oracle hf page w d ls. unfold member_to_file, object_to_file.
    destruct (interp sizer _ _ _) as [[[a vf] n]|e].
    + revert w d ls.
      change (io_says (fun _ _ => False)
        (write_mapping oracle hf page n (root_member E span K f k MPacking v))).
      apply io_bind; [apply io_setup_write|]. intros _.
      apply io_scoped. intros w d ls. unfold pack_mapping.
      match goal with |- context [interp hpacker ?p false ?s] =>
        pose proof (object_never hpacker honest_h silent_h MPacking f k v s Hn ltac:(discriminate)) as H;
        destruct (interp hpacker p false s) as [[[a' vf'] [s' h]]|e] end; [discriminate|].
      cbn [fst]. intros He. inversion He; subst. now apply (H d ls).
    + cbn [fst]. intros He. inversion He; subst. now apply (G d ls).
  - intros d ls. unfold serialize_member, serialize_object.
    destruct (interp sizer _ _ _) as [[[a vf] n]|e].
    + match goal with |- context [interp packer ?p false ?s] =>
        pose proof (object_never packer H2 S2 MPacking f k v s Hn ltac:(discriminate)) as H;
        destruct (interp packer p false s) as [[[a' vf'] s']|e] end.
      * destruct (p_used s' =? n) eqn:Eu; [discriminate|]. intros He. inversion He; subst.
        split; [reflexivity|]. exists n, (p_used s'). split; [|reflexivity].
        apply N.eqb_neq in Eu. congruence.
      * intros He. inversion He; subst. exfalso. now apply (H d ls).
    + intros He. inversion He; subst. exfalso. now apply (G d ls).
Qed.
End Calls.
Print Assumptions C62_objects_reading_partial.
Print Assumptions C62_objects_writing.

(** struct { int id; std::vector<View<int**, LayoutStride>> grids; } in the program of
    PropExchange.v.  A byte of a dimension's type index in the layout of the view, and one of
    an element's: the messages name what is around them. *)
Definition grid_type : vty := ex_vt INT 2 LStride false.
Definition grids : kty := KVec (TPrim 101 24) (KView grid_type).
Definition grid_class : kty := KClass (TPrim 100 240) [KVal INT; grids].
Definition grid_object : kval := OObj [OVal (i_ 7); OVec 1 [OView ex_strided]].
Example C62_objects_case : let E := small_program true in
  let around := [tix E (vt_name grid_type); tix E (TPrim 101 24); tix E (TPrim 100 240)] in
  NoDup (around ++ [tix E (vt_layout_name grid_type)]) /\
  exists out i i',
  serialize_member E ex_span ex_map 3 grid_class grid_object = Ok (out, grid_object) /\
  deserialize_member E ex_span ex_map 3 grid_class (upd out 153 xff) 0 grid_object =
    Err (SerErr 4 [WrongType (tix E SIZE) i (tix E SIZE); Frame 1 (tix E (vt_layout_name grid_type));
      Frame 2 (tix E (vt_name grid_type)); Frame 3 (tix E (TPrim 101 24));
      Frame 4 (tix E (TPrim 100 240))]) /\
  deserialize_member E ex_span ex_map 3 grid_class (upd out 523 xff) 0 grid_object =
    Err (SerErr 3 [WrongType (tix E INT) i' (tix E INT);
      Frame 1 (tix E (vt_name grid_type)); Frame 2 (tix E (TPrim 101 24));
      Frame 3 (tix E (TPrim 100 240))]) /\
  enclosed E (IPlain SIZE)
    [ILayout (vt_layout_name grid_type); IObject (KView grid_type); IObject grids; IObject grid_class]
    (IObject grid_class).
Proof.
  cbv zeta. split.
  { vm_compute. repeat (constructor; [cbn; intuition discriminate|]). constructor. }
  do 3 eexists. split; [vm_compute; reflexivity|].
  split; [vm_compute; reflexivity|]. split; [vm_compute; reflexivity|].
  apply EnIn; [apply InLayout|]. apply EnIn; [apply InObject; cbn; tauto|].
  apply EnIn; [apply InObject; cbn; tauto|]. apply EnIn; [apply InObject; cbn; tauto|]. apply EnRoot.
Qed.

(** The hypotheses hold of that program. *)
Example C62_objects_hypotheses : forall b,
  wf_env any (small_program b) /\ no_bytewise_virtual (small_program b).
Proof.
  intros b. split; [apply C60_objects_hypotheses|].
  intros c k H Hb.
  do 14 (destruct c as [|c]; [first [discriminate|inversion H; subst; cbn in *; congruence]|]).
  discriminate.
Qed.
