(** C60 for Kokkos views and maps, and for objects that contain them. *)
From Coq Require Import List NArith Arith Bool Lia Permutation.
From Coq.Strings Require Import Byte.
From Verif Require Import Base Syntax Prog Serializers Traverse Spec ApiFacts Registry RegistryFacts IO
  Views ViewSpec KMap Crs Members MembersSpec MembersFacts ObjectIO Grow GrowMembers Examples
  PropGrow PropViews PropMembers.
Import ListNotations.
Local Open Scope N_scope.

Section Calls.
Variable U : ty -> Prop.
Variables E E' : env.
Hypothesis G : grows U E E'.
Variable span : list N -> list N -> N.
Variable K : kokkos_map.

Lemma object_within : forall f k m v, uses U k ->
  within (root_member E span K f k m v) (root_member E' span K f k m v).
Proof.
  intros f k m v H. apply (w_root_object U E E' G); [now apply uses_name|].
  apply (w_own U E E' G); [|exact H]. intros t vs Ht. now apply (w_with U E E' G).
Qed.

(** Every call on such an object of the smaller program, on every input. *)
Theorem C60_objects : forall f k v, uses U k ->
  same_unless_refused (serialize_member E span K f k v) (serialize_member E' span K f k v) /\
  (forall mem off, same_unless_refused (deserialize_member E span K f k mem off v)
     (deserialize_member E' span K f k mem off v)) /\
  (forall off, same_unless_refused (footprint_member E span K f k v off)
     (footprint_member E' span K f k v off)) /\
  (forall o, same_unless_refused (member_to_stream E span K f k v o)
     (member_to_stream E' span K f k v o)) /\
  (forall i, same_unless_refused (member_from_stream E span K f k i v)
     (member_from_stream E' span K f k i v)) /\
  (forall oracle hf page w,
     same_file_unless_refused (member_to_file E span K f oracle hf page k v w)
       (member_to_file E' span K f oracle hf page k v w)) /\
  (forall oracle page w,
     same_file_unless_refused (member_from_file E span K f oracle page k v w)
       (member_from_file E' span K f oracle page k v w)).
Proof.
  intros f k v H. unfold same_unless_refused.
  pose proof (within_interp sizer _ _ _ (object_within f k MSizing v H) false 0) as Hs.
  assert (Hd : forall mem off, same_unless_refused (deserialize_member E span K f k mem off v)
     (deserialize_member E' span K f k mem off v)).
  { intros mem off. unfold same_unless_refused, deserialize_member, deserialize_object.
    destruct (within_interp unpacker _ _ _ (object_within f k MUnpacking v H) false
      {| u_buf := mem; u_cur := off; u_used := 0 |}) as [->|[->| ->]]; auto. }
  split; [|split; [exact Hd|split; [|split; [|split; [|split]]]]].
  - unfold serialize_member, serialize_object.
    rewrite (g_tix _ _ _ G) by now apply uses_name.
    destruct Hs as [->|[->| ->]]; auto.
    destruct (interp sizer (root_member E span K f k MSizing v) false 0) as [[[? ?] n]|?]; auto.
    destruct (within_interp packer _ _ _ (object_within f k MPacking v H) false
      {| p_buf := repeat x00 (N.to_nat n); p_cur := 0; p_used := 0 |}) as [->|[->| ->]]; auto.
  - intros off. unfold footprint_member, footprint_object.
    rewrite (sizeof_up U E E' G) by now apply uses_name.
    destruct (within_interp footprinter _ _ _ (object_within f k MFootprinting v H) false 0)
      as [->|[->| ->]]; auto.
  - intros o. unfold member_to_stream, object_to_stream.
    destruct Hs as [->|[->| ->]]; auto.
    destruct (interp sizer (root_member E span K f k MSizing v) false 0) as [[[? ?] n]|?]; auto.
    destruct (within_interp stream_packer _ _ _ (object_within f k MPacking v H) false o)
      as [->|[->| ->]]; auto.
  - intros i. unfold member_from_stream, object_from_stream.
    destruct (within_interp stream_unpacker _ _ _ (object_within f k MUnpacking v H) false i)
      as [->|[->| ->]]; auto.
  - intros oracle hf page w. unfold same_file_unless_refused, member_to_file, object_to_file.
    destruct Hs as [->|[->| ->]]; auto.
    destruct (interp sizer (root_member E span K f k MSizing v) false 0) as [[[? ?] n]|?]; auto.
    unfold write_mapping, ibind. destruct (setup_for_write oracle hf n w) as [[?|?] w1]; auto.
    destruct (within_interp hpacker _ _ _ (object_within f k MPacking v H) false
      ({| p_buf := map_mem page (contents w1); p_cur := 0; p_used := 0 |}, [])) as [Hx|[Hx|Hx]].
    + destruct (scoped_range oracle true kval (pack_mapping page (root_member E span K f k MPacking v)) w1 w1)
        as [Hy|Hy]; [unfold pack_mapping; now rewrite Hx|now left|right; now left].
    + right. right. left. unfold scoped, pack_mapping. now rewrite Hx.
    + right. right. right. unfold scoped, pack_mapping. now rewrite Hx.
  - intros oracle page w. unfold same_file_unless_refused, member_from_file, object_from_file, ibind.
    destruct (setup_for_read oracle w) as [[?|?] w1]; auto.
    destruct (Hd (map_mem page (contents w1)) 0%nat) as [Hx|[Hx|Hx]]; unfold deserialize_member in Hx.
    + destruct (scoped_range oracle false kval (unpack_mapping page (root_member E span K f k MUnpacking v)) w1 w1)
        as [Hy|Hy]; [unfold unpack_mapping; now rewrite Hx|now left|right; now left].
    + right. right. left. unfold scoped, unpack_mapping. now rewrite Hx.
    + right. right. right. unfold scoped, unpack_mapping. now rewrite Hx.
Qed.

(** Both programs write the same bytes, and both read them as the same copy. *)
Theorem C60_object_exchange_partial : forall f k v, wf_env any E -> wf_span span -> span [] [] = 1 ->
  wf_kokkos K -> (2 < f)%nat -> (forall t, k <> KVal t) -> uses U k ->
  kty_ok E k -> kheld E span K f k v ->
  exists b, (len b < two64 ->
      serialize_member E span K f k v = Ok (b, v) /\ serialize_member E' span K f k v = Ok (b, v)) /\
    forall w, over E k v w -> exists x, kcopy k v x /\ forall before after,
      deserialize_member E span K f k (before ++ b ++ after) (length before) w = Ok (x, len b) /\
      deserialize_member E' span K f k (before ++ b ++ after) (length before) w = Ok (x, len b).
Proof.
  intros f k v wf Hs H0 wk Hf Hn Hu Ht Hh.
  destruct (C63_round_trip E span K f k v wf Hs H0 wk Hf Hn Ht Hh) as (b & (_ & Hb) & Hr).
  exists b. split.
  - intros Hl. specialize (Hb Hl). split; [exact Hb|].
    destruct (C60_objects f k v Hu) as ([Hx|[Hx|Hx]] & _); rewrite Hx in *; try discriminate Hb; exact Hb.
  - intros w Hw. destruct (Hr w Hw) as (x & Hc & Hx). exists x. split; [exact Hc|].
    intros before after. specialize (Hx before after). split; [exact Hx|].
    destruct (C60_objects f k w Hu) as (_ & Hd & _).
    destruct (Hd (before ++ b ++ after) (length before)) as [Hy|[Hy|Hy]];
      rewrite Hy in *; try discriminate Hx; exact Hx.
Qed.
End Calls.
Print Assumptions C60_objects.
Print Assumptions C60_object_exchange_partial.

(** ** The class of PropMembers.v in two programs *)

Definition small_types : list ty :=
  old_types ++ [TPrim 2 4; TPrim 90 24; TPrim 91 128; TPrim 92 40; TPrim 93 48; TPrim 100 240;
    TPrim 101 24; TPrim 102 80; TPrim 103 32; TPrim 104 8].
Definition small_program (b : bool) : env := program b true false small_types old_regs.
(** The class Flat and other types are registered last. *)
Definition large_program (b : bool) : env :=
  program b true true (small_types ++ [TClass 6; TVector (TVector DBL)]) (old_regs ++ [6%nat]).

Lemma old_words : In SIZE old_types /\ In BOOL old_types /\ In INT old_types /\ In CHAR old_types.
Proof. exact (g_words _ _ _ (new_program_grows true)). Qed.
Lemma old_parts : forall t, In t old_types -> Forall (fun u => In u old_types) (parts t).
Proof. exact (g_parts _ _ _ (new_program_grows true)). Qed.
Lemma old_defined : forall c, In (TClass c) old_types -> prog_cls true false c <> None.
Proof. exact (g_defined _ _ _ (new_program_grows true)). Qed.
Lemma old_class : forall c k, prog_cls true false c = Some k ->
  prog_cls true true c = Some k /\ In (TClass c) old_types /\
  Forall (fun u => In u old_types) (cfields k) /\
  (forall p, cparent k = Some p -> prog_cls true false p <> None).
Proof. exact (g_class _ _ _ (new_program_grows true)). Qed.
Definition classes_of (regs : list nat) (r : nat) : list nat :=
  map oe_class (or_reg (oregs_of (ex_base true) regs) r).
Lemma old_oreg : forall r, (forall d, In d (classes_of old_regs r) -> prog_cls true false d <> None) /\
  exists l, classes_of (old_regs ++ [6%nat]) r = classes_of old_regs r ++ l /\
    forall d, In d l -> prog_cls true false d = None.
Proof. exact (g_oreg _ _ _ (new_program_grows true)). Qed.
Lemma small_cases : forall t, In t small_types -> In t old_types \/ exists i n, t = TPrim i n.
Proof.
  intros t H. apply in_app_or in H. destruct H as [H|H]; [now left|right]. cbn [In] in H.
  repeat (destruct H as [<-|H]; [eauto|]). destruct H.
Qed.
Lemma old_small : forall t, In t old_types -> In t small_types.
Proof. intros t H. apply in_or_app. now left. Qed.
Lemma old_small_all : forall l, Forall (fun t => In t old_types) l -> Forall (fun t => In t small_types) l.
Proof. intros l. apply Forall_impl. exact old_small. Qed.
Lemma small_tix : forall t, In t small_types ->
  get_type_idx (treg_of (small_types ++ [TClass 6; TVector (TVector DBL)])) t
  = get_type_idx (treg_of small_types) t.
Proof.
  intros t H. apply C60_type_ids; auto. unfold small_types, old_types. cbn [app].
  repeat (constructor; [intros Hx; cbn [In] in Hx;
    repeat (destruct Hx as [Hx|Hx]; [discriminate Hx|]); destruct Hx|]). constructor.
Qed.
Global Opaque old_types.

Lemma large_program_grows : forall b,
  grows (fun t => In t small_types) (small_program b) (large_program b).
Proof.
  intros b. split; cbn [cls oreg small_program large_program program].
  - destruct old_words as (? & ? & ? & ?). repeat split; now apply old_small.
  - intros t H. destruct (small_cases t H) as [Ho|(i & n & ->)]; [|constructor].
    apply old_small_all. now apply old_parts.
  - intros c H. destruct (small_cases _ H) as [Ho|(i & n & Hx)]; [now apply old_defined|discriminate].
  - intros c k H. destruct (old_class c k H) as (Hk & Hc & Hf & Hp).
    split; [exact Hk|]. split; [now apply old_small|]. split; [now apply old_small_all|exact Hp].
  - intros t H. cbn [tix program small_program large_program]. now rewrite small_tix.
  - reflexivity.
  - reflexivity.
  - reflexivity.
  - reflexivity.
  - reflexivity.
  - reflexivity.
  - reflexivity.
  - reflexivity.
  - reflexivity.
  - exact old_oreg.
Qed.
Global Transparent old_types.

Ltac mem := repeat (first [left; reflexivity | right]).

(** The same bytes from both programs, in both build modes, and each reads them as the same
    object. *)
Example C60_objects_case : forall b, exists out x,
  serialize_member (small_program b) ex_span ex_map 3 ex_owner ex_object = Ok (out, ex_object) /\
  serialize_member (large_program b) ex_span ex_map 3 ex_owner ex_object = Ok (out, ex_object) /\
  deserialize_member (small_program b) ex_span ex_map 3 ex_owner out 0 ex_used = Ok (x, len out) /\
  deserialize_member (large_program b) ex_span ex_map 3 ex_owner out 0 ex_used = Ok (x, len out).
Proof.
  destruct b; do 2 eexists; (split; [vm_compute; reflexivity|]); (split; [vm_compute; reflexivity|]);
    (split; [vm_compute; reflexivity|]); vm_compute; reflexivity.
Qed.

(** struct { int id; View<int**, LayoutStride> a; std::unique_ptr<DynamicView<int*>> d; } *)
Definition small_class : kty := KClass (TPrim 100 240)
  [KVal INT; KView (ex_vt INT 2 LStride false); KPtr (TPrim 104 8) (KDynamic (TPrim 93 48) INT)].
Definition small_object (n : N) (d : option dview) : kval :=
  OObj [OVal (i_ n); OView ex_strided;
        OOpt (match d with Some d => Some (ODynamic d) | None => None end)].

(** The hypotheses of the exchange hold of such an object in the smaller program. *)
Example C60_objects_hypotheses : forall b,
  wf_env any (small_program b) /\ uses (fun t => In t small_types) small_class /\
  kty_ok (small_program b) small_class /\
  kheld (small_program b) ex_span ex_map 3 small_class (small_object 7 (Some ex_dynamic)) /\
  over (small_program b) small_class (small_object 7 (Some ex_dynamic)) (small_object 8 None).
Proof.
  intros b. split; [|split; [|split; [|split]]].
  - split.
    + intros c k p H Hp.
      do 14 (destruct c as [|c]; [first [discriminate|inversion H; subst; cbn in Hp; try discriminate;
        inversion Hp; subst;
        (split; [lia|split; [reflexivity|eexists; split; reflexivity]])]|]). discriminate.
    + intros c k ls H Hl.
      do 14 (destruct c as [|c]; [first [discriminate|inversion H; subst; cbn in Hl;
        destruct Hl as [Hl|[Hl|Hl]]; try discriminate; inversion Hl; subst; clear Hl H;
        cbn; repeat (first [ constructor; [eexists; split; [reflexivity|cbn;
          repeat (first [constructor; [fields; auto|] | apply Forall2_nil])]|] | apply Forall2_nil ])]|]).
      discriminate.
    + intros t. cbn [tix small_program program].
      destruct (get_type_idx (treg_of small_types) t) as [i|] eqn:Ei.
      * apply find_ty_index in Ei. destruct Ei as (j & ->). split; [apply type_index_bound|].
        pose proof (type_index_valid j) as H. unfold validate_index in H.
        apply N.eqb_eq in H. symmetry. exact H.
      * split; vm_compute; reflexivity.
    + intros t v v' w w' H H'. cbn. now rewrite (ekey_same _ _ H), (ekey_same _ _ H').
    + intros t v v' w w' H H'. cbn. now rewrite (ekey_same _ _ H), (ekey_same _ _ H').
    + intros. cbn. apply Permutation_refl.
    + intros r. cbn [oreg small_program program]. rewrite or_reg_classes. apply NoDup_filter.
      repeat (constructor; [cbn; intuition lia|]). constructor.
    + exact I.
  - cbn. unfold view_uses. cbn. repeat split; mem.
  - cbn. repeat split; discriminate.
  - cbn [kheld small_class small_object]. split; [split; [ht|cbn; lia]|]. split; [|split; [|exact I]].
    + vok. intros _. split; [|split].
      * intros idx H. destruct (bounds2 _ _ _ H) as (i & j & -> & Hi & Hj).
        cbn [offset ex_strided v_str].
        match goal with |- _ < ?x => let y := eval vm_compute in x in change x with y end. lia.
      * vm_compute. discriminate.
      * cbn [ex_strided v_data map]. repeat (constructor; [split; [ht|cbn; lia]|]). constructor.
    + split; [constructor; try reflexivity|split; reflexivity].
      * exists 2. reflexivity.
      * vm_compute. discriminate.
      * cbn [ex_dynamic d_elems map]. repeat (constructor; [split; [ht|cbn; lia]|]). constructor.
  - cbn [over small_class small_object]. split; [constructor; reflexivity|]. repeat split.
Qed.
