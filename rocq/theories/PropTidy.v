(** C43: storage of the temporaries used by deserialization. *)
From Coq Require Import List NArith Arith Bool Lia.
From Coq.Strings Require Import Byte.
From Verif Require Import Base Syntax Prog Serializers Traverse Spec ProgFacts EnvFacts ValFacts
  Fails Api ApiFacts Examples PropVirtual PropLaws Tidy.
Import ListNotations.
Local Open Scope N_scope.

Lemma clean_log : forall E H A (p : prog A) vf s l a vf' s' log, clean E p ->
  interp (logger H) p vf (s, l) = Ok (a, vf', (s', log)) ->
  exists x, log = l ++ x /\ lost E x = [].
Proof.
  intros E H A p. induction p; intros vf s l a' vf' s' log Hc Hi; cbn [interp clean] in *.
  - inversion Hi; subst. exists []. rewrite app_nil_r. split; reflexivity.
  - cbn [contig logger fst snd] in Hi. destruct (contig H b s) as [[y s1]|]; [|discriminate]. eauto.
  - cbn [count logger fst snd] in Hi. eauto.
  - eauto.
  - eauto.
  - destruct Hc as (He & Hc). cbn [note logger fst snd] in Hi.
    destruct (IHp _ _ _ _ _ _ _ Hc Hi) as (x & -> & Hx). exists (e :: x).
    rewrite <- app_assoc. split; auto. cbn [lost filter]. destruct e; auto. now rewrite He.
  - discriminate.
Qed.

(** [lossless E f t w H s v]: deserializing over the object [w] yields [v], and
    none of the temporaries it abandons owns storage. *)
Definition lossless (E : env) (f : nat) (t : ty) (w : val) (H : serializer) (s : state H) (v : val) : Prop :=
  exists vf s' log,
    interp (logger H) (with_root E MUnpacking f t w) false (s, []) = Ok (v, vf, (s', log)) /\
    lost E log = [].

Lemma tidy_lossless : forall E f t w H s v vf s', wf_env any E -> tidy E t ->
  interp H (with_root E MUnpacking f t w) false s = Ok (v, vf, s') -> lossless E f t w H s v.
Proof.
  intros E f t w H s v vf s' wf Ht Hi.
  pose proof (logger_faithful H _ (with_root E MUnpacking f t w) false s []) as L.
  rewrite Hi in L. destruct L as (log & L). cbn [app] in L. exists vf, s', log. split; auto.
  assert (Hc : clean E (with_root E MUnpacking f t w)).
  { apply c_with_root; auto. intros c c' Hv Hin. rewrite (chain_virtual any E wf c c'); auto. }
  destruct (clean_log _ _ _ _ _ _ _ _ _ _ _ Hc L) as (x & -> & Hx). exact Hx.
Qed.

(** Full statement: the conclusion for every type.  It is false (see
    [C43_refuted]); what is missing are the types excluded by [tidy]: optionals of
    types that own storage, maps whose keys own storage, and containers that copy
    an element from a temporary whose constructor allocates. *)
Theorem C43_memory_partial : forall E f t mem off v n, wf_env any E -> tidy E t ->
  deserialize E f t mem off = Ok (v, n) ->
  exists o, recon E t = Some o /\
    lossless E f t o unpacker {| u_buf := mem; u_cur := off; u_used := 0 |} v /\
    deserialize_heap E f t mem off false = (Ok v, [HAlloc; HConstruct; HReturn]).
Proof.
  intros E f t mem off v n wf Ht Hd. unfold deserialize in Hd. unfold deserialize_heap.
  destruct (recon E t) as [o|]; [|discriminate]. exists o. split; auto.
  rewrite Hd. split; auto. unfold unpack_memory in Hd.
  destruct (interp unpacker _ _ _) as [[[v' vf] s']|] eqn:Ei; [|discriminate].
  inversion Hd; subst. eapply tidy_lossless; eauto.
Qed.
Print Assumptions C43_memory_partial.

Theorem C43_stream_partial : forall E f t i v i', wf_env any E -> tidy E t ->
  deserialize_from_stream E f t i = Ok (v, i') ->
  exists o, recon E t = Some o /\ lossless E f t o stream_unpacker i v /\
    deserialize_stream_heap E f t i = (Ok v, [HAlloc; HConstruct; HReturn]).
Proof.
  intros E f t i v i' wf Ht Hd. unfold deserialize_from_stream in Hd. unfold deserialize_stream_heap.
  destruct (recon E t) as [o|]; [|discriminate]. exists o. split; auto.
  rewrite Hd. split; auto. unfold deserialize_in_place_from_stream in Hd.
  destruct (interp stream_unpacker _ _ _) as [[[v' vf] s']|] eqn:Ei; [|discriminate].
  inversion Hd; subst. eapply tidy_lossless; eauto.
Qed.
Print Assumptions C43_stream_partial.

Theorem C43_in_place_partial : forall E f t mem off w v n, wf_env any E -> tidy E t ->
  deserialize_in_place E f t mem off w = Ok (v, n) ->
  lossless E f t w unpacker {| u_buf := mem; u_cur := off; u_used := 0 |} v.
Proof.
  intros E f t mem off w v n wf Ht Hd. unfold deserialize_in_place, unpack_memory in Hd.
  destruct (interp unpacker _ _ _) as [[[v' vf] s']|] eqn:Ei; [|discriminate].
  inversion Hd; subst. eapply tidy_lossless; eauto.
Qed.
Print Assumptions C43_in_place_partial.

(** All the types of the example program are tidy. *)
Definition tidy_types : list ty :=
  [t_shapes; TUnique (TClass 1); TClass 0; TClass 1; TClass 2; TClass 3; TClass 4; TClass 5; TClass 6;
   TClass 7; TClass 13; OINT; DBL; TString; TVector TString; TUnique (TClass 0);
   TAssoc (AOrd false true) (TPair OINT TString); TPair OINT TString; TOptional OINT; TArray 2 OINT;
   t_misc; TVector DBL; TVecBool; TAssoc (AHash true false) OINT; TVariant [OINT; TString];
   TList false TString; TQueue OINT; TEnum 0 6 4; TChrono 0 5 8; TVector (TClass 5);
   TAssoc (AOrd true false) OINT; TList true (TClass 0)].

Ltac among := repeat (first [left; reflexivity|right]).
Lemma tidy_types_closed : forall b t t', inside (ex b) t t' -> In t tidy_types -> In t' tidy_types.
Proof.
  intros b t t' H. induction H; intros Hi; auto; try apply IHinside.
  all: unfold tidy_types in Hi; cbn [In] in Hi;
    repeat (destruct Hi as [Hi|Hi]; [first [discriminate Hi|inversion Hi; subst; clear Hi]|]);
    try (exfalso; exact Hi).
  all: try (unfold tidy_types; among; fail).
  all: try (cbn in H; repeat (destruct H as [H|H]; [subst; unfold tidy_types; among; fail|]);
            exfalso; exact H).
  all: do 14 (destruct d as [|d]; [first [discriminate H0|unfold tidy_types; among; fail]|]); discriminate H0.
Qed.

Lemma ex_tidy : forall b t, In t tidy_types -> tidy (ex b) t.
Proof.
  intros b t Hi t' Hin. apply tidy_types_closed in Hin; auto. clear t Hi.
  unfold tidy_types in Hin. cbn [In] in Hin.
  repeat (destruct Hin as [Hin|Hin]; [subst; cbn; auto|]); try (exfalso; exact Hin).
  all: unfold moves_out, starts_empty; cbn.
  all: try (repeat split; auto; constructor; fail).
  all: try (intros d Hd; inversion Hd; reflexivity).
Qed.

(** What a run returned and logged. *)
Definition log_of {A S} (r : res (A * bool * (S * list event))) : option (list event) :=
  match r with Ok (_, _, (_, log)) => Some log | Err _ => None end.
Definition abandoned (log : list event) : list (ty * val) :=
  flat_map (fun e => match e with EvAbandon t x => [(t, x)] | _ => [] end) log.

(** Temporaries are abandoned, but own nothing. *)
Example C43_case : forall b, let E := ex b in
  tidy E t_shapes /\ tidy E t_misc /\
  (exists v n, deserialize E 12 t_shapes (enc_root E t_shapes v_shapes) 0 = Ok (v, n)) /\
  (exists v n, deserialize E 12 t_misc (enc_root E t_misc v_misc) 0 = Ok (v, n)) /\
  option_map abandoned (log_of (interp (logger unpacker)
      (with_root E MUnpacking 12 (TOptional OINT) (VOpt None)) false
      ({| u_buf := enc_root E (TOptional OINT) (VOpt (Some (w4 3))); u_cur := 0; u_used := 0 |}, [])))
    = Some [(OINT, w4 3)].
Proof.
  intros b E. subst E.
  split; [apply ex_tidy; unfold tidy_types; among|].
  split; [apply ex_tidy; unfold tidy_types; among|].
  split; [|split].
  - destruct (deserialize_ok (ex b) (ex_wf b any I) 12 t_shapes v_shapes) as (x & _ & H);
      [apply v_shapes_ty|discriminate|vm_compute; lia|].
    specialize (H [] []). cbn [app length] in H. rewrite app_nil_r in H. eauto.
  - destruct (deserialize_ok (ex b) (ex_wf b any I) 12 t_misc v_misc) as (x & _ & H);
      [apply v_misc_ty|destruct b; vm_compute; discriminate|vm_compute; lia|].
    specialize (H [] []). cbn [app length] in H. rewrite app_nil_r in H. eauto.
  - destruct b; vm_compute; reflexivity.
Qed.

(** [loses E f t v ls]: serializing [v] and deserializing the bytes loses the
    temporaries [ls], together with the storage they own. *)
Definition loses (E : env) (f : nat) (t : ty) (v : val) (ls : list event) : Prop :=
  exists s o v' n log,
    serialize E f t v None = Ok s /\ recon E t = Some o /\
    deserialize E f t (s_bytes s) 0 = Ok (v', n) /\
    log_of (interp (logger unpacker) (with_root E MUnpacking f t o) false
      ({| u_buf := s_bytes s; u_cur := 0; u_used := 0 |}, [])) = Some log /\
    lost E log = ls.

Definition s_twenty : val := VStr 20 (repeat x61 20).
Definition t_dict : ty := TAssoc (AOrd false true) (TPair TString OINT).

Lemma loses_intro : forall E f t v ls o, wf_env any E -> has_ty E t v -> recon E t = Some o ->
  (depth v < f)%nat -> len (enc_root E t v) < two64 ->
  option_map (lost E) (log_of (interp (logger unpacker) (with_root E MUnpacking f t o) false
      ({| u_buf := enc_root E t v; u_cur := 0; u_used := 0 |}, []))) = Some ls ->
  loses E f t v ls.
Proof.
  intros E f t v ls o wf Ht Hr Hd Hl Hlog.
  destruct (deserialize_ok E wf f t v Ht) as (x & _ & H); auto.
  { unfold constructible. congruence. }
  specialize (H [] []). cbn [app length] in H. rewrite app_nil_r in H.
  destruct (log_of _) as [log|] eqn:El; [|discriminate]. inversion Hlog.
  exists {| s_managed := true; s_size := len (enc_root E t v); s_bytes := enc_root E t v;
            s_mem := enc_root E t v; s_calls := []; s_obj := v |}, o, x, (len (enc_root E t v)), log.
  split; [now apply serialize_managed|]. repeat (split; auto).
Qed.

(** The copy of a long string made for an optional, the keys of a map, and the
    element that a list copies are lost. *)
Theorem C43_refuted : forall b,
  loses (ex b) 12 (TOptional TString) (VOpt (Some s_twenty)) [EvAbandon TString s_twenty] /\
  loses (ex b) 12 t_dict (VSeq [VSeq [s_twenty; w4 7]]) [EvAbandon TString s_twenty] /\
  loses (eager_env b) 12 (TList false (TClass 0)) (VSeq []) [EvAbandon (TClass 0) (VObj 0 [[VVec 10 []]])].
Proof.
  intros b. split; [|split].
  - apply loses_intro with (o := VOpt None); [now apply ex_wf|destruct b; ht|reflexivity|vm_compute; lia|
      destruct b; vm_compute; reflexivity|destruct b; vm_compute; reflexivity].
  - apply loses_intro with (o := VSeq []); [now apply ex_wf|destruct b; ht|reflexivity|vm_compute; lia|
      destruct b; vm_compute; reflexivity|destruct b; vm_compute; reflexivity].
  - apply loses_intro with (o := VSeq []); [apply eager_wf|destruct b; ht|reflexivity|vm_compute; lia|
      destruct b; vm_compute; reflexivity|destruct b; vm_compute; reflexivity].
Qed.
Print Assumptions C43_refuted.
