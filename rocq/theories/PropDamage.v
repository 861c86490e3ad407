(** C72: what reading a view does with bytes that were not written for it. *)
From Coq Require Import List NArith Arith Bool Lia.
From Coq.Strings Require Import Byte.
From Verif Require Import Base Syntax Prog Serializers Traverse Spec ProgFacts EnvFacts
  RegistryFacts Unpack Api ApiFacts Examples Robust RobustFacts PropRobust Views ViewSpec ViewFacts
  ViewRound ObjectIO PropViews PropMemory Damage.
Import ListNotations.
Local Open Scope N_scope.

(** How a call that reads a view of type [vt] from the bytes [d] may end. *)
Definition safe_view (E : env) (T : ty -> Prop) (span : list N -> list N -> N) (vt : vty) (d : bytes)
  (r : res (view * istream)) : Prop :=
  match r with
  | Ok (x, i) => usable E vt x /\ exists used, d = used ++ i_data i
  | Err e => caught (flagged T \/ damaged E span vt d) e
  end.

Lemma read_any_view : forall E, wf_env any E -> forall T, Robust.readable E T ->
  forall span vt w d, wf_span span -> T (vt_elem vt) -> dflt E (vt_elem vt) <> None ->
  (vt_rank vt <= 8)%nat -> vt_managed vt = true \/ asserts E = false ->
  exists f0 r, (forall f, (f0 <= f)%nat ->
      object_from_stream (root_view E span f MUnpacking vt w) (in_stream d) = r) /\
    safe_view E T span vt d r.
Proof.
  intros E wf T rd span vt w d Hsp Ht Hd Hr Hman.
  destruct (dflt E (vt_elem vt)) as [d0|] eqn:Hdf; [clear Hd|congruence].
  destruct (run_root_view E wf T rd span Hsp (flagged T \/ damaged E span vt d)
    (fun t H1 H2 => or_introl (ex_intro _ t (conj H1 H2))) vt d0 w d Hman Hr Ht Hdf (fun H => or_intror H))
    as (f0 & r & Hrun & Hq).
  destruct r as [[[x vf'] r]|e].
  - exists f0, (Ok (x, {| i_data := r; i_nbytes := wrap64 (0 + (len d - len r)) |})). split.
    + intros f Hf. unfold object_from_stream, in_stream.
      pose proof (stream_reader _ (root_view E span f MUnpacking vt w) false d 0) as Hs.
      rewrite (Hrun f Hf) in Hs. destruct Hs as (Hs & _).
      change (wrap64 0) with 0 in Hs. rewrite Hs. reflexivity.
    + cbn [safe_view i_data]. split; auto.
      specialize (Hrun f0 (Nat.le_refl _)). apply reader_local in Hrun.
      destruct Hrun as (i & -> & _). eauto.
  - exists f0, (Err e). split; auto.
    intros f Hf. unfold object_from_stream, in_stream.
    pose proof (stream_reader _ (root_view E span f MUnpacking vt w) false d 0) as Hs.
    rewrite (Hrun f Hf) in Hs. change (wrap64 0) with 0 in Hs. rewrite Hs. reflexivity.
Qed.

(** Full statement: never undefined behaviour.  This is false of [damaged] data, see
    [C72_undefined], and of the flags inside of elements, see C56.  Everything else ends in a
    view that can be used, in an exception or in a failed assertion. *)
Theorem C72_arbitrary_bytes_partial : forall E, wf_env any E -> forall T, Robust.readable E T ->
  forall span vt w d, wf_span span -> T (vt_elem vt) -> dflt E (vt_elem vt) <> None ->
  (vt_rank vt <= 8)%nat -> vt_managed vt = true \/ asserts E = false ->
  exists f0 r, (forall f, (f0 <= f)%nat ->
      object_from_stream (root_view E span f MUnpacking vt w) (in_stream d) = r) /\
    safe_view E T span vt d r.
Proof. exact read_any_view. Qed.
Print Assumptions C72_arbitrary_bytes_partial.

(** Damaged data is undefined behaviour whatever follows: nothing is checked before the
    elements are read. *)
Theorem C72_undefined : forall E, wf_env any E -> forall span vt w f d, (2 < f)%nat ->
  dflt E (vt_elem vt) <> None -> vt_managed vt = true \/ asserts E = false ->
  damaged E span vt d ->
  object_from_stream (root_view E span f MUnpacking vt w) (in_stream d) = Err UB.
Proof.
  intros E wf span vt w f d Hf Hd Hman Hdam.
  destruct (dflt E (vt_elem vt)) as [d0|] eqn:Hdf; [clear Hd|congruence].
  unfold object_from_stream, in_stream.
  pose proof (stream_reader _ (root_view E span f MUnpacking vt w) false d 0) as Hs.
  rewrite (root_undefined E wf span f Hf vt d0 w d Hman Hdf Hdam) in Hs.
  change (wrap64 0) with 0 in Hs. rewrite Hs. reflexivity.
Qed.
Print Assumptions C72_undefined.

(** In particular, a greater number in the place of the number of elements of any allocated
    contiguous view. *)
Theorem C72_count : forall E, wf_env any E -> forall span vt f v b, wf_span span -> (2 < f)%nat ->
  view_ok E span vt f v -> vt_const vt = false -> vt_managed vt = true ->
  is_virtual E (vt_elem vt) = false -> dflt E (vt_elem vt) <> None ->
  v_live v = true -> contiguous span (vt_kind vt) v = true ->
  stream_view E span f vt v = Ok (b, v) ->
  exists before after, b = before ++ wsize E (prod (v_ext v)) ++ after /\
    forall n w rest, prod (v_ext v) < n -> n < two64 ->
      object_from_stream (root_view E span f MUnpacking vt w)
        (in_stream (before ++ wsize E n ++ after ++ rest)) = Err UB.
Proof.
  intros E wf span vt f v b Hsp Hf Hok Hc Hman Hv Hd Hl Hcon Hb.
  assert (Hw : b = wroot E (vt_name vt) (wview E span vt v)).
  { unfold stream_view, root_view in Hb. rewrite Hc in Hb.
    destruct (both_ways _ 0 (root_object E MSizing (vt_name vt) (ser_view E span MSizing (with_ E MSizing f) vt v))
      (root_object E MPacking (vt_name vt) (ser_view E span MPacking (with_ E MPacking f) vt v)) v v
      (wroot E (vt_name vt) (wview E span vt v)) (wroot E (vt_name vt) (wview E span vt v))) as (H & _); auto.
    - apply e_root; [now right|]. eapply e_view; eauto.
    - apply e_root; [now left|]. eapply e_view; eauto.
    - rewrite H in Hb. congruence. }
  pose (tl := if chk E then le 8 (wrap64 (sizeof E (vt_name vt) * N.of_nat 1)) else le 8 (wrap64 (sizeof E (vt_name vt)))).
  exists (le 4 (tix E (vt_name vt)) ++ wlabel E (v_label v) ++ wint E (N.of_nat (length (v_ext v))) ++
    wlayout E vt (layout_of v)).
  exists (wbool E true ++ wbool E true ++ wbody E span vt v ++ tl). split.
  - rewrite Hw. unfold wroot, framed, wview, tl. rewrite Hl, Hcon.
    destruct (chk E); now rewrite <- !app_assoc.
  - intros n w rest Hn Hn64. apply C72_undefined; auto.
    pose proof (layout_of_64 _ _ _ _ _ Hok) as (L1 & L2 & L3 & L4).
    pose proof Hok as Hok'. destruct Hok'.
    pose (l := (fst (layout_of v), match vt_kind vt with LStride => snd (layout_of v) | _ => repeat 0 8 end)).
    exists (v_label v), (N.of_nat (length (v_ext v))), l, n, x01,
      (wbool E true ++ (wbody E span vt v ++ tl) ++ rest).
    split; auto. split; [rewrite vo_rank; lia|]. split; [|split; auto; split].
    + unfold l. split; auto. cbn [fst snd].
      destruct (vt_kind vt); repeat split; auto; intros _; repeat constructor.
    + unfold start. replace (wlayout E vt l) with (wlayout E vt (layout_of v)).
      * change (wbool E true) with (flag E x01). now rewrite <- !app_assoc.
      * unfold wlayout, l. destruct (vt_kind vt); reflexivity.
    + right. exists x01, ((wbody E span vt v ++ tl) ++ rest). split; [reflexivity|]. right.
      repeat split. enough (Hr : room span vt l = prod (v_ext v)) by now rewrite Hr.
      unfold room, l, layout_of. cbn [fst snd].
      rewrite (pad8_firstn no_dim) by auto.
      destruct (vt_kind vt) eqn:Ek; auto. cbn [snd]. rewrite (pad8_firstn 0) by auto.
      unfold contiguous in Hcon. now apply N.eqb_eq.
Qed.
Print Assumptions C72_count.

(** ** Cases *)
Definition strings_vt : vty := ex_vt TString 1 LRight false.
Definition two_strings : view := ex_strings [[x61; x62]; [x63]].

Lemma two_strings_ok : view_ok pl ex_span strings_vt 3 two_strings.
Proof.
  vok. intros _. split; [|split].
  - intros idx H. destruct (bounds1 _ _ H) as (i & -> & Hi).
    cbn [offset two_strings ex_strings v_str].
    match goal with |- _ < ?x => let y := eval vm_compute in x in change x with y end.
    match type of Hi with _ < ?x => let y := eval vm_compute in x in change x with y in Hi end. lia.
  - intros _. vm_compute. discriminate.
  - cbn [two_strings ex_strings v_data map]. repeat (constructor; [split; [ht|cbn; lia]|]). constructor.
Qed.

(** The hypotheses of all three theorems hold of a view of two strings. *)
Example C72_hypotheses : wf_env any pl /\ Robust.readable pl in_plain /\ wf_span ex_span /\
  in_plain (vt_elem strings_vt) /\ dflt pl (vt_elem strings_vt) <> None /\
  is_virtual pl (vt_elem strings_vt) = false /\ view_ok pl ex_span strings_vt 3 two_strings /\
  v_live two_strings = true /\ contiguous ex_span LRight two_strings = true /\
  exists b, stream_view pl ex_span 3 strings_vt two_strings = Ok (b, two_strings).
Proof.
  split; [apply pl_wf|]. split; [apply plain_readable|]. split; [apply ex_span_wf|].
  split; [unfold in_plain; ins|]. split; [discriminate|]. split; [reflexivity|].
  split; [apply two_strings_ok|]. split; [reflexivity|]. split; [reflexivity|].
  eexists. vm_compute. reflexivity.
Qed.

(** Reading its data back gives a usable view; the same data cut short is reported; with one
    byte changed (the first byte of the number of elements, 2, to 3) it is undefined
    behaviour although no bool of the elements is concerned. *)
Definition changed (i : nat) (x : byte) (b : bytes) : bytes := firstn i b ++ [x] ++ skipn (S i) b.

Example C72_case : exists b x i,
  stream_view pl ex_span 4 strings_vt two_strings = Ok (b, two_strings) /\
  object_from_stream (root_view pl ex_span 4 MUnpacking strings_vt no_view) (in_stream b) = Ok (x, i) /\
  v_ext x = [2] /\ i_data i = [] /\
  object_from_stream (root_view pl ex_span 4 MUnpacking strings_vt no_view)
    (in_stream (firstn (length b - 1) b)) = Err RtErr.
Proof.
  do 3 eexists. split; [vm_compute; reflexivity|]. split; [vm_compute; reflexivity|].
  vm_compute. auto.
Qed.

Definition count_at (E : env) : nat :=
  length (start E strings_vt (v_label two_strings) 1 (layout_of two_strings) 2) -
  length (wsize E 2) + (if chk E then 4 else 0).

Theorem C72_refuted : exists E T span vt v b f, wf_env any E /\ Robust.readable E T /\ wf_span span /\
  T (vt_elem vt) /\ by_flag (vt_elem vt) = false /\ view_ok E span vt f v /\
  stream_view E span f vt v = Ok (b, v) /\ exists i x, (i < length b)%nat /\
  object_from_stream (root_view E span f MUnpacking vt no_view) (in_stream (changed i x b)) = Err UB.
Proof.
  exists pl, in_plain, ex_span, strings_vt, two_strings. eexists. exists 3%nat.
  split; [apply pl_wf|]. split; [apply plain_readable|]. split; [apply ex_span_wf|].
  split; [unfold in_plain; ins|]. split; [reflexivity|]. split; [apply two_strings_ok|].
  split; [vm_compute; reflexivity|]. exists (count_at pl), x03.
  split; [apply Nat.ltb_lt; vm_compute; reflexivity|]. vm_compute. reflexivity.
Qed.
Print Assumptions C72_refuted.
