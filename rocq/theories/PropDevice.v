(** C51: views in memory that the host cannot access. *)
From Coq Require Import List NArith Arith Bool Lia.
From Coq.Strings Require Import Byte.
From Verif Require Import Base Syntax Prog Serializers Traverse Spec ProgFacts EnvFacts ValFacts
  Fails RegistryFacts Pack Unpack Api ApiFacts Examples Views ViewSpec ViewFacts ViewRound PropViews
  CrsFacts Device DeviceFacts.
Import ListNotations.
Local Open Scope N_scope.

(** Full statement: the conclusion for elements of any type, see [C51_refuted]. *)
Theorem C51_device_view_partial : forall E span vt f d v, wf_env any E -> wf_span span -> (2 < f)%nat ->
  view_ok E span vt f v -> (vt_const vt = true -> readable v) -> vt_managed vt = true ->
  is_virtual E (vt_elem vt) = false -> dflt E (vt_elem vt) = Some d ->
  has_ty E (vt_elem vt) d -> (depth d < f)%nat -> fixed_size E (vt_elem vt) ->
  exists b, (stream_device_view E span f vt v = Ok (b, v) /\
     (len b < two64 -> serialize_device_view E span f vt v = Ok (b, v))) /\
    forall w, exists x, view_copy (vt_kind vt) v x /\ forall before after,
      deserialize_device_view E span f vt (before ++ b ++ after) (length before) w = Ok (x, len b).
Proof.
  intros E span vt f d v wf Hsp Hf Hok Hr Hm Hv Hd Ht Hdd Hfix.
  destruct (device_round E wf span Hsp f Hf vt Hm Hv d Hd Ht Hdd v Hok Hr) as (b & n & Hs & _ & H1 & _ & H2).
  exists b. split; [split; [exact Hs|]|auto]. intros Hl. now apply H1.
Qed.
Print Assumptions C51_device_view_partial.

(** Whatever the elements are, the call either reserves enough space or writes past the
    end of its buffer: the space is that of default elements. *)
Theorem C51_device_size : forall E span vt f d v, wf_env any E -> wf_span span -> (2 < f)%nat ->
  view_ok E span vt f v -> (vt_const vt = true -> readable v) -> vt_managed vt = true ->
  is_virtual E (vt_elem vt) = false -> dflt E (vt_elem vt) = Some d ->
  has_ty E (vt_elem vt) d -> (depth d < f)%nat ->
  exists b n, stream_device_view E span f vt v = Ok (b, v) /\
    interp sizer (root_device_view E span f MSizing vt v) false 0 = Ok (v, false, n) /\
    (n < len b -> len b < two64 -> serialize_device_view E span f vt v = Err UB) /\
    forall w, exists x, view_copy (vt_kind vt) v x /\ forall before after,
      deserialize_device_view E span f vt (before ++ b ++ after) (length before) w = Ok (x, len b).
Proof.
  intros E span vt f d v wf Hsp Hf Hok Hr Hm Hv Hd Ht Hdd.
  destruct (device_round E wf span Hsp f Hf vt Hm Hv d Hd Ht Hdd v Hok Hr) as (b & n & Hs & H0 & _ & H1 & H2).
  exists b, n. auto.
Qed.
Print Assumptions C51_device_size.

Example C51_case : forall b c, exists out x n,
  serialize_device_view (ex b) ex_span 3 (ex_vt INT 2 LStride c) ex_strided = Ok (out, ex_strided) /\
  deserialize_device_view (ex b) ex_span 3 (ex_vt INT 2 LStride c) out 0 no_view = Ok (x, n) /\
  v_ext x = [2; 3] /\ v_str x = [1; 4] /\ at_ x [1; 2] = Some (i_ 19).
Proof.
  destruct b, c; do 3 eexists; (split; [vm_compute; reflexivity|]); (split; [vm_compute; reflexivity|]);
  vm_compute; auto.
Qed.
Example C51_case_ok : forall b, wf_env any (ex b) /\ wf_span ex_span /\
  view_ok (ex b) ex_span (ex_vt INT 2 LStride false) 3 ex_strided /\
  is_virtual (ex b) INT = false /\ dflt (ex b) INT = Some (i_ 0) /\ has_ty (ex b) INT (i_ 0) /\
  fixed_size (ex b) INT /\ readable ex_strided.
Proof.
  intros b. split; [now apply ex_wf|]. split; [apply ex_span_wf|]. split; [apply ex_strided_ok|].
  split; [reflexivity|]. split; [reflexivity|]. split; [ht|]. split; [apply prim_fixed|now left].
Qed.

(** Strings in such memory: the host mirror is empty while sizing, so that the packer
    writes past the end of its buffer.  On the host the same view is serialized. *)
Theorem C51_refuted : exists E span vt f v b, wf_env any E /\ wf_span span /\ (2 < f)%nat /\
  view_ok E span vt f v /\ vt_const vt = false /\ vt_managed vt = true /\
  is_virtual E (vt_elem vt) = false /\
  serialize_view E span f vt v = Ok (b, v) /\ serialize_device_view E span f vt v = Err UB.
Proof.
  exists (ex true), ex_span, (ex_vt TString 1 LRight false), 3%nat, (ex_strings [[x61; x62]; [x63]]).
  eexists. split; [now apply ex_wf|]. split; [apply ex_span_wf|]. split; [lia|]. split.
  { vok. intros _. split; [|split].
    - intros idx H. destruct (bounds1 _ _ H) as (i & -> & Hi).
      change (len [[x61; x62]; [x63]]) with 2 in Hi.
      cbn [offset ex_strings v_str]. match goal with |- _ < ?x => let y := eval vm_compute in x in change x with y end. lia.
    - intros _. vm_compute. discriminate.
    - cbn [ex_strings v_data map str_]. repeat (constructor; [split; [ht|cbn; lia]|]). constructor. }
  split; [reflexivity|]. split; [reflexivity|]. split; [reflexivity|].
  split; vm_compute; reflexivity.
Qed.
Print Assumptions C51_refuted.

(** Views of dynamic rank, for byte-copyable elements.  [junk] is what the memory of the
    mirror, which is not initialized, holds: it does not matter. *)
Theorem C51_device_dyn_rank_view : forall E span vt f d v junk, wf_env any E -> wf_span span ->
  span [] [] = 1 -> (2 < f)%nat -> dyn_ok E span vt f v ->
  is_virtual E (vt_elem vt) = false -> bytecopy E (vt_elem vt) = true ->
  dflt E (vt_elem vt) = Some d -> (depth d < f)%nat ->
  (forall k, has_ty E (vt_elem vt) (junk k)) ->
  exists b, (stream_device_dyn_view E span junk f vt v = Ok (b, v) /\
     (len b < two64 -> serialize_device_dyn_view E span junk f vt v = Ok (b, v))) /\
    forall w, exists x, (v_live v = true -> view_copy (vt_kind vt) v x) /\ (v = no_view -> x = no_view) /\
      forall before after,
      deserialize_device_dyn_view E span junk f vt (before ++ b ++ after) (length before) w = Ok (x, len b).
Proof. intros. now apply device_dyn_round with (d := d). Qed.
Print Assumptions C51_device_dyn_rank_view.

Example C51_dyn_case : forall b, dyn_ok (ex b) ex_span (ex_vt INT 0 LStride false) 3 ex_strided /\
  (forall k, has_ty (ex b) INT (i_ (N.of_nat k))) /\ bytecopy (ex b) INT = true /\
  exists out x n,
  serialize_device_dyn_view (ex b) ex_span (fun k => i_ (N.of_nat k)) 3 (ex_vt INT 0 LStride false) ex_strided
    = Ok (out, ex_strided) /\
  deserialize_device_dyn_view (ex b) ex_span (fun k => i_ (N.of_nat k)) 3 (ex_vt INT 0 LStride false) out 0 no_view
    = Ok (x, n) /\
  v_ext x = [2; 3] /\ v_str x = [1; 4] /\ at_ x [1; 2] = Some (i_ 19).
Proof.
  intros b. split.
  { right. split; [reflexivity|]. split; [exact (ex_strided_ok b)|]. split; [cbn; lia|].
    repeat constructor. }
  split; [intros k; constructor; reflexivity|]. split; [reflexivity|].
  destruct b; do 3 eexists; (split; [vm_compute; reflexivity|]); (split; [vm_compute; reflexivity|]);
  vm_compute; auto.
Qed.
