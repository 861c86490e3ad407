(** C78: what was read takes no more bytes when it is written again, however damaged the data. *)
From Coq Require Import List NArith Arith Bool Lia.
From Coq.Strings Require Import Byte.
From Verif Require Import Base Syntax Prog Serializers Traverse Api Spec ProgFacts ValFacts ApiFacts Inflate
  PropMemory Examples.
From Verif Require Import Robust PropRobust.
From Verif Require TornSpec TornCut PropTorn.
Import ListNotations.
Local Open Scope N_scope.

(** The size of [x] is reported as [k], and writing it takes [k] bytes. *)
Definition rewritten (E : env) (t : ty) (x : val) (k : N) : Prop :=
  exists f0, forall f, (f0 <= f)%nat -> get_size E f t x = Ok (x, k) /\
    (exists s, serialize E f t x None = Ok s /\ s_size s = k /\ len (s_bytes s) = k) /\
    exists o, serialize_to_stream E f t x (out_stream []) = Ok (x, o) /\ len (o_data o) = k.

(** No polymorphic class is copied bytewise (IsByteCopyable). *)
Definition no_byte_objects (E : env) : Prop :=
  forall c, is_virtual E (TClass c) = true -> bytecopy E (TClass c) = false.

Lemma rewrite_len : forall E t x, wf_env any E -> has_ty E t x -> len (enc_root E t x) < two64 ->
  rewritten E t x (len (enc_root E t x)).
Proof.
  intros E t x wf Ht Hl. exists (S (depth x)). intros f Hf.
  split; [apply size_len; auto; lia|]. split.
  - eexists. split; [apply serialize_managed; auto; lia|]. auto.
  - eexists. split; [exact (to_stream_ok E wf f t x [] 0 Ht ltac:(lia))|]. reflexivity.
Qed.

Lemma root_cost : forall E, wf_env any E -> no_byte_objects E -> forall f t w x e d vf r,
  interp (reader e) (with_root E MUnpacking f t w) false d = Ok (x, vf, r) ->
  has_ty E t x -> target (fun _ _ => True) E t x w -> no_variants x = true ->
  len (enc_root E t x) + len r <= len d.
Proof.
  intros E wf Hnb f t w x e d vf r H Ht Hg Hn. apply reader_local in H. destruct H as (i & -> & R).
  destruct (s_root any E wf Hnb f t w _ _ _ R) as (_ & H). specialize (H Ht Hg Hn).
  unfold len in *. rewrite app_length. lia.
Qed.

(** Any bytes, read into an existing object.
    Missing: objects that hold variants ([C78_refuted]); polymorphic classes that are copied
    bytewise. *)
Theorem C78_in_place_partial : forall E, wf_env any E -> no_byte_objects E ->
  forall f t w x, has_ty E t x -> target (fun _ _ => True) E t x w -> no_variants x = true ->
  (forall mem off n, (off <= length mem)%nat -> len mem < two64 ->
     deserialize_in_place E f t mem off w = Ok (x, n) ->
     n <= len mem /\ exists k, k <= n /\ rewritten E t x k) /\
  (forall d i, len d < two64 ->
     deserialize_in_place_from_stream E f t (in_stream d) w = Ok (x, i) ->
     exists k, k + len (i_data i) <= len d /\ rewritten E t x k).
Proof.
  intros E wf Hnb f t w x Ht Hg Hn. split.
  - intros mem off n Ho Hm H. unfold deserialize_in_place, unpack_memory in H.
    pose proof (unpacker_reader _ (with_root E MUnpacking f t w) false mem off 0 Ho) as U.
    destruct (interp (reader UB) (with_root E MUnpacking f t w) false (skipn off mem)) as [[[y vf] r]|e] eqn:Ei;
      change (wrap64 0) with 0 in U.
    + destruct U as (cur & -> & Hc & U). rewrite U in H. cbn [u_cur] in H. injection H as -> <-.
      pose proof (root_cost E wf Hnb _ _ _ _ _ _ _ _ Ei Ht Hg Hn) as Hk.
      unfold len in *. rewrite !skipn_length in Hk. split; [lia|].
      exists (len (enc_root E t x)). unfold len. split; [lia|]. apply rewrite_len; auto. unfold len. lia.
    + rewrite U in H. discriminate.
  - intros d i Hd H. unfold deserialize_in_place_from_stream, in_stream in H.
    pose proof (stream_reader _ (with_root E MUnpacking f t w) false d 0) as U.
    destruct (interp (reader RtErr) (with_root E MUnpacking f t w) false d) as [[[y vf] r]|e] eqn:Ei;
      change (wrap64 0) with 0 in U.
    + destruct U as (U & _). rewrite U in H. injection H as -> <-. cbn [i_data].
      pose proof (root_cost E wf Hnb _ _ _ _ _ _ _ _ Ei Ht Hg Hn) as Hk.
      exists (len (enc_root E t x)). split; [exact Hk|]. apply rewrite_len; auto. lia.
    + rewrite U in H. discriminate.
Qed.
Print Assumptions C78_in_place_partial.

(** Any bytes, read into an object that the call constructs. *)
Theorem C78_new_object_partial : forall E, wf_env any E -> no_byte_objects E ->
  forall f t x, has_ty E t x -> no_variants x = true ->
  (forall mem off n, (off <= length mem)%nat -> len mem < two64 ->
     deserialize E f t mem off = Ok (x, n) ->
     n <= len mem /\ exists k, k <= n /\ rewritten E t x k) /\
  (forall d i, len d < two64 ->
     deserialize_from_stream E f t (in_stream d) = Ok (x, i) ->
     exists k, k + len (i_data i) <= len d /\ rewritten E t x k).
Proof.
  intros E wf Hnb f t x Ht Hn. unfold deserialize, deserialize_from_stream.
  destruct (recon E t) as [w|] eqn:Er; [|split; intros; discriminate].
  pose proof (Inflate.recon_target any E wf t x w Ht Er) as Hg.
  destruct (C78_in_place_partial E wf Hnb f t w x Ht Hg Hn) as (H1 & H2). split; auto.
Qed.
Print Assumptions C78_new_object_partial.

(** Any object of which no part is only added to or polymorphic may be read into. *)
Theorem C78_any_target_partial : forall E, wf_env any E -> no_byte_objects E -> forall T, readable E T ->
  (forall t, T t -> TornSpec.replaced E t) ->
  forall f t w x, T t -> valid E t w -> has_ty E t x -> no_variants x = true -> forall d i, len d < two64 ->
  deserialize_in_place_from_stream E f t (in_stream d) w = Ok (x, i) ->
  exists k, k + len (i_data i) <= len d /\ rewritten E t x k.
Proof.
  intros E wf Hnb T rd Hr f t w x Ht Hw Hx Hn.
  exact (proj2 (C78_in_place_partial E wf Hnb f t w x Hx
    (TornCut.valid_target E wf T rd Hr t x w Ht Hx Hw) Hn)).
Qed.
Print Assumptions C78_any_target_partial.

(** ** Cases *)
Lemma pl_no_byte_objects : no_byte_objects pl.
Proof.
  intros c. do 14 (destruct c as [|c]; [cbn; auto; discriminate|]). cbn. discriminate.
Qed.

(** A map with two keys; a damaged byte makes the keys equal, and one entry is dropped. *)
Definition two_keys : val := VSeq [VSeq [w4 1; VStr 15 [x61]]; VSeq [w4 2; VStr 15 [x62]]].
Definition bytes_of (t : ty) (v : val) : bytes :=
  match serialize_to_stream pl 20 t v (out_stream []) with Ok (_, o) => o_data o | Err _ => [] end.
Example C78_case_map :
  let t := TAssoc (AOrd false true) (TPair OINT TString) in
  let d := upd (bytes_of t two_keys) 105 x01 in
  let x := VSeq [VSeq [w4 1; VStr 15 [x61]]] in
  has_ty pl t x /\ no_variants x = true /\
  deserialize_from_stream pl 20 t (in_stream d) = Ok (x, {| i_data := []; i_nbytes := 178 |}) /\
  deserialize pl 20 t d 0 = Ok (x, 178) /\ get_size pl 20 t x = Ok (x, 105) /\
  exists k, k + 0 <= 178 /\ rewritten pl t x k.
Proof.
  cbv zeta.
  assert (Ht : has_ty pl (TAssoc (AOrd false true) (TPair OINT TString)) (VSeq [VSeq [w4 1; VStr 15 [x61]]]))
    by (unfold pl; ht).
  split; [exact Ht|]. split; [reflexivity|]. split; [vm_compute; reflexivity|].
  split; [vm_compute; reflexivity|]. split; [vm_compute; reflexivity|].
  eapply (proj2 (C78_new_object_partial pl pl_wf pl_no_byte_objects 20 _ _ Ht eq_refl)
    (upd (bytes_of (TAssoc (AOrd false true) (TPair OINT TString)) two_keys) 105 x01)
    {| i_data := []; i_nbytes := 178 |}); vm_compute; reflexivity.
Qed.

(** A pointer to a polymorphic object, of whose name a character is damaged: as many bytes. *)
Example C78_case_shape :
  let t := TUnique (TClass 1) in
  let d := upd (circle_bytes t) 69 xff in
  let x := VOpt (Some (VObj 2 [[w4 3; VStr 15 [xff; x62; x63]]; [w8 5; VSeq [VSeq [w4 1; VStr 15 [x61]]]]])) in
  has_ty pl t x /\ no_variants x = true /\
  deserialize_from_stream pl 20 t (in_stream d) = Ok (x, {| i_data := []; i_nbytes := 265 |}) /\
  get_size pl 20 t x = Ok (x, 265).
Proof.
  cbv zeta. split; [unfold pl; ht|]. split; [reflexivity|]. split; vm_compute; reflexivity.
Qed.

(** An object of a class with a vector and a pointer that is read over. *)
Example C78_case_target :
  let d := upd PropTorn.node_bytes 8 xff in
  exists x, deserialize_in_place_from_stream pl 20 (TClass 0) (in_stream d) (VObj 0 [PropTorn.n_old])
            = Ok (x, {| i_data := []; i_nbytes := 188 |}) /\
    x <> VObj 0 [PropTorn.n_src] /\ has_ty pl (TClass 0) x /\ no_variants x = true /\
    exists k, k + 0 <= 188 /\ rewritten pl (TClass 0) x k.
Proof.
  cbv zeta. eexists. split; [vm_compute; reflexivity|]. split; [discriminate|].
  match goal with |- ?A /\ _ => assert (Ht : A) by (unfold pl; ht) end.
  split; [exact Ht|]. split; [reflexivity|].
  eapply (C78_any_target_partial pl pl_wf pl_no_byte_objects _ PropTorn.node_readable PropTorn.node_replaced 20
    (TClass 0) (VObj 0 [PropTorn.n_old]) _ (or_introl eq_refl) PropTorn.n_old_valid Ht eq_refl
    (upd PropTorn.node_bytes 8 xff) {| i_data := []; i_nbytes := 188 |}); vm_compute; reflexivity.
Qed.

(** False with variants: the index of no alternative is read, 32 bytes, and leaves the variant with
    the alternative it was constructed with, which takes 48 bytes to write. *)
Theorem C78_refuted :
  exists E t d f x i o, wf_env any E /\ no_byte_objects E /\ constructible E t /\ has_ty E t x /\
    deserialize_from_stream E f t (in_stream d) = Ok (x, i) /\
    serialize_to_stream E f t x (out_stream []) = Ok (x, o) /\ len d < len (o_data o).
Proof.
  exists pl, (TVariant [OINT; TString]),
    (le 4 (tix pl (TVariant [OINT; TString])) ++ le 4 (tix pl (TPrim 0 8)) ++ le 8 7 ++ le 8 8 ++
     le 8 (sizeof pl (TVariant [OINT; TString]))), 20%nat, (VVar 0 (w4 0)).
  eexists _, _. split; [apply pl_wf|]. split; [apply pl_no_byte_objects|]. split; [discriminate|].
  split; [unfold pl; ht|]. split; [vm_compute; reflexivity|]. split; [vm_compute; reflexivity|].
  vm_compute. reflexivity.
Qed.
Print Assumptions C78_refuted.

(** Memory is another matter: 52 bytes make a vector without elements that has reserved room for
    2^60 of them.  Written again it takes 52 bytes. *)
Example C78_capacity :
  let t := TVector OINT in
  let d := upd (bytes_of t (VVec 0 [])) 15 x10 in
  deserialize_from_stream pl 20 t (in_stream d) = Ok (VVec (2 ^ 60) [], {| i_data := []; i_nbytes := 52 |}).
Proof. cbv zeta. vm_compute. reflexivity. Qed.
