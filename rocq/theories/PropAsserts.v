(** C58: a build without assertions does what one with assertions does, until an assertion
    fails. *)
From Coq Require Import List NArith Arith Bool Lia.
From Coq.Strings Require Import Byte.
From Verif Require Import Base Syntax Prog Serializers Traverse Api Registry RegistryFacts IO Views
  Device Crs Pointers User Streams Members ObjectIO Asserts AssertViews AssertMembers Examples
  PropViews PropVirtual.
Import ListNotations.
Local Open Scope N_scope.

(** [r]: what the build with assertions does, [r']: what the other one does. *)
Definition same_unless_asserted {A} (r r' : res A) : Prop := r = Err AssertErr \/ r' = r.

Section Calls.
Variable E : env.
Local Notation E' := (without_asserts E).

(** ** Memory *)

Theorem C58_size : forall f t v, same_unless_asserted (get_size E f t v) (get_size E' f t v).
Proof.
  intros f t v. unfold get_size.
  destruct (upto_interp sizer _ _ _ (u_root E MSizing f t v) false 0) as [->| ->]; [now left|now right].
Qed.

Theorem C58_footprint : forall f t v off,
  same_unless_asserted (get_footprint E f t v off) (get_footprint E' f t v off).
Proof.
  intros f t v off. unfold get_footprint.
  destruct (upto_interp footprinter _ _ _ (u_root E MFootprinting f t v) false 0) as [->| ->];
    [now left|now right].
Qed.

Lemma pack_same : forall f t v n mg calls r,
  same_unless_asserted (pack_memory E f t v n mg calls r) (pack_memory E' f t v n mg calls r).
Proof.
  intros f t v n mg calls r. unfold pack_memory.
  destruct (upto_interp packer _ _ _ (u_root E MPacking f t v) false
    {| p_buf := r_before r ++ r_buf r ++ r_after r; p_cur := length (r_before r); p_used := 0 |})
    as [->| ->]; [now left|now right].
Qed.

Theorem C58_serialize : forall f t v fn,
  same_unless_asserted (serialize E f t v fn) (serialize E' f t v fn).
Proof.
  intros f t v fn. unfold serialize. destruct (C58_size f t v) as [->| ->]; [now left|].
  destruct (get_size E f t v) as [[v1 n]|e]; [|now right].
  destruct fn as [g|]; [destruct (g n)|]; apply pack_same.
Qed.

Theorem C58_in_place : forall f t mem off target,
  same_unless_asserted (deserialize_in_place E f t mem off target)
    (deserialize_in_place E' f t mem off target).
Proof.
  intros f t mem off target. unfold deserialize_in_place, unpack_memory.
  destruct (upto_interp unpacker _ _ _ (u_root E MUnpacking f t target) false
    {| u_buf := mem; u_cur := off; u_used := 0 |}) as [->| ->]; [now left|now right].
Qed.

Theorem C58_deserialize : forall f t mem off,
  same_unless_asserted (deserialize E f t mem off) (deserialize E' f t mem off).
Proof.
  intros f t mem off. unfold deserialize. rewrite recon_off.
  destruct (recon E t) as [o|]; [apply C58_in_place|now right].
Qed.

(** ** Streams, of whatever static type *)

Lemma u_via : forall listed A (p q : prog A), upto p q -> upto (via E listed p) (via E' listed q).
Proof. intros [] A p q H; unfold via; auto using u_unlisted. Qed.

Theorem C58_to_stream : forall listed f t v o,
  same_unless_asserted (to_stream E listed f t v o) (to_stream E' listed f t v o).
Proof.
  intros listed f t v o. unfold to_stream. destruct (C58_size f t v) as [->| ->]; [now left|].
  destruct (get_size E f t v) as [[v1 n]|e]; [|now right].
  destruct (upto_interp stream_packer _ _ _ (u_via listed _ _ _ (u_root E MPacking f t v1)) false o)
    as [->| ->]; [now left|now right].
Qed.

Theorem C58_in_place_from_stream : forall listed f t i target,
  same_unless_asserted (in_place_from_stream E listed f t i target)
    (in_place_from_stream E' listed f t i target).
Proof.
  intros listed f t i target. unfold in_place_from_stream.
  destruct (upto_interp stream_unpacker _ _ _ (u_via listed _ _ _ (u_root E MUnpacking f t target))
    false i) as [->| ->]; [now left|now right].
Qed.

Theorem C58_from_stream : forall listed f t i,
  same_unless_asserted (from_stream E listed f t i) (from_stream E' listed f t i).
Proof.
  intros listed f t i. unfold from_stream. rewrite recon_off.
  destruct (recon E t) as [o|]; [apply C58_in_place_from_stream|now right].
Qed.

(** ** Files: result, file and descriptor *)
Theorem C58_to_file : forall oracle hf page f t v w,
  fst (serialize_to_file oracle hf page E f t v w) = Err AssertErr \/
  serialize_to_file oracle hf page E' f t v w = serialize_to_file oracle hf page E f t v w.
Proof.
  intros oracle hf page f t v w. unfold serialize_to_file.
  destruct (C58_size f t v) as [->| ->]; [now left|].
  destruct (get_size E f t v) as [[v1 n]|e]; [|now right].
  unfold ibind. destruct (setup_for_write oracle hf n w) as [[?|?] w1]; [|now right].
  unfold scoped, pack_file, pack_mapping.
  destruct (upto_interp hpacker _ _ _ (u_root E MPacking f t v1) false
    ({| p_buf := map_mem page (contents w1); p_cur := 0; p_used := 0 |}, [])) as [->| ->];
    [now left|now right].
Qed.

Theorem C58_in_place_from_file : forall oracle page f t target w,
  fst (deserialize_in_place_from_file oracle page E f t target w) = Err AssertErr \/
  deserialize_in_place_from_file oracle page E' f t target w
  = deserialize_in_place_from_file oracle page E f t target w.
Proof.
  intros oracle page f t target w. unfold deserialize_in_place_from_file, ibind.
  destruct (setup_for_read oracle w) as [[?|?] w1]; [|now right].
  unfold scoped, unpack_file.
  destruct (C58_in_place f t (map_mem page (contents w1)) 0 target) as [Ha|Ha];
    unfold deserialize_in_place in Ha; rewrite Ha; [now left|now right].
Qed.

Theorem C58_from_file : forall oracle page f t w,
  fst (deserialize_from_file oracle page E f t w) = Err AssertErr \/
  deserialize_from_file oracle page E' f t w = deserialize_from_file oracle page E f t w.
Proof.
  intros oracle page f t w. unfold deserialize_from_file. rewrite recon_off.
  destruct (recon E t) as [o|]; [apply C58_in_place_from_file|now right].
Qed.

(** ** Objects with other serialize functions: views, maps, graphs, matrices, pointers,
    functions of users.  [both p q]: the three traversals of serialize and deserialize. *)
Definition both {A} (i : N) (p q : mode -> prog A) : Prop :=
  same_unless_asserted (serialize_object i (p MSizing) (p MPacking))
    (serialize_object i (q MSizing) (q MPacking)) /\
  forall mem off, same_unless_asserted (deserialize_object (p MUnpacking) mem off)
    (deserialize_object (q MUnpacking) mem off).

Lemma both_upto : forall A i (p q : mode -> prog A), (forall m, upto (p m) (q m)) -> both i p q.
Proof.
  intros A i p q H. split.
  - unfold serialize_object.
    destruct (upto_interp sizer _ _ _ (H MSizing) false 0) as [->| ->]; [now left|].
    destruct (interp sizer (p MSizing) false 0) as [[[a vf] n]|e]; [|now right].
    destruct (upto_interp packer _ _ _ (H MPacking) false
      {| p_buf := repeat x00 (N.to_nat n); p_cur := 0; p_used := 0 |}) as [->| ->];
      [now left|now right].
  - intros mem off. unfold deserialize_object.
    destruct (upto_interp unpacker _ _ _ (H MUnpacking) false
      {| u_buf := mem; u_cur := off; u_used := 0 |}) as [->| ->]; [now left|now right].
Qed.

Theorem C58_views : forall i span f,
  (forall vt v, both i (fun m => root_view E span f m vt v) (fun m => root_view E' span f m vt v)) /\
  (forall vt v, both i (fun m => root_dyn_view E span f m vt v) (fun m => root_dyn_view E' span f m vt v)) /\
  (forall name t v, both i (fun m => root_dynamic_view E f m name t v)
     (fun m => root_dynamic_view E' f m name t v)) /\
  (forall K name kt vt mp, both i (fun m => root_kmap E K f name kt vt m mp)
     (fun m => root_kmap E' K f name kt vt m mp)) /\
  (forall vt v, both i (fun m => root_device_view E span f m vt v)
     (fun m => root_device_view E' span f m vt v)) /\
  (forall junk vt v, both i (fun m => root_device_dyn_view E span junk f m vt v)
     (fun m => root_device_dyn_view E' span junk f m vt v)) /\
  (forall ct g, both i (fun m => root_graph E span f ct m g) (fun m => root_graph E' span f ct m g)) /\
  (forall mb ct a, both i (fun m => root_matrix E span mb f ct m a)
     (fun m => root_matrix E' span mb f ct m a)).
Proof.
  intros i span f.
  split; [|split; [|split; [|split; [|split; [|split; [|split]]]]]]; intros; apply both_upto; intros m.
  - unfold root_view. apply u_root_object.
    destruct (vt_const vt); [apply u_const_view|apply u_view]; apply u_with.
  - apply u_root_object. apply u_dyn_view. apply u_with.
  - apply u_root_object. apply u_dynamic_view. apply u_with.
  - apply u_root_object. apply u_kmap. apply u_with.
  - unfold root_device_view. apply u_root_object.
    destruct (vt_const vt); [apply u_device_const_view|apply u_device_view]; apply u_with.
  - apply u_root_object. apply u_device_dyn_view. apply u_with.
  - apply u_root_object. apply u_graph. apply u_with.
  - apply u_root_object. apply u_matrix. apply u_with.
Qed.

Theorem C58_functions : forall i f name,
  (forall ms ps, both i (fun m => root_pointers E f m name ms ps)
     (fun m => root_pointers E' f m name ms ps)) /\
  (forall b fs, both i (fun m => root_by E f m name b fs) (fun m => root_by E' f m name b fs)).
Proof.
  intros i f name. split; intros; apply both_upto; intros m.
  - apply u_root_object. apply u_pointers. apply u_with.
  - apply u_root_object. apply u_block. apply u_with.
Qed.

(** ** Objects that contain Kokkos views and maps, on every medium *)
Lemma object_upto : forall span K f k m v,
  upto (root_member E span K f k m v) (root_member E' span K f k m v).
Proof. intros. apply u_root_object. apply u_own. apply u_with. Qed.

Theorem C58_members : forall span K f k v,
  same_unless_asserted (serialize_member E span K f k v) (serialize_member E' span K f k v) /\
  (forall mem off, same_unless_asserted (deserialize_member E span K f k mem off v)
     (deserialize_member E' span K f k mem off v)) /\
  (forall off, same_unless_asserted (footprint_member E span K f k v off)
     (footprint_member E' span K f k v off)) /\
  (forall o, same_unless_asserted (member_to_stream E span K f k v o)
     (member_to_stream E' span K f k v o)) /\
  (forall i, same_unless_asserted (member_from_stream E span K f k i v)
     (member_from_stream E' span K f k i v)) /\
  (forall oracle hf page w,
     fst (member_to_file E span K f oracle hf page k v w) = Err AssertErr \/
     member_to_file E' span K f oracle hf page k v w = member_to_file E span K f oracle hf page k v w) /\
  (forall oracle page w,
     fst (member_from_file E span K f oracle page k v w) = Err AssertErr \/
     member_from_file E' span K f oracle page k v w = member_from_file E span K f oracle page k v w).
Proof.
  intros span K f k v.
  destruct (both_upto _ (tix E (name_of k)) _ _ (fun m => object_upto span K f k m v)) as [Hs Hd].
  split; [exact Hs|]. split; [exact Hd|]. split; [|split; [|split; [|split]]].
  - intros off. unfold footprint_member, footprint_object. rewrite sizeof_off.
    destruct (upto_interp footprinter _ _ _ (object_upto span K f k MFootprinting v) false 0)
      as [->| ->]; [now left|now right].
  - intros o. unfold member_to_stream, object_to_stream.
    destruct (upto_interp sizer _ _ _ (object_upto span K f k MSizing v) false 0) as [->| ->];
      [now left|].
    destruct (interp sizer (root_member E span K f k MSizing v) false 0) as [[[? ?] ?]|?]; [|now right].
    destruct (upto_interp stream_packer _ _ _ (object_upto span K f k MPacking v) false o)
      as [->| ->]; [now left|now right].
  - intros i. unfold member_from_stream, object_from_stream.
    destruct (upto_interp stream_unpacker _ _ _ (object_upto span K f k MUnpacking v) false i)
      as [->| ->]; [now left|now right].
  - intros oracle hf page w. unfold member_to_file, object_to_file.
    destruct (upto_interp sizer _ _ _ (object_upto span K f k MSizing v) false 0) as [->| ->];
      [now left|].
    destruct (interp sizer (root_member E span K f k MSizing v) false 0) as [[[? ?] n]|?];
      [|now right].
    unfold write_mapping, ibind. destruct (setup_for_write oracle hf n w) as [[?|?] w1]; [|now right].
    unfold scoped, pack_mapping.
    destruct (upto_interp hpacker _ _ _ (object_upto span K f k MPacking v) false
      ({| p_buf := map_mem page (contents w1); p_cur := 0; p_used := 0 |}, [])) as [->| ->];
      [now left|now right].
  - intros oracle page w. unfold member_from_file, object_from_file, ibind.
    destruct (setup_for_read oracle w) as [[?|?] w1]; [|now right].
    unfold scoped, unpack_mapping.
    destruct (Hd (map_mem page (contents w1)) 0%nat) as [-> | ->]; [now left|now right].
Qed.

(** ** Comparison of views *)
Lemma recur_same : forall eq v1 v2 dims nd d idx,
  same_unless_asserted (recur E eq dims nd d v1 v2 idx) (recur E' eq dims nd d v1 v2 idx).
Proof.
  intros eq v1 v2. induction dims as [|b dims IH]; intros nd d idx; [now right|].
  cbn [recur asserts without_asserts]. rewrite andb_false_r.
  destruct (negb _ && asserts E); [now left|].
  generalize (seq 0 (N.to_nat (extent v1 (N.to_nat (wrap32 (nd + 4294967296 - d)))))).
  intros l. assert (Ha : forall l, fold_left
    (fun (neq : res N) i =>
       match neq with
       | Err e => Err e
       | Ok n =>
         match recur E eq dims nd (wrap32 (d + 4294967296 - 1)) v1 v2 (idx ++ [N.of_nat i]) with
         | Ok ret => Ok (wrap64 (n + (if ret =? 0 then 1 else 0)))
         | Err e => Err e
         end
       end) l (Err AssertErr) = Err AssertErr) by (clear; induction l; cbn [fold_left]; auto).
  generalize (@Ok N 0). induction l as [|i l IHl]; intros acc; cbn [fold_left]; [now right|].
  destruct acc as [n|e]; [|apply IHl].
  destruct (IH nd (wrap32 (d + 4294967296 - 1)) (idx ++ [N.of_nat i])) as [->| ->].
  - left. apply Ha.
  - apply IHl.
Qed.

Theorem C58_compare : forall span eq k dims v1 v2,
  same_unless_asserted (compare E span eq k dims v1 v2) (compare E' span eq k dims v1 v2).
Proof.
  intros span eq k dims v1 v2. unfold compare.
  destruct (compare_static dims v1); cbn [negb]; [|now right].
  destruct (compare_static dims v2); cbn [negb]; [|now right].
  destruct (compare_extents v1 v2); cbn [negb]; [|now right].
  destruct (compare_meta span k v1 v2); cbn [negb]; [|now right].
  unfold compare_data.
  destruct (recur_same eq v1 v2 dims (dynamic dims) (dynamic dims) []) as [->| ->];
    [now left|now right].
Qed.

(** ** Dynamic dispatch through the registries *)
Lemma u_dyn_ser : forall o ss s rec rec', (forall t vs, upto (rec t vs) (rec' t vs)) ->
  forall n c i ex v r,
  upto (dyn_ser E o ss s rec n c i ex v r) (dyn_ser E' o ss s rec' n c i ex v r).
Proof.
  intros o ss s rec rec' Hrec.
  assert (Hd : forall (g g' : res (nat * nat)) v, g = Err AssertErr \/ g' = g ->
    upto (dispatcher s rec g v) (dispatcher s rec' g' v)).
  { intros g g' v [->| ->]; [constructor|]. unfold dispatcher. destruct g as [[c s']|e]; [|constructor].
    destruct (Nat.eqb s' s); constructor. now apply u_ser. }
  induction n as [|n IH]; intros c i ex v r; cbn [dyn_ser]; [constructor|].
  cbn [cls without_asserts]. destruct (cls E c) as [k|]; [|constructor].
  unfold link_all. rewrite root_off.
  apply upto_bind.
  { unfold assert_idx. cbn [asserts without_asserts]. destruct ex as [e|]; [|constructor].
    destruct (or_idx o c) as [j|].
    - rewrite orb_true_r. destruct (Nat.eqb e j); cbn [orb]; [constructor|].
      destruct (asserts E); constructor.
    - destruct (asserts E); constructor. }
  intros _. destruct (cparent k) as [p|].
  - apply upto_bind; [apply IH|]. intros [v1 r2]. constructor.
    apply upto_bind; [|intros; constructor]. apply Hd. unfold get_base_idx.
    destruct (find_base i (sr_reg r2 c)); [now right|].
    cbn [asserts without_asserts]. destruct (asserts E); [now left|now right].
  - constructor. apply upto_bind; [|intros; constructor]. apply Hd. unfold get_obj_idx.
    destruct (nth_error _ i); [now right|].
    cbn [asserts without_asserts]. destruct (asserts E); [now left|now right].
Qed.

Theorem C58_registries : forall o ss s m f H v r vf st,
  same_unless_asserted (interp H (virtual_serialize E o ss s (with_ E m f) v r) vf st)
    (interp H (virtual_serialize E' o ss s (with_ E' m f) v r) vf st).
Proof.
  intros o ss s m f H v r vf st. apply upto_interp. unfold virtual_serialize.
  destruct v; try apply upto_refl. rewrite root_off.
  destruct (sr_idx r (root E c) s); [|apply upto_refl]. apply u_dyn_ser. apply u_with.
Qed.
End Calls.
Print Assumptions C58_size.
Print Assumptions C58_footprint.
Print Assumptions C58_serialize.
Print Assumptions C58_deserialize.
Print Assumptions C58_in_place.
Print Assumptions C58_to_stream.
Print Assumptions C58_from_stream.
Print Assumptions C58_in_place_from_stream.
Print Assumptions C58_to_file.
Print Assumptions C58_from_file.
Print Assumptions C58_in_place_from_file.
Print Assumptions C58_views.
Print Assumptions C58_functions.
Print Assumptions C58_members.
Print Assumptions C58_compare.
Print Assumptions C58_registries.

(** The classes of Examples.v with and without assertions: the data of a Disc read into a
    pointer that holds a Box fails an assertion, and without assertions is read; a type that
    does not match is reported by both builds in the same way; what both write is the same. *)
Example C58_case : let t := TUnique (TClass 1) in
  without_asserts (ex false) = ex_release false /\
  exists s,
    serialize (ex false) 12 t (VOpt (Some v_disc)) None = Ok s /\
    serialize (ex_release false) 12 t (VOpt (Some v_disc)) None = Ok s /\
    deserialize_in_place (ex false) 12 t (s_bytes s) 0 (VOpt (Some v_box)) = Err AssertErr /\
    (exists x, deserialize_in_place (ex_release false) 12 t (s_bytes s) 0 (VOpt (Some v_box)) = Ok x) /\
    (let i := tix (ex false) TString in
     deserialize (ex false) 12 TString (s_bytes s) 0 = Err (SerErr 0 [WrongType i (tix (ex false) t) i])) /\
    deserialize (ex_release false) 12 TString (s_bytes s) 0 = deserialize (ex false) 12 TString (s_bytes s) 0.
Proof.
  split; [reflexivity|]. eexists. split; [vm_compute; reflexivity|].
  split; [vm_compute; reflexivity|]. split; [vm_compute; reflexivity|].
  split; [eexists; vm_compute; reflexivity|]. split; vm_compute; reflexivity.
Qed.

(** A view whose type does not manage its memory is rejected by the build with assertions
    only. *)
Example C58_view_case :
  let vt := {| vt_name := vt_name (ex_vt INT 2 LStride false); vt_layout_name := vt_layout_name (ex_vt INT 2 LStride false);
               vt_elem := INT; vt_rank := 2; vt_kind := LStride; vt_managed := false; vt_const := false |} in
  serialize_view (ex false) ex_span 3 vt ex_strided = Err AssertErr /\
  (exists b, serialize_view (ex_release false) ex_span 3 vt ex_strided = Ok (b, ex_strided) /\
     serialize_view (ex false) ex_span 3 (ex_vt INT 2 LStride false) ex_strided = Ok (b, ex_strided)).
Proof.
  split; [vm_compute; reflexivity|]. eexists. split; vm_compute; reflexivity.
Qed.
