(** C52: raw and shared pointers serialized as the library documents it. *)
From Coq Require Import List NArith Arith Bool Lia.
From Coq.Strings Require Import Byte.
From Verif Require Import Base Syntax Prog Serializers Traverse Spec ProgFacts EnvFacts ValFacts
  Fails RegistryFacts Pack Unpack Api ApiFacts Examples Views ViewSpec ViewFacts ViewRound
  Pointers PointersSpec PointersFacts.
Import ListNotations.
Local Open Scope N_scope.

(** Full statement: the conclusion for pointers [ws] and shared pointers of [ps] that may
    be null or not, see [C52_null_refuted], [C52_shared_null] and [C52_shared_in_place]. *)
Theorem C52_pointers_partial : forall E f name ms ps, wf_env any E -> (1 < f)%nat ->
  Forall2 (pointer_ok E f) ms ps -> exists b,
  (stream_pointers E f name ms ps = Ok (b, ps) /\
     (len b < two64 -> serialize_pointers E f name ms ps = Ok (b, ps))) /\
  forall ws, Forall2 (fun kp w => over E (fst kp) (snd kp) w) (combine ms ps) ws ->
  exists xs, Forall2 pointer_copy ps xs /\ forall before after,
    deserialize_pointers E f name ms (before ++ b ++ after) (length before) ws = Ok (xs, len b).
Proof. intros E f name ms ps wf Hf H. exact (pointers_round E wf f Hf name ms ps H). Qed.
Print Assumptions C52_pointers_partial.

Definition ex_members : list member :=
  [{| p_shared := false; p_ty := TClass 1 |}; {| p_shared := true; p_ty := TClass 1 |};
   {| p_shared := false; p_ty := TClass 0 |}; {| p_shared := true; p_ty := TString |}].
Definition ex_pointers : list (option val) := [Some v_ring; Some v_box; None; Some s_ab].
Example C52_case : forall b, exists out xs n,
  serialize_pointers (ex b) 12 (TClass 5) ex_members ex_pointers = Ok (out, ex_pointers) /\
  deserialize_pointers (ex b) 12 (TClass 5) ex_members out 0 [None; None; None; None] = Ok (xs, n) /\
  n = len out /\ nth_error xs 3 = Some (Some s_ab) /\ nth_error xs 2 = Some None.
Proof.
  destruct b; do 3 eexists; (split; [vm_compute; reflexivity|]); (split; [vm_compute; reflexivity|]);
  vm_compute; auto.
Qed.
Example C52_case_ok : forall b, wf_env any (ex b) /\
  Forall2 (pointer_ok (ex b) 12) ex_members ex_pointers /\
  Forall2 (fun kp w => over (ex b) (fst kp) (snd kp) w) (combine ex_members ex_pointers)
    [None; None; None; None].
Proof.
  intros b. split; [now apply ex_wf|]. split.
  - repeat (apply Forall2_cons; [split; [destruct b; ht|split; [discriminate|]]|]);
      try apply Forall2_nil; try (vm_compute; lia); exact I.
  - repeat (apply Forall2_cons; [cbn; try reflexivity; constructor|]). apply Forall2_nil.
Qed.

(** A null raw pointer is never restored: the member stays what it was. *)
Theorem C52_null_keeps : forall E f name t, wf_env any E -> (1 < f)%nat ->
  let ms := [{| p_shared := false; p_ty := t |}] in
  exists b, (stream_pointers E f name ms [None] = Ok (b, [None]) /\
     (len b < two64 -> serialize_pointers E f name ms [None] = Ok (b, [None]))) /\
  forall w before after,
    deserialize_pointers E f name ms (before ++ b ++ after) (length before) [w] = Ok ([w], len b).
Proof.
  intros E f name t wf Hf ms. exists (wroot E name (wbool E true)). split.
  - unfold stream_pointers, serialize_pointers.
    refine (both_ways _ _ (root_pointers E f MSizing name ms [None])
             (root_pointers E f MPacking name ms [None]) [None] [None] _ _ _ _ eq_refl);
    (apply e_root; auto; eapply emits_eq;
     [apply (e_members E wf f Hf); auto; repeat constructor; cbn; auto; discriminate
     |cbn; apply app_nil_r]).
  - intros w before after. apply deserialize_reads. apply r_root; auto.
    cbn [ms ser_members p_shared p_ty]. eapply reads_eq; [|apply app_nil_r].
    eapply reads_bind; [now apply null_keeps|]. apply reads_ret.
Qed.
Print Assumptions C52_null_keeps.

Theorem C52_null_refuted : exists E f name k w b x n, wf_env any E /\ (1 < f)%nat /\
  pointer_ok E f k None /\ target Cany E (TUnique (p_ty k)) (VOpt None) (VOpt w) /\
  serialize_pointers E f name [k] [None] = Ok (b, [None]) /\
  deserialize_pointers E f name [k] b 0 [w] = Ok ([x], n) /\ ~ pointer_copy None x.
Proof.
  exists (ex true), 12%nat, (TClass 5), {| p_shared := false; p_ty := TString |}, (Some s_ab).
  do 3 eexists. split; [now apply ex_wf|]. split; [lia|].
  split; [repeat constructor; discriminate|]. split; [apply TgReset|].
  split; [vm_compute; reflexivity|]. split; [vm_compute; reflexivity|].
  intros H. inversion H.
Qed.
Print Assumptions C52_null_refuted.

(** A null shared pointer is dereferenced as soon as the size of the object is asked for. *)
Theorem C52_shared_null : forall E f name ms1 ps1 k ms2 ps2, wf_env any E -> (1 < f)%nat ->
  Forall2 (pointer_ok E f) ms1 ps1 -> p_shared k = true ->
  serialize_pointers E f name (ms1 ++ k :: ms2) (ps1 ++ None :: ps2) = Err UB.
Proof. intros E f name ms1 ps1 k ms2 ps2 wf Hf. exact (null_shared E wf f Hf name ms1 ps1 k ms2 ps2). Qed.
Print Assumptions C52_shared_null.

Example C52_shared_null_case : forall b,
  serialize_pointers (ex b) 12 (TClass 5) ex_members [Some v_ring; None; None; Some s_ab] = Err UB.
Proof. destruct b; vm_compute; reflexivity. Qed.

(** Reading over a shared pointer that is not null makes two owners of the object. *)
Theorem C52_shared_in_place : forall E f name ms1 ps1 ws1 k v o ms2 ps2 ws2,
  wf_env any E -> (1 < f)%nat ->
  Forall2 (pointer_ok E f) (ms1 ++ k :: ms2) (ps1 ++ Some v :: ps2) -> length ms1 = length ps1 ->
  Forall2 (fun kp w => over E (fst kp) (snd kp) w) (combine ms1 ps1) ws1 ->
  p_shared k = true -> target Cany E (TUnique (p_ty k)) (VOpt (Some v)) (VOpt (Some o)) ->
  exists b, (stream_pointers E f name (ms1 ++ k :: ms2) (ps1 ++ Some v :: ps2) = Ok (b, ps1 ++ Some v :: ps2) /\
     (len b < two64 -> serialize_pointers E f name (ms1 ++ k :: ms2) (ps1 ++ Some v :: ps2) = Ok (b, ps1 ++ Some v :: ps2))) /\
    forall before after,
    deserialize_pointers E f name (ms1 ++ k :: ms2) (before ++ b ++ after) (length before)
      (ws1 ++ Some o :: ws2) = Err UB.
Proof.
  intros E f name ms1 ps1 ws1 k v o ms2 ps2 ws2 wf Hf.
  exact (shared_in_place E wf f Hf name ms1 ps1 ws1 k v o ms2 ps2 ws2).
Qed.
Print Assumptions C52_shared_in_place.

Example C52_in_place_case : forall b, exists out,
  serialize_pointers (ex b) 12 (TClass 5) ex_members ex_pointers = Ok (out, ex_pointers) /\
  deserialize_pointers (ex b) 12 (TClass 5) ex_members out 0 [None; Some v_box; None; None] = Err UB.
Proof. destruct b; eexists; (split; [vm_compute; reflexivity|vm_compute; reflexivity]). Qed.
Example C52_in_place_case_ok : forall b,
  target Cany (ex b) (TUnique TString) (VOpt (Some s_ab)) (VOpt (Some s_long)).
Proof. intros b. apply TgUnique; [reflexivity|]. apply TgString. Qed.
