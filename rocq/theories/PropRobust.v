(** Property C56: reading arbitrary bytes from a stream. *)
From Coq Require Import List NArith Arith Bool Lia.
From Coq.Strings Require Import Byte.
From Verif Require Import Base Syntax Prog Serializers Traverse Spec ProgFacts EnvFacts ValFacts
  Api ApiFacts Examples PropMemory Robust RobustFacts.
Import ListNotations.
Local Open Scope N_scope.

(** Undefined behaviour needs a type that is read by way of a bool. *)
Definition flagged (T : ty -> Prop) : Prop := exists t, T t /\ by_flag t = true.

(** How a call that reads an object of type [t] from the bytes [d] may end. *)
Definition safe_read (E : env) (T : ty -> Prop) (t : ty) (d : bytes) (r : res (val * istream)) : Prop :=
  match r with
  | Ok (x, i) => valid E t x /\ exists used, d = used ++ i_data i
  | Err e => caught (flagged T) e
  end.

Section Robust.
Variable E : env.
Hypothesis wf : wf_env any E.
Variable T : ty -> Prop.
Hypothesis rd : readable E T.

Lemma read_any : forall t w d, T t -> valid E t w ->
  exists f0 r, (forall f, (f0 <= f)%nat ->
      deserialize_in_place_from_stream E f t (in_stream d) w = r) /\ safe_read E T t d r.
Proof.
  intros t w d Ht Hw.
  destruct (run_root E wf T rd (flagged T) (fun t H1 H2 => ex_intro _ t (conj H1 H2)) t w false d Ht Hw)
    as (f0 & r & Hr & Hq).
  destruct r as [[[x vf'] r]|e].
  - exists f0, (Ok (x, {| i_data := r; i_nbytes := wrap64 (0 + (len d - len r)) |})). split.
    + intros f Hf. unfold deserialize_in_place_from_stream, in_stream.
      pose proof (stream_reader _ (with_root E MUnpacking f t w) false d 0) as Hs.
      rewrite (Hr f Hf) in Hs. destruct Hs as (Hs & _).
      change (wrap64 0) with 0 in Hs. rewrite Hs. reflexivity.
    + cbn [safe_read i_data]. split; auto.
      specialize (Hr f0 (Nat.le_refl _)). apply reader_local in Hr.
      destruct Hr as (i & -> & _). eauto.
  - exists f0, (Err e). split; auto.
    intros f Hf. unfold deserialize_in_place_from_stream, in_stream.
    pose proof (stream_reader _ (with_root E MUnpacking f t w) false d 0) as Hs.
    rewrite (Hr f Hf) in Hs. change (wrap64 0) with 0 in Hs. rewrite Hs. reflexivity.
Qed.

Lemma read_new : forall t d, T t -> constructible E t ->
  exists f0 r, (forall f, (f0 <= f)%nat ->
      deserialize_from_stream E f t (in_stream d) = r) /\ safe_read E T t d r.
Proof.
  intros t d Ht Hc. unfold constructible in Hc. unfold deserialize_from_stream.
  destruct (recon E t) as [o|] eqn:Er; [|congruence].
  apply read_any; auto. eapply recon_valid; eauto.
Qed.
End Robust.

(** Whatever bytes a stream holds, reading into an existing object ends: with an object of
    that type and a prefix of the stream consumed, with an exception or failed assertion, or,
    only if bools are read as flags, with undefined behaviour. *)
Theorem C56_arbitrary_bytes_partial : forall E, wf_env any E -> forall T, readable E T ->
  forall t w d, T t -> valid E t w ->
  exists f0 r, (forall f, (f0 <= f)%nat ->
      deserialize_in_place_from_stream E f t (in_stream d) w = r) /\ safe_read E T t d r.
Proof. exact read_any. Qed.
Print Assumptions C56_arbitrary_bytes_partial.

(** The same for a call that constructs the object. *)
Theorem C56_new_object_partial : forall E, wf_env any E -> forall T, readable E T ->
  forall t d, T t -> constructible E t ->
  exists f0 r, (forall f, (f0 <= f)%nat ->
      deserialize_from_stream E f t (in_stream d) = r) /\ safe_read E T t d r.
Proof. exact read_new. Qed.
Print Assumptions C56_new_object_partial.

(** ** Cases *)
Definition pl := ex_plain true.

Lemma pl_wf : wf_env any pl.
Proof. apply ex_with_wf. exact I. Qed.

(** All types that reading a pointer to a Shape needs. *)
Definition shapes : list ty :=
  [TUnique (TClass 1); TUnique (TClass 2); TClass 1; TClass 2; TClass 3; TClass 4; TClass 7; TClass 13;
   OINT; TString; DBL; TAssoc (AOrd false true) (TPair OINT TString); TPair OINT TString;
   TOptional OINT; TArray 2 OINT].
Definition in_shapes (t : ty) : Prop := In t shapes.

(** Types that need no flag. *)
Definition plain_types : list ty :=
  [TClass 2; TVector (TVector OINT); TVector OINT; OINT; TString; DBL;
   TAssoc (AOrd false true) (TPair OINT TString); TPair OINT TString; TVariant [OINT; TString];
   TList false (TVariant [OINT; TString]); TAssoc (AHash true false) OINT].
Definition in_plain (t : ty) : Prop := In t plain_types.

Ltac ins := repeat (first [left; reflexivity | right]).
Ltac eachtype H :=
  repeat (destruct H as [H|H]; [subst|]); [..|destruct H].
Ltac level H Hk :=
  cbn in H; repeat (destruct H as [H|H]; [subst; cbn in Hk; inversion Hk; subst; clear Hk|]);
  [..|destruct H].
Ltac range := let i := fresh in let H := fresh in
  intros i H; cbn in H; repeat (destruct H as [H|H]; [subst; cbn; lia|]); destruct H.
Ltac order := split; [intros x; apply N.ltb_irrefl
  | intros x y z; cbn; rewrite !N.ltb_lt; apply N.lt_trans].
Ltac classparts := match goal with |- (exists k, cls _ _ = Some k) /\ _ => idtac end;
  split; [eexists; reflexivity|];
  let H := fresh in let Hk := fresh in
  intros c' k H Hk; level H Hk; cbv beta; (split; [cbn [cfields]; repeat (apply Forall_cons; [ins|]); apply Forall_nil|range]).

Ltac objects := repeat match goal with
  | |- _ => progress cbn
  | |- valid _ (TClass _) (VObj _ _) => eapply VaClass; [reflexivity|discriminate|]
  | |- Forall2 _ (?x :: _) _ => constructor
  | |- Forall2 _ [] _ => constructor
  | |- exists k', Some _ = Some k' /\ _ => eexists; split; [reflexivity|]
  | |- (true = true /\ _) \/ _ => left; split; [reflexivity|]; eexists; split; reflexivity
  | |- (false = true /\ _) \/ _ => right; split; [reflexivity|]
  | |- valid _ _ _ => constructor
  | |- Forall _ _ => constructor
  | |- _ <= _ => lia
  | |- _ = _ => reflexivity
  | |- True => exact I
  end.

Lemma shapes_readable : readable pl in_shapes.
Proof.
  split.
  - intros t H. unfold in_shapes, shapes in *. eachtype H; cbn [parts];
      try exact I; try (classparts; fail).
    1,2: split; [discriminate|];
      intros c c0 Heq Hin Hidx; inversion Heq; subst;
      do 14 (destruct c0 as [|c0]; [cbn in Hin; try (now destruct Hin); try (ins; fail);
        repeat (destruct Hin as [Hin|Hin]; [discriminate|]); now destruct Hin|]);
      now destruct Hin.
    + split; [ins|]. split; [discriminate|]. order.
    + split; ins.
    + split; [ins|discriminate].
    + ins.
  - intros c k ls H Hk Hc Hb. unfold in_shapes, shapes in H.
    repeat (destruct H as [H|H]; [try discriminate; inversion H; subst; cbn in Hk; inversion Hk; subst;
      cbn in Hc; destruct Hc as [Hc|[Hc|Hc]]; try discriminate; inversion Hc; subst; objects|]).
    destruct H.
Qed.

Lemma plain_readable : readable pl in_plain.
Proof.
  split.
  - intros t H. unfold in_plain, plain_types in *. eachtype H; cbn [parts];
      try exact I; try (classparts; fail); try (split; [ins|discriminate]).
    + split; [ins|]. split; [discriminate|]. order.
    + split; ins.
    + right. constructor; [split; [ins|discriminate]|]. constructor; [split; [ins|discriminate]|].
      constructor.
    + split; [ins|]. split; [discriminate|]. intros x y. apply N.eqb_sym.
  - intros c k ls H Hk Hc Hb. unfold in_plain, plain_types in H.
    repeat (destruct H as [H|H]; [try discriminate; inversion H; subst; cbn in Hk; inversion Hk; subst;
      cbn in Hc; destruct Hc as [Hc|[Hc|Hc]]; try discriminate; inversion Hc; subst; objects|]).
    destruct H.
Qed.

(** No undefined behaviour for the types without flags. *)
Example C56_case_plain : forall t d, in_plain t -> constructible pl t ->
  exists f0 r, (forall f, (f0 <= f)%nat -> deserialize_from_stream pl f t (in_stream d) = r) /\
    match r with
    | Ok (x, i) => valid pl t x /\ exists used, d = used ++ i_data i
    | Err e => caught False e
    end.
Proof.
  intros t d Ht Hc.
  destruct (C56_new_object_partial pl pl_wf _ plain_readable t d Ht Hc) as (f0 & r & Hr & Hs).
  exists f0, r. split; auto. destruct r as [[x i]|e]; auto.
  destruct e; auto. cbn [caught safe_read] in *. destruct Hs as (t0 & H0 & Hf).
  unfold in_plain, plain_types in H0. repeat (destruct H0 as [H0|H0]; [subst; discriminate|]). destruct H0.
Qed.

(** The bytes of a pointer to a Circle. *)
Definition circle : val :=
  VOpt (Some (VObj 2 [[w4 3; VStr 15 (le 3 0x636261)]; [w8 5; VSeq [VSeq [w4 1; VStr 15 [x61]]]]])).
Definition circle_bytes (t : ty) : bytes :=
  match serialize_to_stream pl 20 t circle (out_stream []) with
  | Ok (_, o) => o_data o
  | Err _ => []
  end.

(** The calls on such bytes with one of them changed: the class index names a class without
    a constructor, an unknown class, another class; the name changes. *)
Example C56_case :
  exists d, d = circle_bytes (TUnique (TClass 1)) /\ length d = 265%nat /\
    let read i b := deserialize_from_stream pl 20 (TUnique (TClass 1)) (in_stream (upd d i b)) in
    in_shapes (TUnique (TClass 1)) /\
    read 21%nat x05 = Err AssertErr /\ read 21%nat x06 = Err RangeErr /\
    reported 2 (read 21%nat x02) /\
    exists x i, read 69%nat xff = Ok (x, i) /\ x <> circle /\ i_data i = [].
Proof.
  eexists. split; [reflexivity|]. split; [vm_compute; reflexivity|].
  cbv zeta. split; [left; reflexivity|].
  split; [vm_compute; reflexivity|]. split; [vm_compute; reflexivity|].
  split; [vm_compute; reflexivity|].
  eexists _, _. split; [vm_compute; reflexivity|]. split; [discriminate|reflexivity].
Qed.

(** "Never undefined behaviour" is false: a flag that is neither 0 nor 1 ... *)
Theorem C56_flag_refuted :
  exists E T t d f, wf_env any E /\ readable E T /\ T t /\ constructible E t /\
    deserialize_from_stream E f t (in_stream d) = Err UB.
Proof.
  exists pl, in_shapes, (TOptional OINT), (le 4 (tix pl (TOptional OINT)) ++ le 4 (tix pl BOOL) ++ [x02] ++ le 8 1), 20%nat.
  split; [apply pl_wf|]. split; [apply shapes_readable|]. split; [unfold in_shapes, shapes; ins|].
  split; [discriminate|]. vm_compute. reflexivity.
Qed.
Print Assumptions C56_flag_refuted.

(** ... and the index of a class that is not derived from the pointer's class. *)
Theorem C56_class_refuted :
  exists E T c d i b f, wf_env any E /\ readable E T /\ T (TUnique (TClass c)) /\
    (exists x s, deserialize_from_stream E f (TUnique (TClass c)) (in_stream d) = Ok (x, s)) /\
    deserialize_from_stream E f (TUnique (TClass c)) (in_stream (upd d i b)) = Err UB.
Proof.
  exists pl, in_shapes, 2%nat, (circle_bytes (TUnique (TClass 2))), 21%nat, x01, 20%nat.
  split; [apply pl_wf|]. split; [apply shapes_readable|]. split; [right; left; reflexivity|].
  split; [eexists _, _; vm_compute; reflexivity|]. vm_compute. reflexivity.
Qed.
Print Assumptions C56_class_refuted.
