(** Properties C20, C35, C36: overwriting existing objects, repeated
    checkpoint/restart, and the arithmetic of sizes. *)
From Coq Require Import List NArith Arith Bool Lia Permutation.
From Coq.Strings Require Import Byte.
From Verif Require Import Base Syntax Prog Serializers Traverse Spec ProgFacts EnvFacts ValFacts
  Pack Unpack Api ApiFacts ApiInv Registry Examples Stable PropMemory.
Import ListNotations.
Local Open Scope N_scope.

(** ** C35 *)

(** [n] times: serialize, throw the object away, deserialize. *)
Inductive restarts (E : env) (f : nat) (t : ty) : nat -> val -> val -> Prop :=
| RsDone v : restarts E f t 0 v v
| RsAgain n v v1 w :
    round_trip E f t v v1 -> restarts E f t n v1 w -> restarts E f t (S n) v w.

(** Constructors leave vectors without reserved capacity. *)
Definition zero_cap (c : N) : Prop := c = 0.

Lemma zero_any : forall E, wf_env zero_cap E -> wf_env any E.
Proof. intros E. apply wf_env_mono. intros; exact I. Qed.

Lemma deserialize_exact : forall E f t v, wf_env zero_cap E -> has_ty E t v -> constructible E t ->
  (depth v < f)%nat -> len (enc_root E t v) < two64 ->
  exists v', round_trip E f t v v' /\ exact_copy v v'.
Proof.
  intros E f t v wf Ht Hc Hd Hl. unfold constructible in Hc.
  destruct (recon E t) as [o|] eqn:Er; [|congruence].
  set (C := fun c w : N => w <= c).
  assert (HFC : forall c w, zero_cap w -> C c w) by (unfold zero_cap, C; intros; lia).
  assert (HCR : forall c w, C c w -> eq c (N.max w c)) by (unfold C; intros; lia).
  assert (HT : target C E t v o) by (eapply (recon_tgt zero_cap E wf C HFC); eauto).
  destruct (unpack_root zero_cap E wf C eq HFC HCR f t v o Ht HT Hd) as (x & Hx & Hr).
  exists x. split; [|exact Hx].
  eexists. exists (len (enc_root E t v)).
  split; [apply serialize_managed; auto; now apply zero_any|]. cbn [s_bytes].
  unfold deserialize, unpack_memory. rewrite Er.
  pose proof (reads_unpacker _ _ _ _ _ _ Hr [] [] 0) as H.
  change (wrap64 0) with 0 in H. cbn [app length] in H. rewrite app_nil_r in H.
  rewrite H. cbn [u_cur]. do 2 f_equal. unfold len. f_equal. lia.
Qed.

(** Any number of restarts is possible and the bytes never change.
    Missing: classes whose constructors reserve capacity in a vector; for those
    the statement is false, see [C35_refuted]. *)
Theorem C35_stable_partial : forall E f t v,
  wf_env zero_cap E -> has_ty E t v -> constructible E t -> no_bags v ->
  (depth v < f)%nat -> len (enc_root E t v) < two64 ->
  exists s0, serialize E f t v None = Ok s0 /\
    forall n,
      (exists w, restarts E f t n v w) /\
      forall w, restarts E f t n v w ->
        exact_copy v w /\
        exists s, serialize E f t w None = Ok s /\
          s_bytes s = s_bytes s0 /\ s_size s = s_size s0.
Proof.
  intros E f t v wf Ht Hc Hb Hd Hl.
  pose proof (zero_any E wf) as wfa.
  eexists. split; [apply serialize_managed; auto|]. cbn [s_bytes s_size].
  intros n. revert v Ht Hb Hd Hl. induction n; intros v Ht Hb Hd Hl.
  - split; [exists v; constructor|]. intros w Hw. inversion Hw; subst.
    split; [apply sim_refl; auto|].
    eexists. split; [apply serialize_managed; auto|]. split; reflexivity.
  - destruct (deserialize_exact E f t v wf Ht Hc Hd Hl) as (x & Hrt & Hx).
    assert (Hbx : no_bags x) by (eapply no_bags_sim; eauto).
    assert (Htx : has_ty E t x) by (eapply has_ty_sim; eauto).
    assert (Hdx : (depth x < f)%nat) by (rewrite <- (depth_sim eq v x); auto).
    assert (He : enc_root E t v = enc_root E t x) by (apply enc_root_sim; auto).
    assert (Hlx : len (enc_root E t x) < two64) by (rewrite <- He; auto).
    destruct (IHn x Htx Hbx Hdx Hlx) as ((w & Hw) & HA).
    split; [exists w; econstructor; eauto|].
    intros w' Hw'. inversion Hw' as [|? ? v1 ? Hrt1 Hr1]; subst.
    rewrite (round_trip_fun E f t v v1 x Hrt1 Hrt) in Hr1.
    destruct (HA w' Hr1) as (Hxw & s & Hs & H1 & H2).
    split; [eapply sim_trans; [|exact Hx|exact Hxw]; intros; congruence|].
    exists s. rewrite He. auto.
Qed.
Print Assumptions C35_stable_partial.

Example C35_case : forall b, exists s0, serialize (ex b) 12 t_shapes v_shapes None = Ok s0 /\
    forall n,
      (exists w, restarts (ex b) 12 t_shapes n v_shapes w) /\
      forall w, restarts (ex b) 12 t_shapes n v_shapes w ->
        exact_copy v_shapes w /\
        exists s, serialize (ex b) 12 t_shapes w None = Ok s /\
          s_bytes s = s_bytes s0 /\ s_size s = s_size s0.
Proof.
  intros b. apply C35_stable_partial.
  - apply ex_wf. reflexivity.
  - apply v_shapes_ty.
  - destruct b; vm_compute; discriminate.
  - vm_compute. tauto.
  - vm_compute. lia.
  - destruct b; vm_compute; reflexivity.
Qed.

(** struct Eager { std::vector<int> v; Eager() { v.reserve(10); } } *)
Definition cEager : class := {|
  csize := 24; cvirt := false; cbyte := false; cparent := None;
  cfields := [TVector OINT]; cser := fun _ => [0]%nat;
  ctag := None; crecon := None; cdefault := Some [[VVec 10 []]] |}.
Definition eager_env (checking : bool) : env := {| asserts := true; movec := fun _ => true;
  cls := fun c => match c with O => Some cEager | _ => None end;
  szof := szof (ex checking); tix := tix (ex checking); chk := checking;
  defc := fun _ => true; copyc := fun _ => true;
  less := less (ex checking); keq := keq (ex checking); hplace := hplace (ex checking);
  oreg := fun _ => [] |}.
Definition v_eager : val := VObj 0 [[VVec 3 [w4 1; w4 2]]].

Lemma eager_wf : forall b, wf_env any (eager_env b).
Proof.
  intros b. pose proof (ex_wf b any I) as W. split.
  - intros c k p H Hp. destruct c; inversion H; subst; discriminate.
  - intros c k ls H Hl. destruct c; inversion H; subst. cbn in Hl.
    destruct Hl as [Hl|[Hl|Hl]]; inversion Hl; subst.
    cbn. constructor; [|constructor]. eexists. split; [reflexivity|].
    cbn. constructor; [|constructor]. constructor; [exact I|now left|constructor].
  - apply (wf_tix any (ex b) W).
  - apply (wf_less any (ex b) W).
  - apply (wf_keq any (ex b) W).
  - apply (wf_hplace any (ex b) W).
  - intros. constructor.
  - exact I.
Qed.

(** The capacity of a vector is part of the serialized form, but
    deserialization never shrinks a vector: one restart of an object whose
    constructor reserves capacity already changes its bytes. *)
Theorem C35_refuted : exists E f t v, wf_env any E /\ has_ty E t v /\ constructible E t /\
  no_bags v /\ (depth v < f)%nat /\ len (enc_root E t v) < two64 /\
  exists s0 w s, serialize E f t v None = Ok s0 /\ round_trip E f t v w /\
    serialize E f t w None = Ok s /\ s_bytes s <> s_bytes s0.
Proof.
  exists (eager_env true), 12%nat, (TClass 0), v_eager.
  split; [apply eager_wf|]. split; [ht|]. split; [vm_compute; discriminate|].
  split; [vm_compute; tauto|]. split; [vm_compute; lia|]. split; [vm_compute; reflexivity|].
  assert (Hs : exists s0, serialize (eager_env true) 12 (TClass 0) v_eager None = Ok s0)
    by (eexists; vm_compute; reflexivity).
  destruct Hs as (s0 & Hs0).
  set (w := VObj 0 [[VVec 10 [w4 1; w4 2]]]).
  assert (Hs : exists s, serialize (eager_env true) 12 (TClass 0) w None = Ok s)
    by (eexists; vm_compute; reflexivity).
  destruct Hs as (s & Hs). exists s0, w, s. split; [exact Hs0|].
  vm_compute in Hs0. vm_compute in Hs. inversion Hs0. inversion Hs.
  split; [|split; [vm_compute; reflexivity|cbn [s_bytes]; discriminate]].
  eexists. eexists. split; [vm_compute; reflexivity|vm_compute; reflexivity].
Qed.
Print Assumptions C35_refuted.

(** ** C36 *)

(** A part of an object: a contiguous array of objects of one type (a single
    object is an array of one), or the members that one class of a polymorphic
    object contributes. *)
Inductive part := Part (t : ty) (vs : list val) | Level (ps : list (ty * list val)).

Definition p_word (n : nat) (x : N) : val := VB (le n x).
Definition p_size (x : N) : ty * list val := (SIZE, [p_word 8 x]).
Definition p_bool (b : bool) : ty * list val := (BOOL, [p_word 1 (if b then 1 else 0)]).
Definition p_one (t : ty) (v : val) : ty * list val := (t, [v]).

(** The members of one class, in the order in which it serializes them. *)
Definition p_fields (E : env) (c : nat) (fs : list val) : list (ty * list val) :=
  match cls E c with
  | Some k =>
    flat_map (fun i => match nth_error (cfields k) i, nth_error fs i with
                       | Some t, Some x => [p_one t x]
                       | _, _ => []
                       end) (cser k MPacking)
  | None => []
  end.

(** The parts of an object: what it serializes with [s | part], in order. *)
Definition simple_parts (E : env) (t : ty) (v : val) : list (ty * list val) :=
  match t, v with
  | TEnum _ uid usz, VB b | TChrono _ uid usz, VB b => [p_one (TPrim uid usz) (VB b)]
  | TString, VStr _ b => [p_size (len b); (CHAR, map (fun c => VB [c]) b)]
  | TVector t', VVec cap l => [p_size cap; p_size (len l); (t', l)]
  | TVecBool, VVec cap l => p_size cap :: p_size (len l) :: map (p_one BOOL) l
  | TArray _ t', VSeq l => [(t', l)]
  | TList _ t', VSeq l | TQueue t', VSeq l | TAssoc _ t', VSeq l | TAssoc _ t', VBag l =>
    p_size (len l) :: map (p_one t') l
  | TPair a b, VSeq [x; y] => [p_one a x; p_one b y]
  | TTuple ts, VSeq l => map (fun p => p_one (fst p) (snd p)) (combine ts l)
  | TOptional _, VOpt None => [p_bool false]
  | TOptional t', VOpt (Some x) => [p_bool true; p_one t' x]
  | TVariant ts, VVar i x =>
    match nth_error ts i with
    | Some t' => [p_size (N.of_nat i); p_one t' x]
    | None => []
    end
  | TUnique _, VOpt None => [p_bool true]
  | TUnique t', VOpt (Some x) =>
    p_bool false ::
    (if is_virtual E t' then
       match x with
       | VObj d _ => [(INT, [p_word 4 (match obj_idx E d with Some i => N.of_nat i | None => 0 end)]);
                      p_one (TClass d) x]
       | _ => []
       end
     else [p_one t' x])
  | TClass c, VObj _ [fs] => p_fields E c fs
  | _, _ => []
  end.

Definition parts (E : env) (t : ty) (v : val) : list part :=
  match v with
  | VObj d ls =>
    if is_virtual E t
    then map (fun p => Level (p_fields E (fst p) (snd p))) (combine (chain E d) ls)
    else map (fun p => Part (fst p) (snd p)) (simple_parts E t v)
  | _ => map (fun p => Part (fst p) (snd p)) (simple_parts E t v)
  end.

(** Scalars and byte-copyable objects have no parts: they take their sizeof. *)
Definition own (E : env) (t : ty) (v : val) : N :=
  match t, v with
  | TEnum _ _ _, _ | TChrono _ _ _, _ => 0
  | _, VB _ => sizeof E t
  | _, _ => 0
  end.

Definition sum (l : list N) : N := fold_right N.add 0 l.

(** Overhead of a nested part. *)
Definition overhead (E : env) : N := if chk E then 12 else 0.

Section Charges.
Variable E : env.
(** Size of an object without the 12 bytes every root has. *)
Variable net : ty -> val -> N.
Definition charge1 (p : ty * list val) : N :=
  match snd p with
  | [] => 0
  | _ => overhead E + sum (map (net (fst p)) (snd p))
  end.
Definition charge (p : part) : N :=
  match p with
  | Part t vs => charge1 (t, vs)
  | Level ps => overhead E + sum (map charge1 ps)
  end.
End Charges.

Definition part_objects (p : part) : list (ty * val) :=
  match p with
  | Part t vs => map (pair t) vs
  | Level ps => flat_map (fun q => map (pair (fst q)) (snd q)) ps
  end.

(** What getSize reports, less the overhead of the root. *)
Definition reported_net (E : env) (f : nat) (t : ty) (v : val) : N :=
  match get_size E f t v with Ok (_, n) => n - 12 | Err _ => 0 end.

Section Sizes.
Variable E : env.
Hypothesis wf : wf_env any E.
Notation body := (fun t v => len (encb E t v)).

Lemma len_framed : forall t n b, len (framed E t n b) = overhead E + len b.
Proof.
  intros. unfold framed, overhead. destruct (chk E); [|lia].
  rewrite !len_app, !len_le. lia.
Qed.

Lemma len_concat : forall l : list bytes, len (concat l) = sum (map len l).
Proof. induction l; cbn [concat map sum fold_right]; auto. rewrite len_app, IHl. reflexivity. Qed.

Lemma charge_array : forall t l, charge1 E body (t, l) = len (warray E t (map (encb E t) l)).
Proof.
  intros t l. unfold charge1, warray. cbn [snd fst]. destruct l; auto.
  cbn [map]. rewrite len_framed, len_concat, <- map_cons, map_map. reflexivity.
Qed.

Lemma charge_one : forall t v, charge1 E body (p_one t v) = len (framed E t 1 (encb E t v)).
Proof. intros. rewrite len_framed. cbn. lia. Qed.

Lemma charge_ones : forall t l,
  sum (map (charge1 E body) (map (p_one t) l))
  = len (concat (map (fun x => framed E t 1 (encb E t x)) l)).
Proof.
  intros. rewrite len_concat, !map_map. f_equal. apply map_ext. intros. apply charge_one.
Qed.

Lemma charge_word : forall id n x, charge1 E body (TPrim id n, [p_word n x])
  = len (framed E (TPrim id n) 1 (le n x)).
Proof. intros. apply (charge_one (TPrim id n) (p_word n x)). Qed.

Lemma charge_size : forall x, charge1 E body (p_size x) = len (wsize E x).
Proof. intros. apply (charge_word 0). Qed.
Lemma charge_bool : forall b, charge1 E body (p_bool b) = len (wbool E b).
Proof. intros. apply (charge_word 1). Qed.
Lemma charge_int : forall x, charge1 E body (INT, [p_word 4 x]) = len (wint E x).
Proof. intros. apply (charge_word 3). Qed.

Lemma charge_zip : forall ts l,
  sum (map (charge1 E body) (map (fun p => p_one (fst p) (snd p)) (combine ts l)))
  = len (concat (zipenc E ts l)).
Proof.
  induction ts; intros [|x l]; auto. cbn [combine map sum fold_right zipenc concat fst snd].
  unfold sum in IHts. rewrite IHts, len_app, charge_one. reflexivity.
Qed.

Lemma sum_app : forall a b, sum (a ++ b) = sum a + sum b.
Proof. induction a; intros; cbn [sum app fold_right]; auto. unfold sum in *. rewrite IHa. lia. Qed.

Lemma charge_fields : forall c k fs, cls E c = Some k -> wf_class k ->
  Forall2 (has_ty E) (cfields k) fs ->
  sum (map (charge1 E body) (p_fields E c fs)) = len (wmembers E (c, zipenc E (wfields E c) fs)).
Proof.
  intros c k fs Hk Hw HF. unfold p_fields, wmembers, wfields. cbn [fst snd]. rewrite Hk.
  assert (Hin : forall i, In i (cser k MPacking) -> (i < length (cfields k))%nat)
    by (intros i; apply (wfc_all k Hw)).
  induction (cser k MPacking) as [|i is_ IH]; auto.
  cbn [flat_map map concat]. rewrite map_app, sum_app, len_app, IH by (intros; apply Hin; now right).
  f_equal. specialize (Hin i (or_introl eq_refl)).
  destruct (nth_error (cfields k) i) as [t|] eqn:Et;
    [|apply nth_error_None in Et; lia].
  destruct (nth_error fs i) as [x|] eqn:Ex;
    [|apply nth_error_None in Ex; rewrite <- (Forall2_length _ _ _ _ _ HF) in Ex; lia].
  rewrite (zipenc_nth _ _ _ _ _ _ Et Ex). cbn [map sum fold_right].
  rewrite N.add_0_r, charge_one. reflexivity.
Qed.

Definition fine (n : nat) (p : ty * val) : Prop := has_ty E (fst p) (snd p) /\ (depth (snd p) <= n)%nat.

Lemma fine_word : forall id sz n x, (1 <= n)%nat -> fine n (TPrim id sz, p_word sz x).
Proof. intros. split; cbn; auto. constructor. apply le_length. Qed.

Lemma fine_elems : forall t l n, Forall (has_ty E t) l -> shallow (S n) l ->
  Forall (fine n) (map (pair t) l).
Proof.
  intros t l n H Hs. apply Forall_forall. intros p Hp. apply in_map_iff in Hp.
  destruct Hp as (x & <- & Hx). rewrite Forall_forall in H. unfold shallow in Hs.
  rewrite Forall_forall in Hs. split; cbn [fst snd]; auto. specialize (Hs x Hx). lia.
Qed.

Notation objs ps := (flat_map (fun q : ty * list val => map (pair (fst q)) (snd q)) ps).

Lemma objs_ones : forall t l, objs (map (p_one t) l) = map (pair t) l.
Proof. induction l; cbn; auto. f_equal. auto. Qed.

Lemma fine_fields : forall c k fs n, cls E c = Some k -> Forall2 (has_ty E) (cfields k) fs ->
  shallow (S n) fs -> Forall (fine n) (objs (p_fields E c fs)).
Proof.
  intros c k fs n Hk HF Hs. unfold p_fields. rewrite Hk.
  induction (cser k MPacking) as [|i is_ IH]; cbn [flat_map]; auto.
  rewrite flat_map_app. apply Forall_app. split; auto.
  destruct (nth_error (cfields k) i) as [t|] eqn:Et; [|constructor].
  destruct (nth_error fs i) as [x|] eqn:Ex; [|constructor].
  cbn. constructor; [|constructor]. split; cbn [fst snd].
  - eapply Forall2_nth; eauto.
  - unfold shallow in Hs. rewrite Forall_forall in Hs. apply nth_error_In in Ex.
    specialize (Hs x Ex). lia.
Qed.

Lemma simple_map : forall ps n,
  sum (map (charge E body) (map (fun p => Part (fst p) (snd p)) ps)) = sum (map (charge1 E body) ps)
  /\ (Forall (fine n) (objs ps) ->
      Forall (fine n) (flat_map part_objects (map (fun p => Part (fst p) (snd p)) ps))).
Proof.
  intros ps n. split.
  - rewrite map_map. apply (f_equal sum), map_ext. intros (t, l). reflexivity.
  - induction ps as [|(t, l) ps IH]; cbn [flat_map map]; auto. intros H.
    apply Forall_app in H. destruct H. apply Forall_app. split; auto.
Qed.

Ltac len_parts := cbn [encb own simple_parts map sum fold_right];
  rewrite ?len_app, <- ?charge_size, <- ?charge_bool, <- ?charge_int, <- ?charge_array, <- ?charge_ones,
    <- ?charge_one; unfold sum; try lia.
Ltac fine_parts := cbn [simple_parts flat_map app fst snd p_size p_one p_bool map];
  repeat (constructor; [first [apply (fine_word 0 8) | apply (fine_word 1 1) | apply (fine_word 3 4)]; cbn [depth] in *; lia|]).

Lemma simple_law : forall t v, has_ty E t v ->
  match v with VObj _ _ => is_virtual E t = false | _ => True end ->
  len (encb E t v) = own E t v + sum (map (charge1 E body) (simple_parts E t v)) /\
  Forall (fine (depth v)) (objs (simple_parts E t v)).
Proof.
  intros t v Ht Hv.
  assert (D : forall l n, (fold_right (fun x n => Nat.max (depth x) n) 1%nat l < n)%nat ->
     shallow (S n) l).
  { intros l n Hn. destruct (fold_depth l n Hn) as (Hs & _). unfold shallow in *.
    eapply Forall_impl; [|exact Hs]. cbn beta. intros; lia. }
  pose proof (depth_pos v) as Hp.
  assert (ONE : forall n t x, has_ty E t x -> (depth x <= n)%nat -> Forall (fine n) [(t, x)]).
  { intros. constructor; [|constructor]. split; auto. }
  inversion Ht; subst.
  - cbn. unfold len. split; [lia|constructor].
  - pose proof (charge_one (TPrim uid (length b)) (VB b)) as Hc. cbn [encb] in Hc.
    split; [len_parts; rewrite <- Hc; lia|]. apply ONE; [now constructor|auto].
  - pose proof (charge_one (TPrim uid (length b)) (VB b)) as Hc. cbn [encb] in Hc.
    split; [len_parts; rewrite <- Hc; lia|]. apply ONE; [now constructor|auto].
  - (* string *)
    split.
    + cbn [encb]. replace (warray E CHAR (map (fun c => [c]) b))
        with (warray E CHAR (map (encb E CHAR) (map (fun c => VB [c]) b)))
        by (rewrite map_map; reflexivity).
      len_parts.
    + fine_parts. rewrite app_nil_r. apply fine_elems.
      * apply Forall_forall. intros x Hx. apply in_map_iff in Hx. destruct Hx as (c & <- & _). now constructor.
      * apply Forall_forall. intros x Hx. apply in_map_iff in Hx. destruct Hx as (c & <- & _). cbn. lia.
  - (* vector *)
    split; [len_parts|]. fine_parts. rewrite app_nil_r. apply fine_elems; [auto|cbn [depth]; auto].
  - (* vector<bool> *)
    split; [len_parts|]. fine_parts. rewrite objs_ones. apply fine_elems; [|cbn [depth]; auto].
    match goal with X : Forall _ l |- _ => eapply Forall_impl; [|exact X] end. cbn beta.
    intros a [-> | ->]; now constructor.
  - (* array *)
    split; [len_parts|]. fine_parts. rewrite app_nil_r. apply fine_elems; [auto|cbn [depth]; auto].
  - split; [len_parts|]. fine_parts. rewrite objs_ones. apply fine_elems; [auto|cbn [depth]; auto].
  - split; [len_parts|]. fine_parts. rewrite objs_ones. apply fine_elems; [auto|cbn [depth]; auto].
  - split; [len_parts|]. fine_parts. rewrite objs_ones. apply fine_elems; [auto|cbn [depth]; auto].
  - split; [len_parts|]. fine_parts. rewrite objs_ones. apply fine_elems; [auto|cbn [depth]; auto].
  - (* pair *)
    split; [len_parts|]. cbn [depth fold_right] in *.
    fine_parts. constructor; [|constructor; [|constructor]]; split; cbn [fst snd]; auto; lia.
  - (* tuple *)
    split; [rewrite encb_tuple; cbn [simple_parts]; rewrite charge_zip; reflexivity|].
    assert (Hs : shallow (S (depth (VSeq l))) l) by (cbn [depth]; auto).
    revert Hs. generalize (depth (VSeq l)). intros n Hs. cbn [simple_parts].
    match goal with X : Forall2 _ ts l |- _ => clear - X Hs; induction X end; cbn; auto.
    unfold shallow in Hs. inversion Hs; subst. constructor; auto. split; cbn [fst snd]; auto. lia.
  - split; [len_parts|]. fine_parts. constructor.
  - split; [len_parts|]. fine_parts. apply ONE; auto. cbn [depth]. lia.
  - (* variant *)
    match goal with X : nth_error ts i = Some _ |- _ => rename X into HN end.
    split; [cbn [encb simple_parts]; rewrite HN; len_parts|].
    cbn [simple_parts]. rewrite HN. fine_parts. apply ONE; auto. cbn [depth]. lia.
  - cbn. split; [lia|constructor].
  - split; [len_parts|]. fine_parts. constructor.
  - (* unique_ptr *)
    match goal with X : is_virtual E _ = false |- _ => rename X into HV end.
    split; [cbn [encb simple_parts]; rewrite HV; cbn [app]; len_parts|].
    cbn [simple_parts]. rewrite HV. fine_parts. apply ONE; auto. cbn [depth]. lia.
  - (* unique_ptr to a polymorphic class *)
    match goal with X : is_virtual E _ = true |- _ => rename X into HV end.
    match goal with X : obj_idx E d = Some i |- _ => rename X into HI end.
    match goal with X : In c (chain E d) |- _ => rename X into HC end.
    assert (HE : encb E (TClass c) (VObj d ls) = encb E (TClass d) (VObj d ls)).
    { rewrite !encb_obj, HV, <- (chain_virtual any E wf d c HC), HV. reflexivity. }
    rewrite (encb_unique_dyn E c d ls i HV HI). cbn [simple_parts]. rewrite HV, HI. split.
    + rewrite !len_app. cbn [map sum fold_right]. unfold enc. rewrite HE.
      rewrite <- charge_bool, <- charge_int, charge_one, !len_framed. cbn [own]. lia.
    + fine_parts. apply ONE; auto.
      change (depth (VOpt (Some (VObj d ls)))) with (S (Nat.max 1 (depth (VObj d ls)))). lia.
  - cbn. match goal with X : cls E c = Some k |- _ => rewrite X end. split; [lia|constructor].
  - (* object of a class without virtual serialization *)
    match goal with X : Forall2 _ (chain E c) ls |- _ => rename X into HF end.
    match goal with X : chain E c <> [] |- _ => rename X into HC end.
    assert (Hch : chain E c = [c]).
    { destruct (cls E c) as [k|] eqn:Hk.
      - apply (chain_static any E wf c k Hk). unfold is_virtual in Hv. now rewrite Hk in Hv.
      - exfalso. apply HC. rewrite (chain_eq any E wf), Hk. reflexivity. }
    rewrite encb_obj, Hv. rewrite Hch in *.
    inversion HF as [|c0 fs cs ls0 (k & Hk & Hb & Hw & Hf) HF0]; subst. inversion HF0; subst.
    cbn [levelenc map concat simple_parts own]. rewrite app_nil_r, (charge_fields c k fs Hk Hw Hf).
    split; [lia|]. apply fine_fields with (k := k); auto.
    cbn [depth fold_right]. apply D. lia.
Qed.

Lemma sum_levels : forall cs ls, length cs = length ls ->
  sum (map (charge E body) (map (fun p => Level (p_fields E (fst p) (snd p))) (combine cs ls)))
  = sum (map (fun p => overhead E + sum (map (charge1 E body) (p_fields E (fst p) (snd p))))
          (combine cs ls)).
Proof. intros. rewrite map_map. reflexivity. Qed.

Lemma size_law : forall t v, has_ty E t v ->
  len (encb E t v) = own E t v + sum (map (charge E body) (parts E t v)) /\
  Forall (fine (depth v)) (flat_map part_objects (parts E t v)).
Proof.
  intros t v Ht.
  destruct (match v with VObj _ _ => is_virtual E t | _ => false end) eqn:Hvirt.
  - destruct v; try discriminate. unfold parts. rewrite Hvirt.
    inversion Ht; subst.
    match goal with X : Forall2 _ (chain E c) ls |- _ => rename X into HF end.
    rewrite encb_obj, Hvirt, levelenc_map by (eapply Forall2_length; eauto).
    assert (Hs : Forall (shallow (S (depth (VObj c ls)))) ls).
    { cbn [depth]. destruct (fold_depth2 ls _ (Nat.lt_succ_diag_r _)) as (Hs & _).
      eapply Forall_impl; [|exact Hs]. intros l Hl. eapply Forall_impl; [|exact Hl]. cbn beta. intros; lia. }
    revert Hs. generalize (depth (VObj c ls)). intros n Hs.
    cbn [own]. rewrite N.add_0_l, len_concat, sum_levels by (eapply Forall2_length; eauto).
    clear - HF Hs wf. induction HF as [|c0 fs cs ls0 (k & Hk & Hb & Hw & Hf) HF IH]; [split; auto; constructor|].
    inversion Hs; subst. destruct (IH H2) as (IH1 & IH2).
    cbn [combine map flat_map sum fold_right fst snd part_objects]. split.
    + rewrite len_framed, <- (charge_fields c0 k fs Hk Hw Hf). apply N.add_cancel_l. exact IH1.
    + apply Forall_app. split; auto. eapply fine_fields; eauto.
  - assert (Hp : parts E t v = map (fun p => Part (fst p) (snd p)) (simple_parts E t v)).
    { unfold parts. destruct v; auto. now rewrite Hvirt. }
    rewrite Hp. destruct (simple_law t v Ht) as (H1 & H2); [destruct v; auto|].
    destruct (simple_map (simple_parts E t v) (depth v)) as (H3 & H4).
    rewrite H3. auto.
Qed.

Lemma net_body : forall f t v, has_ty E t v -> (depth v < f)%nat -> 12 + len (encb E t v) < two64 ->
  reported_net E f t v = len (encb E t v).
Proof.
  intros f t v Ht Hd Hl. unfold reported_net.
  assert (He : len (enc_root E t v) = 12 + len (encb E t v)).
  { unfold enc_root, enc, framed. destruct (chk E); rewrite !len_app, !len_le; lia. }
  rewrite size_len; auto; [lia|]. now rewrite He.
Qed.

Lemma sum_in : forall l x, In x l -> x <= sum l.
Proof.
  induction l; intros x Hx; [destruct Hx|]. cbn [sum fold_right]. destruct Hx as [->|Hx]; [lia|].
  specialize (IHl x Hx). unfold sum in IHl. lia.
Qed.

Lemma charge1_in : forall t vs x, In x vs -> len (encb E t x) <= charge1 E body (t, vs).
Proof.
  intros t vs x Hx. unfold charge1. cbn [fst snd]. destruct vs; [destruct Hx|].
  pose proof (sum_in (map (fun v => len (encb E t v)) (v :: vs)) (len (encb E t x))) as H.
  assert (In (len (encb E t x)) (map (fun v => len (encb E t v)) (v :: vs)))
    by (apply in_map_iff; eauto).
  specialize (H H0). lia.
Qed.

Lemma charge_in : forall p q, In q (part_objects p) -> len (encb E (fst q) (snd q)) <= charge E body p.
Proof.
  intros [t vs|ps] q Hq; cbn [part_objects charge] in *.
  - apply in_map_iff in Hq. destruct Hq as (x & <- & Hx). now apply charge1_in.
  - apply in_flat_map in Hq. destruct Hq as ((t, vs) & Hin & Hq). cbn [fst snd] in Hq.
    apply in_map_iff in Hq. destruct Hq as (x & <- & Hx). cbn [fst snd].
    pose proof (charge1_in t vs x Hx).
    pose proof (sum_in (map (charge1 E body) ps) (charge1 E body (t, vs))
                  ltac:(apply in_map_iff; eauto)). lia.
Qed.

Lemma charge1_ext : forall (n1 n2 : ty -> val -> N) t vs, (forall x, In x vs -> n1 t x = n2 t x) ->
  charge1 E n1 (t, vs) = charge1 E n2 (t, vs).
Proof.
  intros n1 n2 t vs H. unfold charge1. cbn [fst snd]. destruct vs; auto. f_equal. f_equal.
  apply map_ext_in. auto.
Qed.

Lemma charge_ext : forall (n1 n2 : ty -> val -> N) p,
  (forall q, In q (part_objects p) -> n1 (fst q) (snd q) = n2 (fst q) (snd q)) ->
  charge E n1 p = charge E n2 p.
Proof.
  intros n1 n2 [t vs|ps] H; cbn [part_objects charge] in *.
  - apply charge1_ext. intros x Hx. apply (H (t, x)). now apply in_map.
  - f_equal. f_equal. apply map_ext_in. intros (t, vs) Hin. apply charge1_ext.
    intros x Hx. apply (H (t, x)). apply in_flat_map. exists (t, vs). split; auto.
    cbn [fst snd]. now apply in_map.
Qed.
End Sizes.

(** getSize of an object is 12 + what a scalar takes + for every part the
    overhead of a nested part and the sizes getSize reports for the objects of
    the part, each less the 12 bytes of a root.  No step wraps. *)
Theorem C36_sum_of_parts : forall E f t v,
  wf_env any E -> has_ty E t v -> (depth v < f)%nat -> len (enc_root E t v) < two64 ->
  get_size E f t v =
    Ok (v, 12 + own E t v + sum (map (charge E (reported_net E f)) (parts E t v))) /\
  forall q, In q (flat_map part_objects (parts E t v)) ->
    exists n, get_size E f (fst q) (snd q) = Ok (snd q, n) /\ 12 <= n < two64.
Proof.
  intros E f t v wf Ht Hd Hl.
  destruct (size_law E wf t v Ht) as (Hsum & Hfine).
  assert (He : forall t v, len (enc_root E t v) = 12 + len (encb E t v)).
  { intros. unfold enc_root, enc, framed. destruct (chk E); rewrite !len_app, !len_le; lia. }
  assert (Hle : forall q, In q (flat_map part_objects (parts E t v)) ->
     12 + len (encb E (fst q) (snd q)) < two64).
  { intros q Hq. apply in_flat_map in Hq. destruct Hq as (p & Hp & Hq).
    pose proof (charge_in E p q Hq).
    pose proof (sum_in (map (charge E (fun t v => len (encb E t v))) (parts E t v))
      (charge E (fun t v => len (encb E t v)) p) ltac:(apply in_map_iff; eauto)).
    rewrite He in Hl. lia. }
  rewrite Forall_forall in Hfine.
  split.
  - rewrite size_len by auto. do 2 f_equal. rewrite He, Hsum.
    replace (map (charge E (reported_net E f)) (parts E t v))
      with (map (charge E (fun t v => len (encb E t v))) (parts E t v)); [lia|].
    apply map_ext_in. intros p Hp. symmetry. apply charge_ext. intros q Hq.
    assert (Hin : In q (flat_map part_objects (parts E t v))) by (apply in_flat_map; eauto).
    destruct (Hfine q Hin) as (Hq1 & Hq2). apply net_body; auto; lia.
  - intros q Hin. destruct (Hfine q Hin) as (Hq1 & Hq2). specialize (Hle q Hin).
    exists (len (enc_root E (fst q) (snd q))). rewrite He. split; [|lia].
    rewrite <- He. apply size_len; auto; [lia|]. now rewrite He.
Qed.
Print Assumptions C36_sum_of_parts.

(** A vector of two strings and the polymorphic objects of Examples.v. *)
Example C36_case : forall b,
  (get_size (ex b) 12 t_shapes v_shapes =
     Ok (v_shapes, 12 + own (ex b) t_shapes v_shapes +
           sum (map (charge (ex b) (reported_net (ex b) 12)) (parts (ex b) t_shapes v_shapes))) /\
   forall q, In q (flat_map part_objects (parts (ex b) t_shapes v_shapes)) ->
     exists n, get_size (ex b) 12 (fst q) (snd q) = Ok (snd q, n) /\ 12 <= n < two64) /\
  (get_size (ex b) 12 (TClass 3) v_ring =
     Ok (v_ring, 12 + own (ex b) (TClass 3) v_ring +
           sum (map (charge (ex b) (reported_net (ex b) 12)) (parts (ex b) (TClass 3) v_ring))) /\
   forall q, In q (flat_map part_objects (parts (ex b) (TClass 3) v_ring)) ->
     exists n, get_size (ex b) 12 (fst q) (snd q) = Ok (snd q, n) /\ 12 <= n < two64).
Proof.
  intros b. split; apply C36_sum_of_parts;
    [apply ex_wf; exact I|apply v_shapes_ty|vm_compute; lia|destruct b; vm_compute; reflexivity
    |apply ex_wf; exact I|destruct b; ht|vm_compute; lia|destruct b; vm_compute; reflexivity].
Qed.

(** std::vector<double> v = {1, 2} with capacity 3: 12 for the root, two size_t
    and one array, with and without 12 bytes for each of the three parts. *)
Example C36_numbers :
  get_size (ex true) 12 (TVector DBL) (VVec 3 [w8 1; w8 2])
    = Ok (VVec 3 [w8 1; w8 2], 12 + (12 + 8) + (12 + 8) + (12 + (8 + 8))) /\
  get_size (ex false) 12 (TVector DBL) (VVec 3 [w8 1; w8 2])
    = Ok (VVec 3 [w8 1; w8 2], 12 + 8 + 8 + (8 + 8)).
Proof. split; vm_compute; reflexivity. Qed.

(** ** C20 *)

(** Missing: targets that hold non-empty maps, sets, queues or move-only
    containers, or a polymorphic pointee of another class ([target] excludes
    them); for those the statement is false, see below and C24. *)
Theorem C20_in_place_partial : forall E f t v w,
  wf_env any E -> has_ty E t v -> constructible E t -> target (fun _ _ => True) E t v w ->
  (depth v < f)%nat -> len (enc_root E t v) < two64 ->
  exists s a b n, serialize E f t v None = Ok s /\
    deserialize E f t (s_bytes s) 0 = Ok (a, n) /\
    deserialize_in_place E f t (s_bytes s) 0 w = Ok (b, n) /\
    same a b /\ same v b.
Proof.
  intros E f t v w wf Ht Hc Hw Hd Hl.
  destruct (deserialize_ok E wf f t v Ht Hc Hd) as (a & Ha & H1).
  destruct (in_place_ok E wf f t v w Ht Hw Hd) as (b & Hb & H2).
  specialize (H1 [] []). specialize (H2 [] []). cbn [app length] in *. rewrite app_nil_r in *.
  eexists. exists a, b. eexists.
  split; [apply serialize_managed; auto|]. cbn [s_bytes].
  split; [exact H1|]. split; [exact H2|].
  apply sim_same in Ha. apply sim_same in Hb. split; auto.
  eapply same_trans; [apply same_sym; exact Ha|exact Hb].
Qed.
Print Assumptions C20_in_place_partial.

(** Overwriting an object with longer and shorter strings and vectors, a linked
    list that is longer than the serialized one, and pointers. *)
Definition w_node : val :=
  VObj 0 [[w8 5; VVec 9 [s_long; s_long; s_ab];
           VOpt (Some (VObj 0 [[w8 1; VVec 2 [s_ab];
             VOpt (Some (VObj 0 [[w8 2; VVec 0 []; VOpt None]]))]]))]].

Example C20_case : forall b, exists s a c n, serialize (ex b) 12 (TClass 0) v_node None = Ok s /\
    deserialize (ex b) 12 (TClass 0) (s_bytes s) 0 = Ok (a, n) /\
    deserialize_in_place (ex b) 12 (TClass 0) (s_bytes s) 0 w_node = Ok (c, n) /\
    same a c /\ same v_node c.
Proof.
  intros b. apply C20_in_place_partial.
  - apply ex_wf. exact I.
  - apply v_node_ty.
  - destruct b; vm_compute; discriminate.
  - apply TgClass; [reflexivity|]. cbn. constructor; [|constructor].
    eexists. split; [reflexivity|]. split; [reflexivity|]. cbn.
    constructor; [now constructor|]. constructor.
    { constructor; [exact I|left; reflexivity|]. cbn. repeat constructor. }
    constructor; [|constructor]. apply TgUnique; [reflexivity|].
    apply TgClass; [reflexivity|]. cbn. constructor; [|constructor].
    eexists. split; [reflexivity|]. split; [reflexivity|]. cbn.
    constructor; [now constructor|]. constructor.
    { constructor; [exact I|left; reflexivity|]. cbn. repeat constructor. }
    constructor; [|constructor]. apply TgReset.
  - vm_compute. lia.
  - destruct b; vm_compute; reflexivity.
Qed.

Section Appending.
Variable E : env.
Hypothesis wf : wf_env any E.
Notation anyC := (fun _ _ : N => True).

Let any_any : forall c w : N, any w -> anyC c w.
Proof. exact (fun _ _ _ => I). Qed.
Let any_max : forall c w : N, anyC c w -> c <= N.max w c.
Proof. intros; lia. Qed.
Let U (f : nat) := unpack_all any E wf anyC N.le any_any any_max f.

(** From the body of a container to the whole call. *)
Lemma onto_root : forall f t v w x, bytecopy E t = false -> is_virtual E t = false ->
  has_ty E t v -> (depth v < S f)%nat -> len (enc_root E t v) < two64 ->
  reads (apply_elem E MUnpacking (with_ E MUnpacking f) t w) false (encb E t v) x false ->
  round_trip_onto E (S f) t v w x.
Proof.
  intros f t v w x Hb Hv Ht Hd Hl Hr.
  assert (HR : reads (with_root E MUnpacking (S f) t w) false (enc_root E t v) x false).
  { rewrite enc_root_frame. apply (reads_root E any); auto.
    unfold ser. cbn [with_]. unfold traverse. eapply reads_eq; [|apply app_nil_r].
    eapply reads_bind with (a := [x]) (vf1 := false); [|apply reads_ret].
    apply (reads_framed any E wf). unfold ap. rewrite Hb, Hv. cbn [mapP].
    eapply reads_eq; [|apply app_nil_r]. eapply reads_bind; [exact Hr|]. cbn [bind]. apply reads_ret. }
  eexists. eexists. split; [apply serialize_managed; auto|]. cbn [s_bytes].
  pose proof (in_place_reads E (S f) t w _ x HR [] []) as H. cbn [app length] in H.
  rewrite app_nil_r in H. exact H.
Qed.

Lemma onto_queue : forall f t l old, has_ty E (TQueue t) (VSeq l) -> (depth (VSeq l) < S f)%nat ->
  len (enc_root E (TQueue t) (VSeq l)) < two64 ->
  exists l', Forall2 copy_of l l' /\
    round_trip_onto E (S f) (TQueue t) (VSeq l) (VSeq old) (VSeq (old ++ l')).
Proof.
  intros f t l old Ht Hd Hl. inversion Ht; subst.
  pose proof Hd as Hd'. cbn [depth] in Hd'. destruct (fold_depth l f) as (Hs & H1n); [lia|].
  destruct (u_push_elems any E wf anyC N.le any_any (with_ E MUnpacking f) f (proj1 (U f)) t l old)
    as (xs & Hsim & Hr); auto.
  exists xs. split; auto. apply onto_root; auto.
  cbn [apply_elem encb]. unfold ser_queue, ser_container_size. cbn [is_footprinting is_unpacking].
  eapply reads_bind.
  { apply (u_size E anyC N.le (with_ E MUnpacking f) f (proj1 (U f))) with (x := len l); auto; lia. }
  unfold len at 1. rewrite Nat2N.id. eapply reads_eq; [|apply app_nil_r].
  eapply reads_bind; [exact Hr|]. apply reads_ret.
Qed.

Lemma onto_list : forall f dq t l old, has_ty E (TList dq t) (VSeq l) -> copyc E t = false ->
  (depth (VSeq l) < S f)%nat -> len (enc_root E (TList dq t) (VSeq l)) < two64 ->
  exists l', Forall2 copy_of l l' /\
    round_trip_onto E (S f) (TList dq t) (VSeq l) (VSeq old) (VSeq (old ++ l')).
Proof.
  intros f dq t l old Ht Hcc Hd Hl. inversion Ht; subst.
  pose proof Hd as Hd'. cbn [depth] in Hd'. destruct (fold_depth l f) as (Hs & H1n); [lia|].
  destruct (u_push_elems any E wf anyC N.le any_any (with_ E MUnpacking f) f (proj1 (U f)) t l old)
    as (xs & Hsim & Hr); auto.
  exists xs. split; auto. apply onto_root; auto.
  cbn [apply_elem encb]. unfold ser_list, ser_container_size, deser_ordered.
  cbn [is_footprinting is_unpacking]. rewrite Hcc.
  eapply reads_bind.
  { apply (u_size E anyC N.le (with_ E MUnpacking f) f (proj1 (U f))) with (x := len l); auto; lia. }
  unfold len at 1. rewrite Nat2N.id. eapply reads_eq; [|apply app_nil_r].
  eapply reads_bind; [exact Hr|]. apply reads_ret.
Qed.

Definition holding (k : assoc) (l : list val) : val :=
  match k with AOrd _ _ => VSeq l | AHash _ _ => VBag l end.

Lemma insert_sorted_in : forall lt x l y, In y l -> In y (insert_sorted lt x l).
Proof.
  induction l; intros y Hy; [destruct Hy|]. cbn [insert_sorted].
  destruct (lt x a); [now right|]. destruct Hy as [->|Hy]; [now left|right; auto].
Qed.

Lemma emplace_keeps : forall k t ys x, exists ys', emplace E k t (holding k ys) x = Some (holding k ys') /\
  (forall y, In y ys -> In y ys').
Proof.
  intros [multi mp|multi mp] t ys x; cbn [holding emplace].
  - destruct (negb multi && _); eexists; (split; [reflexivity|]); auto.
    intros y Hy. now apply insert_sorted_in.
  - destruct (negb multi && _); eexists; (split; [reflexivity|]); auto.
    intros y Hy. eapply Permutation_in; [apply Permutation_sym, (wf_hplace _ _ wf)|now right].
Qed.

Lemma onto_assoc : forall f k t l old, has_ty E (TAssoc k t) (holding k l) ->
  (depth (holding k l) < S f)%nat -> len (enc_root E (TAssoc k t) (holding k l)) < two64 ->
  exists l', round_trip_onto E (S f) (TAssoc k t) (holding k l) (holding k old) (holding k l') /\
    forall x, In x old -> In x l'.
Proof.
  intros f k t l old Ht Hd Hl.
  assert (HH : len l < two64 /\ constructible E t /\ Forall (has_ty E t) l).
  { destruct k; cbn [holding] in Ht; inversion Ht; subst; auto. }
  destruct HH as (Hlen & Hc & Hall).
  assert (Hs : shallow f l /\ (1 < f)%nat).
  { destruct k; cbn [holding depth] in Hd; apply fold_depth; lia. }
  destruct Hs as (Hs & H1n).
  destruct (reads_accum val val val
      (fun acc (_ : unit) => bind (construct E t) (fun d => bind (ser (with_ E MUnpacking f) t d)
         (fun x => leave_elem E k t x (of_opt (emplace E k t acc x)))))
      (enc E t) copy_of (fun _ s => exists ys, s = holding k ys /\ forall x, In x old -> In x ys) false l)
      with (s0 := holding k old)
      as (xs & s & Hsim & (ys & -> & Hk) & Hr).
  - intros pre v0 suf xs s -> Hpre (ys & -> & Hk).
    destruct (u_fresh_ser any E wf anyC N.le any_any (with_ E MUnpacking f) f (proj1 (U f)) t v0)
      as (x & Hsx & Hr); auto.
    { rewrite Forall_forall in Hall. apply Hall. apply in_or_app. right. now left. }
    { eapply shallow_in; eauto. apply in_or_app. right. now left. }
    destruct (emplace_keeps k t ys x) as (ys' & He & Hy).
    exists x, (holding k ys'). split; [auto|]. split; [exists ys'; split; auto|].
    eapply reads_eq; [apply Hr|apply app_nil_r]. rewrite He. apply reads_leave_elem, reads_ret.
  - exists old. auto.
  - exists ys. split; auto. apply onto_root; auto.
    cbn [apply_elem]. unfold ser_assoc, ser_container_size.
    replace (elements (holding k old)) with (Some old) by (destruct k; reflexivity).
    cbn [is_footprinting is_unpacking of_opt bind].
    replace (encb E (TAssoc k t) (holding k l)) with (wsize E (len l) ++ concat (map (enc E t) l))
      by (destruct k; reflexivity).
    eapply reads_bind.
    { apply (u_size E anyC N.le (with_ E MUnpacking f) f (proj1 (U f))) with (x := len l); auto; lia. }
    unfold len at 1. rewrite Nat2N.id. exact Hr.
Qed.
End Appending.

(** What happens instead: a queue, or a list of move-only elements, keeps what it
    contained and the serialized elements are appended; a map or set keeps all
    its elements. *)
Theorem C20_queue_appends : forall E f t l old,
  wf_env any E -> has_ty E (TQueue t) (VSeq l) -> (depth (VSeq l) < f)%nat ->
  len (enc_root E (TQueue t) (VSeq l)) < two64 ->
  exists l', Forall2 copy_of l l' /\
    round_trip_onto E f (TQueue t) (VSeq l) (VSeq old) (VSeq (old ++ l')).
Proof.
  intros E f t l old wf Ht Hd Hl. destruct f; [lia|]. apply onto_queue; auto.
Qed.
Print Assumptions C20_queue_appends.

Example C20_queue_case : exists l', Forall2 copy_of [s_long; s_ab] l' /\
  round_trip_onto (ex true) 12 (TQueue TString) (VSeq [s_long; s_ab]) (VSeq [s_ab]) (VSeq ([s_ab] ++ l')).
Proof.
  apply C20_queue_appends; [apply ex_wf; exact I|ht|vm_compute; lia|vm_compute; reflexivity].
Qed.

Theorem C20_move_only_list_appends : forall E f dq t l old,
  wf_env any E -> has_ty E (TList dq t) (VSeq l) -> copyc E t = false -> (depth (VSeq l) < f)%nat ->
  len (enc_root E (TList dq t) (VSeq l)) < two64 ->
  exists l', Forall2 copy_of l l' /\
    round_trip_onto E f (TList dq t) (VSeq l) (VSeq old) (VSeq (old ++ l')).
Proof.
  intros E f dq t l old wf Ht Hcc Hd Hl. destruct f; [lia|]. apply onto_list; auto.
Qed.
Print Assumptions C20_move_only_list_appends.

Example C20_list_case : exists l', Forall2 copy_of [v_node] l' /\
  round_trip_onto (ex true) 12 (TList false (TClass 0)) (VSeq [v_node]) (VSeq [w_node]) (VSeq ([w_node] ++ l')).
Proof.
  apply C20_move_only_list_appends;
    [apply ex_wf; exact I|ht|reflexivity|vm_compute; lia|vm_compute; reflexivity].
Qed.

Theorem C20_associative_keeps : forall E f k t l old,
  wf_env any E -> has_ty E (TAssoc k t) (holding k l) -> (depth (holding k l) < f)%nat ->
  len (enc_root E (TAssoc k t) (holding k l)) < two64 ->
  exists l', round_trip_onto E f (TAssoc k t) (holding k l) (holding k old) (holding k l') /\
    forall x, In x old -> In x l'.
Proof.
  intros E f k t l old wf Ht Hd Hl. destruct f; [lia|]. apply onto_assoc; auto.
Qed.
Print Assumptions C20_associative_keeps.

Example C20_set_case : exists l',
  round_trip_onto (ex true) 12 (TAssoc (AHash false false) OINT) (VBag [w4 3; w4 1]) (VBag [w4 1; w4 9]) (VBag l') /\
    forall x, In x [w4 1; w4 9] -> In x l'.
Proof.
  apply (C20_associative_keeps (ex true) 12 (AHash false false) OINT [w4 3; w4 1] [w4 1; w4 9]);
    [apply ex_wf; exact I| |vm_compute; lia|vm_compute; reflexivity].
  apply HtHash; [side|side|hts|]. intros _. repeat constructor.
Qed.

(** So the property is false for a queue, a list of move-only elements, a set and
    a map. *)
Definition replaces (E : env) (f : nat) (t : ty) (v w : val) : Prop :=
  exists a b, round_trip E f t v a /\ round_trip_onto E f t v w b /\ same a b.
Definition t_map := TAssoc (AOrd false true) (TPair OINT TString).

Lemma same_seq_length : forall l l', same (VSeq l) (VSeq l') -> length l = length l'.
Proof. intros l l' H. inversion H; subst. eapply Forall2_length; eauto. Qed.

Lemma onto_fun : forall E f t v w a b, round_trip_onto E f t v w a -> round_trip_onto E f t v w b -> a = b.
Proof.
  intros E f t v w a b (s & n & H1 & H2) (s' & n' & H3 & H4). rewrite H1 in H3. inversion H3; subst.
  rewrite H2 in H4. now inversion H4.
Qed.

Lemma not_replaced : forall E f t v w a b, round_trip E f t v (VSeq a) ->
  round_trip_onto E f t v w (VSeq b) -> length a <> length b -> ~ replaces E f t v w.
Proof.
  intros E f t v w a b Ha Hb Hl (a' & b' & Ha' & Hb' & Hs).
  rewrite (round_trip_fun _ _ _ _ _ _ Ha' Ha), (onto_fun _ _ _ _ _ _ _ Hb' Hb) in Hs.
  apply Hl. now apply same_seq_length.
Qed.

Theorem C20_refuted :
  Forall (fun tvw : ty * val * val => let '(t, v, w) := tvw in
      has_ty (ex true) t v /\ has_ty (ex true) t w /\ constructible (ex true) t /\
      ~ replaces (ex true) 12 t v w)
    [ (TQueue OINT, VSeq [w4 1; w4 2], VSeq [w4 3]);
      (TList true (TUnique OINT), VSeq [VOpt None], VSeq [VOpt (Some (w4 3))]);
      (TAssoc (AOrd true false) OINT, VSeq [w4 1], VSeq [w4 1; w4 3]);
      (t_map, VSeq [VSeq [w4 1; s_ab]], VSeq [VSeq [w4 2; s_long]]) ].
Proof.
  assert (RT : forall t v a,
            match serialize (ex true) 12 t v None with
            | Ok s => match deserialize (ex true) 12 t (s_bytes s) 0 with
                      | Ok (x, _) => x = a | Err _ => False end
            | Err _ => False
            end -> round_trip (ex true) 12 t v a).
  { intros t v a H. unfold round_trip.
    destruct (serialize (ex true) 12 t v None) as [s|]; [|destruct H].
    destruct (deserialize (ex true) 12 t (s_bytes s) 0) as [(x, n)|] eqn:Ed; [|destruct H]. subst.
    exists s, n. auto. }
  assert (RO : forall t v w a,
            match serialize (ex true) 12 t v None with
            | Ok s => match deserialize_in_place (ex true) 12 t (s_bytes s) 0 w with
                      | Ok (x, _) => x = a | Err _ => False end
            | Err _ => False
            end -> round_trip_onto (ex true) 12 t v w a).
  { intros t v w a H. unfold round_trip_onto.
    destruct (serialize (ex true) 12 t v None) as [s|]; [|destruct H].
    destruct (deserialize_in_place (ex true) 12 t (s_bytes s) 0 w) as [(x, n)|] eqn:Ed; [|destruct H]. subst.
    exists s, n. auto. }
  repeat (apply Forall_cons; [split; [|split; [|split]]|]); [..|apply Forall_nil].
  - ht. - ht. - vm_compute; discriminate.
  - apply (not_replaced _ _ _ _ _ [w4 1; w4 2] [w4 3; w4 1; w4 2]);
      [apply RT; vm_compute; reflexivity
      |apply RO; vm_compute; reflexivity|discriminate].
  - ht. - ht. - vm_compute; discriminate.
  - apply (not_replaced _ _ _ _ _ [VOpt None] [VOpt (Some (w4 3)); VOpt None]);
      [apply RT; vm_compute; reflexivity
      |apply RO; vm_compute; reflexivity|discriminate].
  - ht. - ht. - vm_compute; discriminate.
  - apply (not_replaced _ _ _ _ _ [w4 1] [w4 1; w4 1; w4 3]);
      [apply RT; vm_compute; reflexivity
      |apply RO; vm_compute; reflexivity|discriminate].
  - ht. - ht. - vm_compute; discriminate.
  - apply (not_replaced _ _ _ _ _ [VSeq [w4 1; s_ab]] [VSeq [w4 1; s_ab]; VSeq [w4 2; s_long]]);
      [apply RT; vm_compute; reflexivity
      |apply RO; vm_compute; reflexivity|discriminate].
Qed.
Print Assumptions C20_refuted.
