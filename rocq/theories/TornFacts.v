(** What a read that throws leaves behind: proofs. *)
From Coq Require Import List NArith Arith Bool Lia.
From Coq.Strings Require Import Byte.
From Verif Require Import Base Syntax Prog Serializers Traverse Spec ProgFacts EnvFacts
  RegistryFacts ApiFacts Torn Robust RobustFacts TornSpec.
From Verif Require Pack.
Import ListNotations.
Local Open Scope N_scope.
Local Open Scope prog_scope.

Section Agree.
Variable E : env.
Variable H : serializer.
Variable short : state H -> bytes -> bytes.
Hypothesis Hcount : forall n s, count H n s = s.
Hypothesis Hnote : forall e s, note H e s = s.
Hypothesis Hbump : forall i b s e, contig H b s = Err e -> bump i e = e.

(** The outcome is that of the traversal. *)
Definition agree {A} (r : A * outcome H) (i : res (A * bool * state H)) : Prop :=
  match r with
  | (a, Cont vf s) => i = Ok (a, vf, s)
  | (_, Stop e _) => i = Err e
  end.

Lemma agree_ret : forall A (a : A) vf s, agree (a, Cont vf s) (interp H (Ret a) vf s).
Proof. reflexivity. Qed.

Lemma agree_local : forall A B (p : prog A) (old : B) k k' vf s,
  (forall a vf s, agree (k a vf s) (interp H (k' a) vf s)) ->
  agree (with_local H p old k vf s) (interp H (bind p k') vf s).
Proof.
  intros A B p old k k' vf s Hk. unfold with_local. rewrite interp_bind.
  destruct (interp H p vf s) as [[[a vf'] s']|e]; [apply Hk|reflexivity].
Qed.

Lemma agree_then : forall A B (r : A * outcome H) (p : prog A) put
  (k : A -> bool -> state H -> B * outcome H) k' vf s,
  agree r (interp H p vf s) ->
  (forall a vf s, agree (k a vf s) (interp H (k' a) vf s)) ->
  agree (then_ H r put k) (interp H (bind p k') vf s).
Proof.
  intros A B r p put k k' vf s Hr Hk. rewrite interp_bind. unfold then_.
  destruct r as [a [vf1 s1|e lost]]; cbn [agree] in Hr; rewrite Hr; [apply Hk|reflexivity].
Qed.

Lemma agree_map : forall A (g : A -> bool -> state H -> A * outcome H) g',
  (forall a vf s, agree (g a vf s) (interp H (g' a) vf s)) ->
  forall l vf s, agree (torn_map H g l vf s) (interp H (mapP g' l) vf s).
Proof.
  intros A g g' Hg l. induction l as [|x l IH]; intros vf s; cbn [torn_map mapP]; [reflexivity|].
  apply agree_then; auto. intros y vf1 s1.
  apply agree_then; auto. intros ys vf2 s2. reflexivity.
Qed.

Lemma agree_fold : forall A B (g : B -> A -> bool -> state H -> B * outcome H) g',
  (forall b a vf s, agree (g b a vf s) (interp H (g' b a) vf s)) ->
  forall l b vf s, agree (torn_fold H g l b vf s) (interp H (foldP g' l b) vf s).
Proof.
  intros A B g g' Hg l. induction l as [|x l IH]; intros b vf s; cbn [torn_fold foldP]; [reflexivity|].
  apply agree_then; auto.
Qed.

Lemma agree_note : forall A (r : A * outcome H) e (p : prog A) vf s,
  agree r (interp H p vf s) -> agree r (interp H (Note e p) vf s).
Proof. intros A r e p vf s Hr. cbn [interp]. now rewrite Hnote. Qed.
Lemma agree_count : forall A (r : A * outcome H) n (p : prog A) vf s,
  agree r (interp H p vf s) -> agree r (interp H (Count n p) vf s).
Proof. intros A r e p vf s Hr. cbn [interp]. now rewrite Hcount. Qed.

Section Rec.
Variable R : ty -> list val -> prog (list val).
Variable rec : ty -> list val -> bool -> state H -> list val * outcome H.
Hypothesis Hrec : forall t vs vf s, agree (rec t vs vf s) (interp H (R t vs) vf s).

Lemma agree_ser : forall t v vf s, agree (torn_ser H rec t v vf s) (interp H (ser R t v) vf s).
Proof.
  intros t v vf s. unfold torn_ser, ser. apply agree_then; auto.
  intros vs vf1 s1. destruct vs as [|x [|]]; reflexivity.
Qed.

Lemma agree_array : forall t vs vf s,
  agree (torn_array H rec t vs vf s) (interp H (ser_array R t vs) vf s).
Proof. intros t vs vf s. unfold torn_array, ser_array. destruct vs; [reflexivity|apply Hrec]. Qed.

Lemma agree_leave : forall A t x (r : A * outcome H) p vf s,
  agree r (interp H p vf s) -> agree r (interp H (leave E t x p) vf s).
Proof. intros. unfold leave. destruct (movec E t); auto. now apply agree_note. Qed.
Lemma agree_leave_elem : forall A k t x (r : A * outcome H) p vf s,
  agree r (interp H p vf s) -> agree r (interp H (leave_elem E k t x p) vf s).
Proof.
  intros A k t x r p vf s Hr. unfold leave_elem.
  repeat match goal with
  | |- context [match ?y with _ => _ end] => destruct y
  end; first [apply agree_note; now apply agree_leave | now apply agree_leave].
Qed.

Lemma agree_temp : forall B t (old : B) k k' vf s,
  (forall x vf s, agree (k x vf s) (interp H (k' x) vf s)) ->
  agree (with_temp E H rec t old k vf s) (interp H (d <- construct E t;; x <- ser R t d;; k' x) vf s).
Proof.
  intros B t old k k' vf s Hk. unfold with_temp. apply agree_local. intros d vf1 s1.
  rewrite interp_bind. pose proof (agree_ser t d vf1 s1) as Hs.
  destruct (torn_ser H rec t d vf1 s1) as [x [vf2 s2|e lost]]; cbn [agree] in Hs; rewrite Hs;
    [apply Hk|reflexivity].
Qed.

Lemma agree_meta : forall B cap n (old : B) old1 k (k' : N * N -> prog B) vf s,
  (forall c m vf s, agree (k c m vf s) (interp H (k' (N.max cap c, m)) vf s)) ->
  agree (with_local H (ser_size R cap) old (fun c => with_local H (ser_size R n) (old1 c) (k c)) vf s)
    (interp H (meta <- ser_vector_meta R cap n;; k' meta) vf s).
Proof.
  intros B cap n old old1 k k' vf s Hk. unfold ser_vector_meta, with_local.
  rewrite !interp_bind. destruct (interp H (ser_size R cap) vf s) as [[[c vf1] s1]|e]; [|reflexivity].
  rewrite interp_bind. destruct (interp H (ser_size R n) vf1 s1) as [[[m vf2] s2]|e]; [|reflexivity].
  cbn [interp]. apply Hk.
Qed.

Lemma agree_vector : forall t cap l vf s,
  agree (torn_vector E H R rec t cap l vf s) (interp H (ser_vector E MUnpacking R t cap l) vf s).
Proof.
  intros t cap l vf s. unfold torn_vector, ser_vector. cbn [is_footprinting is_unpacking].
  apply (agree_meta _ _ _ _ _ (fun c n => with_local H (construct_vector_data E t (N.to_nat n) l)
    (VVec (N.max cap c) l) (fun l1 vf0 s0 => then_ H (torn_array H rec t l1 vf0 s0)
      (fun l2 => VVec (N.max (N.max cap c) (len l2)) l2)
      (fun l2 vf1 s1 => (VVec (N.max (N.max cap c) (len l2)) l2, Cont vf1 s1))))).
  intros c n vf1 s1. apply agree_local. intros l1 vf2 s2.
  apply agree_then; [apply agree_array|]. reflexivity.
Qed.

Lemma agree_vecbool : forall cap l vf s,
  agree (torn_vecbool H R cap l vf s) (interp H (ser_vecbool E MUnpacking R cap l) vf s).
Proof.
  intros cap l vf s. unfold torn_vecbool, ser_vecbool. cbn [is_footprinting is_unpacking].
  apply (agree_meta _ _ _ _ _ (fun c n vf0 s0 =>
     then_ H (torn_map H (fun x => with_local H (ser_bool R false) x
         (fun b vf s => (VB (le 1 (if b then 1 else 0)), Cont vf s)))
         (resize (N.to_nat n) (VB (le 1 0)) l) vf0 s0)
       (fun l2 => VVec (N.max (N.max cap c) (len l2)) l2)
       (fun l2 vf1 s1 => (VVec (N.max (N.max cap c) (len l2)) l2, Cont vf1 s1)))).
  intros c n vf1 s1. apply agree_then; [|reflexivity].
  apply agree_map. intros a vf2 s2. apply agree_local. reflexivity.
Qed.

Lemma agree_string : forall cap b vf s,
  agree (torn_string H R rec cap b vf s) (interp H (ser_string E MUnpacking R cap b) vf s).
Proof.
  intros cap b vf s. unfold torn_string, ser_string. cbn [is_footprinting].
  apply agree_local. intros n vf1 s1. apply agree_then; [apply agree_array|].
  intros l vf2 s2. destruct (unchars l); reflexivity.
Qed.

Lemma agree_append : forall t n l vf s,
  agree (torn_append E H rec t n l vf s)
    (interp H (foldP (fun acc _ => d <- construct E t;; x <- ser R t d;; leave E t x (Ret (acc ++ [x])))
       (repeat tt n) l) vf s).
Proof.
  intros t n l vf s. unfold torn_append. apply agree_fold. intros b a vf1 s1.
  apply agree_temp. intros x vf2 s2. apply agree_leave. reflexivity.
Qed.

Lemma agree_list : forall ct t l vf s,
  agree (torn_list E H R rec ct t l vf s) (interp H (ser_list E MUnpacking R ct t l) vf s).
Proof.
  intros ct t l vf s. unfold torn_list, ser_list. cbn [is_unpacking].
  apply agree_local. intros n vf1 s1. unfold deser_ordered. destruct (copyc E t).
  - rewrite interp_bind. unfold with_local. rewrite interp_bind.
    destruct (interp H (construct E t) vf1 s1) as [[[d vf2] s2]|e]; [|reflexivity].
    cbn [interp]. rewrite Hnote.
    pose proof (agree_map _ (torn_ser H rec t) (ser R t) (agree_ser t)
      (resize (N.to_nat n) d l) vf2 s2) as Hm.
    destruct (torn_map H (torn_ser H rec t) (resize (N.to_nat n) d l) vf2 s2) as [l' [vf3 s3|e lost]];
      cbn [agree] in Hm; rewrite Hm; reflexivity.
  - apply agree_then; [apply agree_append|reflexivity].
Qed.

Lemma agree_queue : forall t l vf s,
  agree (torn_queue E H R rec t l vf s) (interp H (ser_queue E MUnpacking R t l) vf s).
Proof.
  intros t l vf s. unfold torn_queue, ser_queue. cbn [is_footprinting is_unpacking].
  apply agree_local. intros n vf1 s1. apply agree_then; [apply agree_append|reflexivity].
Qed.

Lemma agree_assoc : forall k t c vf s,
  agree (torn_assoc E H R rec k t c vf s) (interp H (ser_assoc E MUnpacking R k t c) vf s).
Proof.
  intros k t c vf s. unfold torn_assoc, ser_assoc. destruct (elements c) as [l|]; [|reflexivity].
  cbn [of_opt bind is_unpacking]. apply agree_local. intros n vf1 s1. unfold deser_emplace.
  apply agree_fold. intros b a vf2 s2. apply agree_temp. intros x vf3 s3.
  apply agree_leave_elem. destruct (emplace E k t b x); reflexivity.
Qed.

Lemma agree_pair : forall a b x y vf s,
  agree (torn_pair H rec a b x y vf s) (interp H (ser_pair E R a b x y) vf s).
Proof.
  intros a b x y vf s. unfold torn_pair, ser_pair. apply agree_count.
  apply agree_then; [apply agree_ser|]. intros x' vf1 s1.
  apply agree_then; [apply agree_ser|]. reflexivity.
Qed.

Lemma agree_tuple : forall ts l vf s,
  agree (torn_tuple H rec ts l vf s) (interp H (ser_tuple R ts l) vf s).
Proof.
  induction ts as [|t ts IH]; intros [|v l] vf s; try reflexivity.
  cbn [torn_tuple ser_tuple]. apply agree_then; [apply agree_ser|]. intros x vf1 s1.
  apply agree_then; [apply IH|]. reflexivity.
Qed.

Lemma agree_optional : forall t o vf s,
  agree (torn_optional E H R rec t o vf s) (interp H (ser_optional E MUnpacking R t o) vf s).
Proof.
  intros t o vf s. unfold torn_optional, ser_optional. cbn [is_footprinting is_unpacking].
  apply agree_local. intros b vf1 s1. destruct b; [|reflexivity].
  apply agree_temp. intros x vf2 s2. apply agree_note. reflexivity.
Qed.

Lemma agree_entry : forall ts v entry cur vf s,
  agree (torn_entry E H rec ts v entry cur vf s) (interp H (ser_entry E MUnpacking R ts v entry cur) vf s).
Proof.
  induction ts as [|t ts IH]; intros v entry cur vf s; [reflexivity|].
  cbn [torn_entry ser_entry is_unpacking]. destruct (entry =? N.of_nat cur); auto.
  apply agree_temp. intros x vf2 s2. apply agree_leave. reflexivity.
Qed.

Lemma agree_variant : forall ts v vf s,
  agree (torn_variant E H R rec ts v vf s) (interp H (ser_variant E MUnpacking R ts v) vf s).
Proof.
  intros ts v vf s. unfold torn_variant, ser_variant. destruct (variant_index v); [|reflexivity].
  cbn [of_opt bind]. apply agree_local. intros. apply agree_entry.
Qed.

Lemma agree_unique : forall t p vf s,
  agree (torn_unique E H R rec t p vf s) (interp H (ser_unique E MUnpacking R t p) vf s).
Proof.
  intros t p vf s. unfold torn_unique, ser_unique. cbn [is_footprinting is_unpacking].
  apply agree_local. intros b vf1 s1. destruct b; [reflexivity|].
  apply agree_local. intros [v|] vf2 s2; [|reflexivity].
  apply agree_then; [apply agree_ser|]. reflexivity.
Qed.

Lemma agree_members : forall ts is_ fs vf s,
  agree (torn_members H rec ts is_ fs vf s) (interp H (ser_members R ts is_ fs) vf s).
Proof.
  intros ts is_ fs vf s. unfold torn_members, ser_members. apply agree_fold.
  intros b i vf1 s1. destruct (nth_error ts i); [|reflexivity].
  destruct (nth_error b i); [|reflexivity]. apply agree_then; [apply agree_ser|]. reflexivity.
Qed.

Lemma agree_static : forall c v vf s,
  agree (torn_static E H rec c v vf s) (interp H (apply_static E MUnpacking R c v) vf s).
Proof.
  intros c v vf s. unfold torn_static, apply_static. destruct v; try reflexivity.
  destruct (cls E c) as [k|]; [|reflexivity].
  destruct (nth_error ls (level E c)) as [fs|]; [|reflexivity].
  apply agree_note. apply agree_then; [apply agree_members|]. intros fs' vf1 s1.
  apply agree_note. reflexivity.
Qed.

Lemma agree_dyn : forall v vf s,
  agree (torn_dyn E H rec v vf s) (interp H (dyn_serialize E R v) vf s).
Proof.
  intros v vf s. unfold torn_dyn, dyn_serialize. destruct v; try reflexivity.
  destruct (is_virtual E (TClass c)); [|reflexivity].
  apply agree_fold. intros b c' vf1 s1. apply agree_note. cbn [interp]. apply agree_ser.
Qed.

Lemma agree_elem : forall t v vf s,
  agree (torn_elem E H R rec t v vf s) (interp H (apply_elem E MUnpacking R t v) vf s).
Proof.
  intros t v vf s. destruct t; cbn [torn_elem apply_elem];
    try apply agree_assoc; try apply agree_variant; try apply agree_static; try reflexivity;
    destruct v; try reflexivity.
  - unfold ser_underlying, with_local.
    destruct (interp H (ser R (TPrim uid usz) (VB b)) vf s) as [[[a vf1] s1]|e]; reflexivity.
  - unfold ser_underlying, with_local.
    destruct (interp H (ser R (TPrim uid usz) (VB b)) vf s) as [[[a vf1] s1]|e]; reflexivity.
  - apply agree_string.
  - apply agree_vector.
  - apply agree_vecbool.
  - unfold torn_stdarray, ser_stdarray. apply agree_then; [apply agree_array|]. reflexivity.
  - apply agree_list.
  - apply agree_queue.
  - destruct l as [|x [|y [|]]]; try reflexivity. apply agree_pair.
  - apply agree_then; [apply agree_tuple|]. reflexivity.
  - apply agree_optional.
  - apply agree_unique.
Qed.

Lemma agree_ap : forall t vs vf s,
  agree (torn_ap E H short R rec t vs vf s) (interp H (ap E MUnpacking R t vs) vf s).
Proof.
  intros t vs vf s. unfold torn_ap, ap. destruct (bytecopy E t).
  - destruct (opt_all (map (obj_bytes E t) vs)) as [bs|]; [|reflexivity].
    cbn [interp]. destruct (contig H (concat bs) s) as [[b s']|e]; reflexivity.
  - destruct (is_virtual E t).
    + cbn [interp]. destruct vf.
      * cbn [interp]. apply agree_map. apply agree_elem.
      * destruct vs as [|v r]; [reflexivity|]. apply agree_then; [apply agree_dyn|]. reflexivity.
    + apply agree_map. apply agree_elem.
Qed.

Lemma agree_traverse : forall t vs vf s,
  agree (torn_traverse E H short R rec t vs vf s) (interp H (traverse E MUnpacking R t vs) vf s).
Proof.
  intros t vs vf s. unfold torn_traverse, traverse. destruct (chk E); [|apply agree_ap].
  apply agree_local. intros _ vf1 s1. rewrite interp_bind.
  pose proof (agree_ap t vs vf1 s1) as Ha.
  destruct (torn_ap E H short R rec t vs vf1 s1) as [vs' [vf2 s2|e lost]]; cbn [agree] in Ha.
  - rewrite (interp_catch_ok _ _ _ _ _ _ _ Ha). apply agree_local. reflexivity.
  - rewrite (interp_catch_err _ _ _ _ _ _ _ Hbump Ha). reflexivity.
Qed.
End Rec.

Lemma agree_with : forall f t vs vf s,
  agree (torn_with E H short f t vs vf s) (interp H (with_ E MUnpacking f t vs) vf s).
Proof.
  induction f as [|f IH]; intros t vs vf s; [reflexivity|].
  cbn [torn_with with_]. apply agree_traverse. apply IH.
Qed.

Lemma agree_root : forall f t v s,
  agree (torn_root E H short f t v s) (interp H (with_root E MUnpacking f t v) false s).
Proof.
  intros f t v s. unfold torn_root, with_root. destruct (chk E).
  - apply agree_ser. apply agree_with.
  - apply agree_local. intros _ vf1 s1. apply agree_then; [apply agree_ser, agree_with|].
    intros x vf2 s2. apply agree_local. reflexivity.
Qed.
End Agree.

(** ** The object that is left *)

(** Reading also involves integers and characters. *)
Definition and_prims (T : ty -> Prop) (t : ty) : Prop :=
  T t \/ exists id sz, t = TPrim id sz.

Lemma readable_prims : forall E T, readable E T -> readable E (and_prims T).
Proof.
  intros E T rd. assert (G : forall t, T t -> and_prims T t) by (intros; now left).
  split.
  - intros t [Ht|(id & sz & ->)]; [|exact I].
    pose proof (rd_parts _ _ rd _ Ht) as Hp. destruct t; cbn [parts] in *; try exact Hp;
      try (destruct Hp; split; auto; fail); auto.
    + eapply Forall_impl; [|exact Hp]. auto.
    + destruct Hp as [Hp|Hp]; [now left|]. right. eapply Forall_impl; [|exact Hp].
      intros t (H1 & H2); auto.
    + destruct Hp as (H1 & H2). split; [|eauto]. intros Hv. destruct (H1 Hv). auto.
    + destruct Hp as (H1 & H2). split; auto. intros c' k Hin Hk. destruct (H2 c' k Hin Hk) as (H3 & H4).
      split; auto. eapply Forall_impl; [|exact H3]. auto.
  - intros c k ls [Ht|(id & sz & Hx)]; [|discriminate]. intros. eapply (rd_ctor _ _ rd); eauto.
Qed.

Section Keep.
Variable E : env.
Hypothesis wf : wf_env any E.
Variable T : ty -> Prop.
Hypothesis rd : readable E T.
Hypothesis Hprim : forall id sz, T (TPrim id sz).
Variable H : serializer.
Variable short : state H -> bytes -> bytes.
Hypothesis Hcount : forall n s, count H n s = s.
Hypothesis Hnote : forall e s, note H e s = s.
Hypothesis Hbump : forall i b s e, contig H b s = Err e -> bump i e = e.
Hypothesis Hlen : forall b s x s', contig H b s = Ok (x, s') -> length x = length b.
Hypothesis Hshort : forall b s e, contig H b s = Err e -> length (short s b) = length b.

(** Lost objects are whole objects that were to become elements of a container. *)
Definition stray (p : ty * val) : Prop :=
  valid E (fst p) (snd p) /\ exists ct, T ct /\ in_raw E ct (fst p).

(** What is left satisfies [P], and what is lost is a stray. *)
Definition keeps {A} (P : A -> Prop) (r : A * outcome H) : Prop :=
  P (fst r) /\ match snd r with Stop _ lost => Forall stray lost | Cont _ _ => True end.

Lemma keep_ret : forall A (P : A -> Prop) a vf s, P a -> keeps P (a, Cont vf s).
Proof. intros. split; cbn; auto. Qed.
Lemma keep_stop : forall A (P : A -> Prop) a e, P a -> keeps P (a, Stop e []).
Proof. intros. split; cbn; auto. Qed.

Lemma keep_local : forall A B (P : B -> Prop) (p : prog A) old k vf s,
  P old -> (forall a vf' s', interp H p vf s = Ok (a, vf', s') -> keeps P (k a vf' s')) ->
  keeps P (with_local H p old k vf s).
Proof.
  intros A B P p old k vf s Ho Hk. unfold with_local.
  destruct (interp H p vf s) as [[[a vf'] s']|e]; [apply Hk; auto|now apply keep_stop].
Qed.

Lemma keep_then : forall A B (Q : A -> Prop) (P : B -> Prop) r put k,
  keeps Q r -> (forall a, Q a -> P (put a)) -> (forall a vf s, Q a -> keeps P (k a vf s)) ->
  keeps P (then_ H r put k).
Proof.
  intros A B Q P [a [vf s|e lost]] put k (Hq & Hl) Hp Hk; cbn [fst snd then_] in *.
  - now apply Hk.
  - split; cbn [fst snd]; auto.
Qed.

Lemma keep_map : forall A (g : A -> bool -> state H -> A * outcome H) (Q : A -> A -> Prop) l,
  (forall x vf s, In x l -> keeps (Q x) (g x vf s)) -> (forall x, In x l -> Q x x) ->
  forall vf s, keeps (Forall2 Q l) (torn_map H g l vf s).
Proof.
  intros A g Q l. induction l as [|x l IH]; intros Hg Hr vf s; cbn [torn_map].
  - apply keep_ret. constructor.
  - assert (Hrest : Forall2 Q l l).
    { assert (forall y, In y l -> Q y y) as G by (intros; apply Hr; now right).
      clear -G. induction l; constructor; [apply G; now left|]. apply IHl. intros; apply G; now right. }
    apply keep_then with (Q := Q x).
    + apply Hg. now left.
    + intros y Hy. constructor; auto.
    + intros y vf1 s1 Hy. apply keep_then with (Q := Forall2 Q l).
      * apply IH; intros; [apply Hg|apply Hr]; now right.
      * intros ys Hys. now constructor.
      * intros ys vf2 s2 Hys. apply keep_ret. now constructor.
Qed.

Lemma keep_fold : forall A B (g : B -> A -> bool -> state H -> B * outcome H) (P : B -> Prop) l,
  (forall b x vf s, In x l -> P b -> keeps P (g b x vf s)) ->
  forall b vf s, P b -> keeps P (torn_fold H g l b vf s).
Proof.
  intros A B g P l. induction l as [|x l IH]; intros Hg b vf s Hb; cbn [torn_fold].
  - now apply keep_ret.
  - apply keep_then with (Q := P); auto.
    + apply Hg; auto. now left.
    + intros a vf1 s1 Ha. apply IH; auto. intros; apply Hg; auto. now right.
Qed.

Section Rec.
Variable R : ty -> list val -> prog (list val).
Variable rec : ty -> list val -> bool -> state H -> list val * outcome H.
Hypothesis Hag : forall t vs vf s, agree H (rec t vs vf s) (interp H (R t vs) vf s).
Hypothesis Hrec : forall t vs vf s, Forall (fits E T t) vs ->
  keeps (Forall2 (fun v v' => valid E (dty t v) v') vs) (rec t vs vf s).

Lemma keep_ser : forall t v vf s, fits E T t v ->
  keeps (valid E (dty t v)) (torn_ser H rec t v vf s).
Proof.
  intros t v vf s Hf. unfold torn_ser.
  apply keep_then with (Q := Forall2 (fun v v' => valid E (dty t v) v') [v]).
  - apply Hrec. constructor; auto.
  - intros vs Hv. inversion Hv as [|? ? ? ? H1 H2]; subst. inversion H2; subst. auto.
  - intros vs vf1 s1 Hv. inversion Hv as [|? ? ? ? H1 H2]; subst. inversion H2; subst.
    now apply keep_ret.
Qed.

Lemma keep_ser_valid : forall t v vf s, T t -> valid E t v ->
  keeps (valid E t) (torn_ser H rec t v vf s).
Proof.
  intros t v vf s Ht Hv. rewrite <- (dty_valid E t v Hv) at 1. apply keep_ser. now apply fits_of.
Qed.

Lemma keep_array : forall t vs vf s, T t -> Forall (valid E t) vs ->
  keeps (fun vs' => Forall (valid E t) vs' /\ length vs' = length vs) (torn_array H rec t vs vf s).
Proof.
  intros t vs vf s Ht Hv. unfold torn_array. destruct vs as [|v vs]; [apply keep_ret; split; auto|].
  destruct (Hrec t (v :: vs) vf s (all_fits E T t _ Ht Hv)) as (H1 & H2). split; auto.
  split; [eapply all_valid; eauto|]. symmetry. eapply Forall2_length; eauto.
Qed.

Lemma construct_inv : forall t vf s a vf' s',
  interp H (construct E t) vf s = Ok (a, vf', s') -> T t -> valid E t a.
Proof.
  intros t vf s a vf' s' Hi Ht. unfold construct in Hi. cbn [interp] in Hi.
  destruct (recon E t) as [o|] eqn:Er; cbn [of_opt interp] in Hi; inversion Hi; subst.
  eapply recon_valid; eauto.
Qed.

Lemma keep_temp : forall B (P : B -> Prop) t (old : B) k vf s, T t ->
  (exists ct, T ct /\ in_raw E ct t) -> P old ->
  (forall x vf s, valid E t x -> keeps P (k x vf s)) ->
  keeps P (with_temp E H rec t old k vf s).
Proof.
  intros B P t old k vf s Ht Hct Ho Hk. unfold with_temp. apply keep_local; auto.
  intros d vf1 s1 Hd. apply construct_inv in Hd; auto.
  destruct (keep_ser_valid t d vf1 s1 Ht Hd) as (H1 & H2).
  destruct (torn_ser H rec t d vf1 s1) as [x [vf2 s2|e lost]]; cbn [fst snd] in *; [auto|].
  split; auto. cbn [snd]. apply Forall_app. split; auto. constructor; auto. split; auto.
Qed.

Lemma vector_data_inv : forall t n l vf s l' vf' s',
  interp H (construct_vector_data E t n l) vf s = Ok (l', vf', s') ->
  T t -> Forall (valid E t) l -> Forall (valid E t) l'.
Proof.
  intros t n l vf s l' vf' s' Hi Ht Hl. unfold construct_vector_data in Hi.
  destruct (defc E t).
  - destruct (dflt E t) as [o|] eqn:Eo; cbn [of_opt bind interp] in Hi; inversion Hi; subst.
    apply resize_valid; auto. eapply dflt_valid; eauto.
  - destruct (copyc E t).
    + rewrite interp_bind in Hi.
      destruct (interp H (construct E t) vf s) as [[[o vf1] s1]|e] eqn:Ec; [|discriminate].
      cbn [interp] in Hi. inversion Hi; subst. apply resize_valid; auto.
      eapply construct_inv; eauto.
    + revert l vf s Hl Hi. generalize (repeat tt n) as u. induction u as [|x u IH];
        intros l vf s Hl Hi; cbn [foldP] in Hi.
      * cbn [interp] in Hi. inversion Hi; subst. auto.
      * rewrite interp_bind in Hi.
        destruct (interp H _ vf s) as [[[a vf1] s1]|e] eqn:Ea in Hi; [|discriminate].
        rewrite interp_bind in Ea.
        destruct (interp H (construct E t) vf s) as [[[o vf2] s2]|e] eqn:Ec; [|discriminate].
        apply construct_inv in Ec; auto.
        assert (a = l ++ [o]).
        { unfold leave in Ea. destruct (movec E t); cbn [interp] in Ea; inversion Ea; auto. }
        subst a. eapply IH; [|exact Hi]. apply Forall_app. split; auto.
Qed.

Lemma keep_append : forall t n l vf s, T t -> (exists ct, T ct /\ in_raw E ct t) ->
  Forall (valid E t) l -> keeps (Forall (valid E t)) (torn_append E H rec t n l vf s).
Proof.
  intros t n l vf s Ht Hct Hl. unfold torn_append. apply keep_fold; auto.
  intros acc u vf1 s1 _ Ha. apply keep_temp; auto. intros x vf2 s2 Hx. apply keep_ret.
  apply Forall_app. split; auto.
Qed.

Lemma keep_chars : forall b vf s,
  keeps (fun l => exists b', l = chars b') (torn_array H rec CHAR (chars b) vf s).
Proof.
  intros b vf s.
  assert (Hv : Forall (valid E CHAR) (chars b)).
  { unfold chars. apply Forall_forall. intros x Hx. apply in_map_iff in Hx.
    destruct Hx as (c & <- & _). constructor. reflexivity. }
  destruct (keep_array CHAR _ vf s (Hprim _ _) Hv) as ((H1 & _) & H2). split; auto.
  clear -H1. induction H1 as [|x l Hx Hl (b' & ->)]; [exists []; reflexivity|].
  inversion Hx as [? ? c Hc| | | | | | | | | | | | | | | | | | | | | |]; subst.
  destruct c as [|c [|]]; try discriminate. exists (c :: b'). reflexivity.
Qed.

Lemma keep_members : forall ts is_ fs vf s, Forall T ts -> Forall2 (valid E) ts fs ->
  keeps (Forall2 (valid E) ts) (torn_members H rec ts is_ fs vf s).
Proof.
  intros ts is_ fs vf s Ht Hv. unfold torn_members. apply keep_fold; auto.
  intros gs i vf1 s1 _ Hg.
  destruct (nth_error ts i) as [t|] eqn:Et; [|now apply keep_stop].
  destruct (nth_error gs i) as [v|] eqn:Eg; [|now apply keep_stop].
  assert (Htt : T t) by (rewrite Forall_forall in Ht; apply Ht; eapply nth_error_In; eauto).
  assert (Hvv : valid E t v).
  { clear -Hg Et Eg. revert i Et Eg. induction Hg; intros i Et Eg; destruct i; cbn in *;
      try discriminate; [congruence|eauto]. }
  apply keep_then with (Q := valid E t); [now apply keep_ser_valid| |].
  - intros x Hx. eapply upd_forall2; eauto.
  - intros x vf2 s2 Hx. apply keep_ret. eapply upd_forall2; eauto.
Qed.

Lemma keep_static : forall c c0 ls vf s, T (TClass c0) -> valid E (TClass c0) (VObj c0 ls) ->
  In c (chain E c0) -> bytecopy E (TClass c) = false ->
  keeps (valid E (TClass c0)) (torn_static E H rec c (VObj c0 ls) vf s).
Proof.
  intros c c0 ls vf s Ht Hv Hin Hb.
  destruct (obj_level E wf _ _ _ Hv Hin) as (k & fs & Hk & Hfs & Hd1 & Hup).
  pose proof (rd_parts _ _ rd _ Ht) as Hp. cbn [parts] in Hp. destruct Hp as (_ & Hp).
  destruct (Hp _ _ Hin Hk) as (Hts & Hi).
  cbn [bytecopy] in Hb. rewrite Hk in Hb.
  destruct Hd1 as [(Hb' & _)|(_ & Hf)]; [congruence|].
  unfold torn_static. rewrite Hk, Hfs.
  apply keep_then with (Q := Forall2 (valid E) (cfields k)); [now apply keep_members| |].
  - intros fs' Hf'. apply Hup. right. auto.
  - intros fs' vf1 s1 Hf'. apply keep_ret. apply Hup. right. auto.
Qed.

(** The object behind a pointer: the one there is or a new one. *)
Lemma pointed_inv : forall t o vf s tg vf' s',
  interp H (reconstruct_pointed E MUnpacking R t o) vf s = Ok (tg, vf', s') ->
  T (TUnique t) -> valid E (TUnique t) (VOpt o) ->
  exists w, tg = Some w /\ fits E T t w /\
    (forall w', valid E (dty t w) w' -> valid E (TUnique t) (VOpt (Some w'))).
Proof.
  intros t o vf s tg vf' s' Hi Ht Hv.
  pose proof (rd_parts _ _ rd _ Ht) as Hp. cbn [parts] in Hp. destruct Hp as (Hst & Hvt).
  assert (Hplain : is_virtual E t = false -> forall w, valid E t w ->
    fits E T t w /\ (forall w', valid E (dty t w) w' -> valid E (TUnique t) (VOpt (Some w')))).
  { intros Hvt0 w Hw. destruct (Hst Hvt0). split; [now apply fits_of|].
    intros w' Hw'. rewrite (dty_valid E) in Hw' by auto. now apply VaUnique. }
  assert (Hstat : is_virtual E t = false ->
    interp H (match o with
       | Some v => Ret (Some v)
       | None => bind (construct E t) (fun o => Ret (Some o)) end) vf s = Ok (tg, vf', s') ->
    exists w, tg = Some w /\ fits E T t w /\
     (forall w', valid E (dty t w) w' -> valid E (TUnique t) (VOpt (Some w')))).
  { intros Hvt0 Hj. destruct o as [w|].
    - cbn [interp] in Hj. inversion Hj; subst. exists w. split; auto. apply Hplain; auto.
      inversion Hv; subst; auto. congruence.
    - destruct (Hst Hvt0) as (Ht' & Hc). rewrite interp_bind in Hj.
      destruct (interp H (construct E t) vf s) as [[[w vf1] s1]|e] eqn:Ec; [|discriminate].
      apply construct_inv in Ec; auto. cbn [interp] in Hj. inversion Hj; subst. exists w. split; auto. }
  unfold reconstruct_pointed in Hi. cbn [is_unpacking] in Hi.
  destruct (is_virtual E t) eqn:Ev.
  2:{ destruct t; apply Hstat; auto. }
  destruct t as [| | | | | | | | | | | | | | |c| | | | |]; try discriminate.
  assert (Hobj : forall c0 ls, valid E (TClass c0) (VObj c0 ls) -> In c (chain E c0) ->
    obj_idx E c0 <> None ->
    fits E T (TClass c) (VObj c0 ls) /\ (forall w', valid E (dty (TClass c) (VObj c0 ls)) w' ->
      valid E (TUnique (TClass c)) (VOpt (Some w')))).
  { intros c0 ls Hval Hin Hidx.
    assert (HT0 : T (TClass c0)) by (eapply Hvt; eauto).
    split.
    - unfold fits. cbn [dty]. split; auto. split; auto.
      intros c1 d1 ls1 H1 H2. inversion H1; inversion H2; subst. right. auto.
    - cbn [dty]. intros w' Hw'.
      assert (Hv0 : is_virtual E (TClass c0) = true)
        by (rewrite <- (chain_virtual any E wf _ _ Hin); auto).
      destruct (virtual_obj E _ _ Hv0 Hw') as (ls' & ->). apply VaUniqueV; auto. }
  rewrite interp_bind in Hi.
  destruct (interp H (ser_virtual_type E MUnpacking R o) vf s) as [[[entry vf1] s1]|e]; [|discriminate].
  destruct o as [w|].
  { cbn [interp] in Hi. inversion Hi; subst. exists w. split; auto.
    inversion Hv; subst; [congruence|]. apply Hobj; auto. }
  unfold construct_concrete in Hi. rewrite interp_bind in Hi.
  destruct (nth_error (oreg E (root E c)) (N.to_nat entry)) as [c0|] eqn:En; [|discriminate].
  cbn [interp] in Hi.
  destruct (recon E (TClass c0)) as [w|] eqn:Er; [|destruct (asserts E); discriminate].
  destruct (existsb (Nat.eqb c) (chain E c0)) eqn:Ex; [|discriminate].
  cbn [interp] in Hi. inversion Hi; subst. exists w. split; auto.
  apply existsb_exists in Ex. destruct Ex as (c1 & Hin & Heq).
  apply Nat.eqb_eq in Heq. subst c1.
  assert (Hidx : obj_idx E c0 <> None).
  { unfold obj_idx. rewrite <- (root_in_chain any E wf _ _ Hin).
    rewrite (index_of_complete _ _ _ (wf_oreg _ _ wf _) En). discriminate. }
  assert (HT0 : T (TClass c0)) by (eapply Hvt; eauto).
  pose proof (recon_valid E T rd _ _ HT0 Er) as Hw.
  assert (Hv0 : is_virtual E (TClass c0) = true)
    by (rewrite <- (chain_virtual any E wf _ _ Hin); auto).
  destruct (virtual_obj E _ _ Hv0 Hw) as (ls' & ->). apply Hobj; auto.
Qed.

Lemma underlying_inv : forall uid usz b vf s x vf' s',
  interp H (ser_underlying R uid usz b) vf s = Ok (x, vf', s') -> length b = usz ->
  exists b', x = VB b' /\ length b' = usz.
Proof.
  intros uid usz b vf s x vf' s' Hi Hb. unfold ser_underlying in Hi.
  pose proof (agree_ser H R rec Hag (TPrim uid usz) (VB b) vf s) as Ha.
  destruct (keep_ser_valid (TPrim uid usz) (VB b) vf s (Hprim _ _) (VaPrim E _ _ _ Hb)) as (Hk & _).
  destruct (torn_ser H rec (TPrim uid usz) (VB b) vf s) as [y [vf1 s1|e lost]]; cbn [agree fst] in *;
    [|congruence].
  rewrite Ha in Hi. inversion Hi; subst. inversion Hk; subst. eauto.
Qed.

Lemma keep_tuple : forall ts l vf s, Forall T ts -> Forall2 (valid E) ts l ->
  keeps (Forall2 (valid E) ts) (torn_tuple H rec ts l vf s).
Proof.
  induction ts as [|t ts IH]; intros l vf s Ht Hv; inversion Hv; subst; cbn [torn_tuple].
  - apply keep_ret. constructor.
  - inversion Ht; subst. apply keep_then with (Q := valid E t); [now apply keep_ser_valid| |].
    + intros x Hx. now constructor.
    + intros x vf1 s1 Hx. apply keep_then with (Q := Forall2 (valid E) ts); [now apply IH| |].
      * intros xs Hxs. now constructor.
      * intros xs vf2 s2 Hxs. apply keep_ret. now constructor.
Qed.

Lemma keep_elem : forall t v vf s, bytecopy E t = false -> fits E T t v ->
  keeps (valid E (dty t v)) (torn_elem E H R rec t v vf s).
Proof.
  intros t v vf s Hb (Ht & Hv & Hcl).
  destruct t; cbn [bytecopy] in Hb; try discriminate;
    try (pose proof (rd_parts _ _ rd _ Ht) as Hp; cbn [parts dty] in Hp; destruct Hp; fail);
    try (cbn [dty] in Ht, Hv; pose proof (rd_parts _ _ rd _ Ht) as Hp; cbn [parts] in Hp; cbn [dty]).
  - (* enum *)
    inversion Hv; subst. cbn [torn_elem]. apply keep_local; auto.
    intros x vf1 s1 Hi. apply underlying_inv in Hi; auto. destruct Hi as (b' & -> & Hb').
    apply keep_ret. now constructor.
  - (* duration *)
    inversion Hv; subst. cbn [torn_elem]. apply keep_local; auto.
    intros x vf1 s1 Hi. apply underlying_inv in Hi; auto. destruct Hi as (b' & -> & Hb').
    apply keep_ret. now constructor.
  - (* string *)
    inversion Hv; subst. cbn [torn_elem]. unfold torn_string. apply keep_local; auto.
    intros n vf1 s1 _. apply keep_then with (Q := fun l => exists b', l = chars b').
    + apply keep_chars.
    + intros l (b' & ->). rewrite Pack.unchars_chars. constructor. lia.
    + intros l vf2 s2 (b' & ->). rewrite Pack.unchars_chars. apply keep_ret. constructor. lia.
  - (* vector *)
    inversion Hv; subst. destruct Hp as (Ht' & Hc). cbn [torn_elem]. unfold torn_vector.
    apply keep_local; auto. intros c vf1 s1 _.
    assert (Hold : valid E (TVector t) (VVec (N.max cap c) l)) by (constructor; auto; lia).
    apply keep_local; auto. intros n vf2 s2 _.
    apply keep_local; auto. intros l1 vf3 s3 Hi. apply vector_data_inv in Hi; auto.
    apply keep_then with (Q := fun vs' => Forall (valid E t) vs' /\ length vs' = length l1);
      [now apply keep_array| |].
    + intros l2 (Hl2 & _). constructor; auto. lia.
    + intros l2 vf4 s4 (Hl2 & _). apply keep_ret. constructor; auto. lia.
  - (* vector of bool *)
    inversion Hv; subst. cbn [torn_elem]. unfold torn_vecbool.
    match goal with H : Forall _ l |- _ => rename H into Hl end.
    apply keep_local; auto. intros c vf1 s1 _.
    assert (Hold : valid E TVecBool (VVec (N.max cap c) l)) by (constructor; auto; lia).
    apply keep_local; auto. intros n vf2 s2 _.
    set (P := fun v => v = VB [x00] \/ v = VB [x01]).
    assert (Hr : Forall P (resize (N.to_nat n) (VB (le 1 0)) l)).
    { unfold resize. apply Forall_app. split.
      - apply Forall_forall. intros y Hy. rewrite Forall_forall in Hl. apply Hl.
        rewrite <- (firstn_skipn (N.to_nat n) l). apply in_or_app. now left.
      - apply Forall_forall. intros y Hy. apply repeat_spec in Hy. subst. left. reflexivity. }
    apply keep_then with (Q := Forall2 (fun _ y => P y) (resize (N.to_nat n) (VB (le 1 0)) l)).
    + apply keep_map.
      * intros x vf3 s3 Hx. apply keep_local.
        -- rewrite Forall_forall in Hr. auto.
        -- intros b vf4 s4 _. apply keep_ret. destruct b; [right|left]; reflexivity.
      * intros x Hx. rewrite Forall_forall in Hr. auto.
    + intros l2 Hl2. constructor; [lia|]. clear -Hl2. induction Hl2; constructor; auto.
    + intros l2 vf3 s3 Hl2. apply keep_ret. constructor; [lia|].
      clear -Hl2. induction Hl2; constructor; auto.
  - (* array *)
    inversion Hv; subst. cbn [torn_elem]. unfold torn_stdarray.
    apply keep_then with (Q := fun vs' => Forall (valid E t) vs' /\ length vs' = length l);
      [now apply keep_array| |].
    + intros l2 (Hl2 & Hn). constructor; auto.
    + intros l2 vf4 s4 (Hl2 & Hn). apply keep_ret. constructor; auto.
  - (* list *)
    inversion Hv; subst. destruct Hp as (Ht' & Hc). cbn [torn_elem]. unfold torn_list.
    assert (Hraw : exists ct, T ct /\ in_raw E ct t) by (eexists; split; [exact Ht|reflexivity]).
    apply keep_local; auto. intros n vf1 s1 _. destruct (copyc E t).
    + apply keep_local; auto. intros d vf2 s2 Hd. apply construct_inv in Hd; auto.
      assert (Hr : Forall (valid E t) (resize (N.to_nat n) d l)) by now apply resize_valid.
      assert (Hk : keeps (Forall2 (fun _ y => valid E t y) (resize (N.to_nat n) d l))
        (torn_map H (torn_ser H rec t) (resize (N.to_nat n) d l) vf2 s2)).
      { rewrite Forall_forall in Hr. apply keep_map; auto.
        intros x vf3 s3 Hx. apply keep_ser_valid; auto. }
      destruct Hk as (Hk1 & Hk2).
      destruct (torn_map H (torn_ser H rec t) (resize (N.to_nat n) d l) vf2 s2) as [l' [vf3 s3|e lost]];
        cbn [fst snd] in *.
      * apply keep_ret. constructor. clear -Hk1. induction Hk1; constructor; auto.
      * split; cbn [fst snd].
        -- constructor. clear -Hk1. induction Hk1; constructor; auto.
        -- apply Forall_app. split; auto. constructor; auto. split; auto.
    + apply keep_then with (Q := Forall (valid E t)); [now apply keep_append| |].
      * intros l' Hl'. now constructor.
      * intros l' vf2 s2 Hl'. apply keep_ret. now constructor.
  - (* queue *)
    inversion Hv; subst. destruct Hp as (Ht' & Hc). cbn [torn_elem]. unfold torn_queue.
    assert (Hraw : exists ct, T ct /\ in_raw E ct t) by (eexists; split; [exact Ht|reflexivity]).
    apply keep_local; auto. intros n vf1 s1 _.
    apply keep_then with (Q := Forall (valid E t)); [now apply keep_append| |].
    + intros l' Hl'. now constructor.
    + intros l' vf2 s2 Hl'. apply keep_ret. now constructor.
  - (* sets and maps *)
    destruct Hp as (Ht' & Hc & Ho). cbn [torn_elem]. unfold torn_assoc.
    assert (Hraw : exists ct, T ct /\ in_raw E ct t) by (eexists; split; [exact Ht|reflexivity]).
    destruct (elements v) as [l|]; [|now apply keep_stop].
    apply keep_local; auto. intros n vf1 s1 _. apply keep_fold; auto.
    intros acc u vf2 s2 _ Ha. apply keep_temp; auto. intros x vf3 s3 Hx.
    destruct (emplace_valid E wf k t acc x Ho Ha Hx) as (c' & -> & Hc'). now apply keep_ret.
  - (* pair *)
    inversion Hv; subst. destruct Hp as (Hta & Htb). cbn [torn_elem]. unfold torn_pair.
    apply keep_then with (Q := valid E t1); [now apply keep_ser_valid| |].
    + intros x' Hx'. now constructor.
    + intros x' vf1 s1 Hx'. apply keep_then with (Q := valid E t2); [now apply keep_ser_valid| |].
      * intros y' Hy'. now constructor.
      * intros y' vf2 s2 Hy'. apply keep_ret. now constructor.
  - (* tuple *)
    inversion Hv; subst. cbn [torn_elem].
    apply keep_then with (Q := Forall2 (valid E) ts); [now apply keep_tuple| |].
    + intros l' Hl'. now constructor.
    + intros l' vf1 s1 Hl'. apply keep_ret. now constructor.
  - (* optional *)
    assert (Ho : exists o, v = VOpt o) by (inversion Hv; subst; eauto). destruct Ho as (o & ->).
    destruct Hp as (Ht' & Hc). cbn [torn_elem]. unfold torn_optional.
    assert (Hraw : exists ct, T ct /\ in_raw E ct t) by (eexists; split; [exact Ht|reflexivity]).
    apply keep_local; auto. intros has vf1 s1 _. destruct has.
    + apply keep_temp; auto. intros x vf2 s2 Hx. apply keep_ret. now constructor.
    + apply keep_ret. constructor.
  - (* variant *)
    assert (Hbv : bytecopy E (TVariant ts) = false) by exact Hb.
    destruct Hp as [Hp|Hp]; [congruence|].
    cbn [torn_elem]. unfold torn_variant.
    destruct (variant_index v) as [i|]; [|now apply keep_stop].
    apply keep_local; auto. intros entry vf1 s1 _.
    assert (G : forall rest cur, (forall j t', nth_error rest j = Some t' ->
        nth_error ts (cur + j) = Some t') ->
      keeps (valid E (TVariant ts)) (torn_entry E H rec rest v entry cur vf1 s1)).
    { intros rest. induction rest as [|t' rest IHr]; intros cur Hn; cbn [torn_entry].
      - now apply keep_ret.
      - destruct (entry =? N.of_nat cur).
        + assert (Ht' : nth_error ts cur = Some t')
            by (rewrite <- (Nat.add_0_r cur); apply Hn; reflexivity).
          rewrite Forall_forall in Hp. destruct (Hp t' (nth_error_In _ _ Ht')) as (HT' & Hc').
          apply keep_temp; auto.
          * exists (TVariant ts). split; auto. cbn [in_raw]. split; [assumption|]. eapply nth_error_In; eauto.
          * intros x vf2 s2 Hx. apply keep_ret. eapply VaVariant; eauto.
        + apply IHr. intros j t'' Hj. rewrite Nat.add_succ_l, <- Nat.add_succ_r.
          apply Hn. exact Hj. }
    apply G. auto.
  - (* unique_ptr *)
    assert (Ho : exists o, v = VOpt o) by (inversion Hv; subst; eauto). destruct Ho as (o & ->).
    cbn [torn_elem]. unfold torn_unique.
    apply keep_local; auto. intros b vf1 s1 _. destruct b; [apply keep_ret; constructor|].
    apply keep_local; auto. intros tg vf2 s2 Hi.
    destruct (pointed_inv _ _ _ _ _ _ _ Hi Ht Hv) as (w & -> & Hw & Hres).
    apply keep_then with (Q := valid E (dty t w)); [now apply keep_ser| |].
    + auto.
    + intros x vf3 s3 Hx. apply keep_ret. auto.
  - (* class *)
    cbn [torn_elem]. destruct v as [b| | | | | | | |c0 ls]; cbn [dty] in *; try (inversion Hv; fail).
    + inversion Hv; subst.
      match goal with H : cls E c = Some _ |- _ => rewrite H in Hb end. congruence.
    + apply keep_static; auto.
      destruct (Hcl c c0 ls eq_refl eq_refl) as [->|(_ & Hin)]; auto.
      eapply (self_in E wf); eauto.
Qed.

Lemma keep_dyn : forall c v vf s, fits E T (TClass c) v -> is_virtual E (TClass c) = true ->
  keeps (valid E (dty (TClass c) v)) (torn_dyn E H rec v vf s).
Proof.
  intros c v vf s (HT & Hv & Hcl) Ev.
  assert (Hobj : exists c0 ls, v = VObj c0 ls /\ In c (chain E c0)).
  { destruct v as [b| | | | | | | |c0 ls]; cbn [dty] in *; try (inversion Hv; fail).
    - destruct (virtual_obj E _ _ Ev Hv) as (ls & Hx). discriminate.
    - exists c0, ls. split; auto.
      destruct (Hcl c c0 ls eq_refl eq_refl) as [->|(_ & Hin)]; auto. eapply (self_in E wf); eauto. }
  destruct Hobj as (c0 & ls & -> & Hin). cbn [dty] in *.
  assert (Hv0 : is_virtual E (TClass c0) = true)
    by (rewrite <- (chain_virtual any E wf _ _ Hin); auto).
  unfold torn_dyn. rewrite Hv0. apply keep_fold; auto.
  intros w c1 vf1 s1 Hc1 Hw. destruct (virtual_obj E _ _ Hv0 Hw) as (ls1 & ->).
  apply (keep_ser (TClass c1) (VObj c0 ls1)). unfold fits. cbn [dty]. split; auto. split; auto.
  intros c2 d2 ls2 H1 H2. inversion H1; inversion H2; subst. right. split; auto.
  rewrite (chain_virtual any E wf _ _ Hc1); auto.
Qed.

Lemma keep_bytes : forall t vs, bytecopy E t = true -> Forall (fits E T t) vs ->
  exists bs, opt_all (map (obj_bytes E t) vs) = Some bs /\
    forall x, length x = length (concat bs) ->
      Forall2 (fun v v' => valid E (dty t v) v') vs (unflatten E t vs x).
Proof.
  intros t vs Hb Hf. induction Hf as [|v vs Hv Hf IHf].
  - exists []. split; [reflexivity|]. intros x _. constructor.
  - destruct (bytes_fits E wf T t v Hb Hv) as (b & Hb1 & Hb2).
    destruct IHf as (bs & Hbs & Hx). exists (b :: bs). cbn [map opt_all]. rewrite Hb1, Hbs.
    split; [reflexivity|]. intros x Hlx. cbn [concat] in Hlx. rewrite app_length in Hlx.
    cbn [unflatten]. rewrite Hb1.
    destruct (Hb2 (firstn (length b) x)) as (H1 & _).
    { rewrite firstn_length. lia. }
    constructor; auto. apply Hx. rewrite skipn_length. lia.
Qed.

Lemma keep_ap : forall t vs vf s, Forall (fits E T t) vs ->
  keeps (Forall2 (fun v v' => valid E (dty t v) v') vs) (torn_ap E H short R rec t vs vf s).
Proof.
  intros t vs vf s Hf.
  assert (Hown : forall vf, bytecopy E t = false ->
    keeps (Forall2 (fun v v' => valid E (dty t v) v') vs) (torn_map H (torn_elem E H R rec t) vs vf s)).
  { intros vf0 Hb. rewrite Forall_forall in Hf. apply keep_map.
    - intros x vf1 s1 Hx. apply keep_elem; auto.
    - intros x Hx. destruct (Hf x Hx) as (_ & Hv & _). auto. }
  unfold torn_ap. destruct (bytecopy E t) eqn:Eb.
  - destruct (keep_bytes t vs Eb Hf) as (bs & -> & Hx).
    destruct (contig H (concat bs) s) as [[b s']|e] eqn:Ec.
    + apply keep_ret. apply Hx. eauto.
    + apply keep_stop. apply Hx. eauto.
  - destruct (is_virtual E t) eqn:Ev; [|now apply Hown].
    destruct vf; [now apply Hown|].
    destruct vs as [|v r]; [apply keep_ret; constructor|].
    inversion Hf as [|? ? Hfv Hfr]; subst.
    assert (Hrest : Forall2 (fun v v' => valid E (dty t v) v') r r).
    { clear -Hfr. induction Hfr as [|x r Hx Hr IH]; constructor; auto. apply Hx. }
    destruct t as [| | | | | | | | | | | | | | |c| | | | |]; try discriminate.
    apply keep_then with (Q := valid E (dty (TClass c) v)).
    + now apply keep_dyn.
    + intros v' Hv'. now constructor.
    + intros v' vf1 s1 Hv'. apply keep_ret. now constructor.
Qed.

Lemma fits_same : forall t vs, Forall (fits E T t) vs ->
  Forall2 (fun v v' => valid E (dty t v) v') vs vs.
Proof.
  intros t vs Hf. induction Hf as [|x r Hx Hr IH]; constructor; auto. apply Hx.
Qed.

Lemma keep_traverse : forall t vs vf s, Forall (fits E T t) vs ->
  keeps (Forall2 (fun v v' => valid E (dty t v) v') vs) (torn_traverse E H short R rec t vs vf s).
Proof.
  intros t vs vf s Hf. unfold torn_traverse. destruct (chk E); [|now apply keep_ap].
  apply keep_local; [now apply fits_same|]. intros _ vf1 s1 _.
  destruct (keep_ap t vs vf1 s1 Hf) as (H1 & H2).
  destruct (torn_ap E H short R rec t vs vf1 s1) as [vs' [vf2 s2|e lost]]; cbn [fst snd] in *.
  - apply keep_local; auto. intros _ vf3 s3 _. now apply keep_ret.
  - split; auto.
Qed.
End Rec.

Lemma keep_with : forall f t vs vf s, Forall (fits E T t) vs ->
  keeps (Forall2 (fun v v' => valid E (dty t v) v') vs) (torn_with E H short f t vs vf s).
Proof.
  induction f as [|f IH]; intros t vs vf s Hf; cbn [torn_with].
  - apply keep_stop. now apply fits_same.
  - apply keep_traverse; auto. apply agree_with; auto.
Qed.

Lemma keep_root : forall f t v s, T t -> valid E t v ->
  keeps (valid E t) (torn_root E H short f t v s).
Proof.
  intros f t v s Ht Hv. pose proof (keep_with f) as Hw.
  assert (Hs : forall vf s, keeps (valid E t) (torn_ser H (torn_with E H short f) t v vf s)).
  { intros vf s0. apply keep_ser_valid; auto. }
  unfold torn_root. destruct (chk E); [apply Hs|].
  apply keep_local; auto. intros _ vf1 s1 _.
  apply keep_then with (Q := valid E t); auto.
  intros x vf2 s2 Hx. apply keep_local; auto. intros _ vf3 s3 _. now apply keep_ret.
Qed.
End Keep.
