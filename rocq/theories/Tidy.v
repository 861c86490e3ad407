(** Storage owned by temporaries: which objects own heap storage, which types are
    deserialized without losing any, and why. *)
From Coq Require Import List NArith Arith Bool Lia.
From Verif Require Import Base Syntax Prog Serializers Traverse Spec ProgFacts EnvFacts ValFacts Fails.
Import ListNotations.
Local Open Scope N_scope.

(** ** Specification *)

(** [owns E t v]: an object of type [t] holding [v] owns heap storage.  Strings of
    up to 15 characters and empty lists, sets and maps do not (libstdc++); a deque
    and the queue built on it always do; pointers that do not own their pointee
    do not. *)
Fixpoint owns (E : env) (t : ty) (v : val) {struct v} : bool :=
  match v with
  | VB _ | VVarNone => false
  | VStr cap _ => match t with TString => 15 <? cap | _ => false end
  | VVec cap l =>
    match t with
    | TVector _ | TVecBool => (0 <? cap) || negb (Nat.eqb (length l) 0)
    | _ => false
    end
  | VSeq l =>
    match t with
    | TArray _ t' => existsb (owns E t') l
    | TPair a b =>
      match l with
      | [x; y] => owns E a x || owns E b y
      | _ => false
      end
    | TTuple ts =>
      (fix zip (ts : list ty) (l : list val) {struct l} : bool :=
         match l, ts with
         | x :: l', t :: ts' => owns E t x || zip ts' l'
         | _, _ => false
         end) ts l
    | TList true _ | TQueue _ | TAdaptor _ => true
    | TList false _ | TAssoc _ _ => negb (Nat.eqb (length l) 0)
    | _ => false
    end
  | VBag l => match t with TAssoc _ _ => negb (Nat.eqb (length l) 0) | _ => false end
  | VOpt None => false
  | VOpt (Some x) =>
    match t with
    | TOptional t' => owns E t' x
    | TUnique _ | TShared _ => true
    | _ => false
    end
  | VVar i x =>
    match t with
    | TVariant ts => match nth_error ts i with Some t' => owns E t' x | None => false end
    | _ => false
    end
  | VObj _ ls =>
    match t with
    | TClass c =>
      (fix levels (cs : list nat) (ls : list (list val)) {struct ls} : bool :=
         match ls, cs with
         | fs :: ls', c :: cs' =>
           (fix zip (ts : list ty) (l : list val) {struct l} : bool :=
              match l, ts with
              | x :: l', t :: ts' => owns E t x || zip ts' l'
              | _, _ => false
              end) (wfields E c) fs || levels cs' ls'
         | _, _ => false
         end) (chain E c) ls
    | _ => false
    end
  end.

(** The objects lost in a run: temporaries whose storage was given back without
    running their destructor while they owned heap storage. *)
Definition lost (E : env) (log : list event) : list event :=
  filter (fun e => match e with EvAbandon t x => owns E t x | _ => false end) log.

(** Types whose objects never own heap storage. *)
Inductive storage_free (E : env) : ty -> Prop :=
| SfPrim id sz : storage_free E (TPrim id sz)
| SfEnum id uid usz : storage_free E (TEnum id uid usz)
| SfChrono id uid usz : storage_free E (TChrono id uid usz)
| SfArray n t : storage_free E t -> storage_free E (TArray n t)
| SfPair a b : storage_free E a -> storage_free E b -> storage_free E (TPair a b)
| SfTuple ts : Forall (storage_free E) ts -> storage_free E (TTuple ts)
| SfOptional t : storage_free E t -> storage_free E (TOptional t)
| SfVariant ts : Forall (storage_free E) ts -> storage_free E (TVariant ts)
| SfClass c :
    Forall (fun c' => Forall (storage_free E) (wfields E c')) (chain E c) ->
    storage_free E (TClass c).

(** Moving out of a temporary of this type leaves nothing behind. *)
Definition moves_out (E : env) (t : ty) : Prop := movec E t = true \/ storage_free E t.
(** A temporary of this type as it has been constructed owns nothing. *)
Definition starts_empty (E : env) (t : ty) : Prop :=
  forall d, recon E t = Some d -> owns E t d = false.

(** The containers of this kind, seen for themselves, leave nothing behind. *)
Definition neat (E : env) (t : ty) : Prop :=
  match t with
  | TOptional t' => storage_free E t'
  | TVector t' =>
    defc E t' = true \/
    (if copyc E t' then starts_empty E t' else movec E t' = true \/ starts_empty E t')
  | TList _ t' => if copyc E t' then starts_empty E t' else moves_out E t'
  | TQueue t' => moves_out E t'
  | TAssoc (AOrd _ true | AHash _ true) (TPair kt vt) =>
    storage_free E kt /\ moves_out E vt /\ moves_out E (TPair kt vt)
  | TAssoc _ t' => moves_out E t'
  | TVariant ts => Forall (moves_out E) ts
  | _ => True
  end.

(** [inside E t t']: deserializing an object of type [t] may involve objects of
    type [t'].  A polymorphic object may turn out to be of any polymorphic class. *)
Inductive inside (E : env) : ty -> ty -> Prop :=
| InSelf t : inside E t t
| InVector t t' : inside E t t' -> inside E (TVector t) t'
| InArray n t t' : inside E t t' -> inside E (TArray n t) t'
| InList dq t t' : inside E t t' -> inside E (TList dq t) t'
| InQueue t t' : inside E t t' -> inside E (TQueue t) t'
| InAssoc k t t' : inside E t t' -> inside E (TAssoc k t) t'
| InPairL a b t' : inside E a t' -> inside E (TPair a b) t'
| InPairR a b t' : inside E b t' -> inside E (TPair a b) t'
| InTuple ts t t' : In t ts -> inside E t t' -> inside E (TTuple ts) t'
| InOptional t t' : inside E t t' -> inside E (TOptional t) t'
| InVariant ts t t' : In t ts -> inside E t t' -> inside E (TVariant ts) t'
| InUnique t t' : inside E t t' -> inside E (TUnique t) t'
| InMember c t t' : In t (wfields E c) -> inside E t t' -> inside E (TClass c) t'
| InClass c d t' :
    is_virtual E (TClass c) = true -> is_virtual E (TClass d) = true ->
    inside E (TClass d) t' -> inside E (TClass c) t'.

Definition tidy (E : env) (t : ty) : Prop := forall t', inside E t t' -> neat E t'.

(** ** Facts *)

(** [owns] on lists of members. *)
Fixpoint owns_zip (E : env) (ts : list ty) (l : list val) {struct l} : bool :=
  match l, ts with
  | x :: l', t :: ts' => owns E t x || owns_zip E ts' l'
  | _, _ => false
  end.
Fixpoint owns_levels (E : env) (cs : list nat) (ls : list (list val)) {struct ls} : bool :=
  match ls, cs with
  | fs :: ls', c :: cs' => owns_zip E (wfields E c) fs || owns_levels E cs' ls'
  | _, _ => false
  end.

Lemma owns_tuple : forall E ts l, owns E (TTuple ts) (VSeq l) = owns_zip E ts l.
Proof.
  intros E ts l. cbn [owns]. revert ts. induction l as [|x l IH]; intros [|t ts]; auto.
  cbn [owns_zip]. now rewrite IH.
Qed.
Lemma owns_obj : forall E c d ls, owns E (TClass c) (VObj d ls) = owns_levels E (chain E c) ls.
Proof.
  intros E c d ls. cbn [owns]. generalize (chain E c). induction ls as [|fs ls IH]; intros [|c' cs]; auto.
  cbn [owns_levels]. rewrite IH. f_equal.
  generalize (wfields E c'). induction fs as [|x l IHf]; intros [|t ts]; auto.
  cbn [owns_zip]. now rewrite IHf.
Qed.

(** What a run can abandon, whatever bytes it is given. *)
Fixpoint clean (E : env) {A} (p : prog A) : Prop :=
  match p with
  | Ret _ | Fail _ => True
  | Contig _ k => forall y, clean E (k y)
  | Count _ k | SetV _ k => clean E k
  | GetV k => forall b, clean E (k b)
  | Note e k =>
    match e with EvAbandon t x => owns E t x = false | _ => True end /\ clean E k
  end.

Section Clean.
Variable E : env.
Local Notation clean p := (clean E p).

Lemma sf_zip : forall l, Forall (fun v => forall t, storage_free E t -> owns E t v = false) l ->
  forall ts, Forall (storage_free E) ts -> owns_zip E ts l = false.
Proof.
  intros l H. induction H as [|v l Hv Hl IH]; intros ts Hts; cbn [owns_zip]; auto.
  destruct Hts as [|t ts Ht Hts]; auto. now rewrite Hv, IH.
Qed.
Lemma sf_owns : forall v t, storage_free E t -> owns E t v = false.
Proof.
  intros v. induction v using val_ind'; intros t Ht; try (cbn [owns]; destruct Ht; reflexivity).
  - (* VSeq *)
    destruct Ht; try reflexivity.
    + cbn [owns]. induction H; cbn [existsb]; auto. rewrite H, IHForall; auto.
    + cbn [owns]. destruct l as [|x [|y [|]]]; auto.
      inversion H as [|? ? Hx H1]; subst. inversion H1 as [|? ? Hy H2]; subst.
      now rewrite Hx, Hy.
    + rewrite owns_tuple. now apply sf_zip.
  - (* VOpt *) destruct Ht; cbn [owns]; auto.
  - (* VVar *) destruct Ht; cbn [owns]; auto.
    destruct (nth_error ts i) eqn:En; auto. apply nth_error_In in En.
    rewrite Forall_forall in H. auto.
  - (* VObj *) destruct Ht; try reflexivity. rewrite owns_obj.
    revert H. revert H0. generalize (chain E c0).
    induction ls as [|fs ls IH]; intros cs Hcs Hls; cbn [owns_levels]; auto.
    destruct Hcs as [|c' cs Hc Hcs]; auto. inversion Hls; subst.
    rewrite sf_zip, IH; auto.
Qed.

Lemma c_ret : forall A (a : A), clean (Ret a).
Proof. intros. exact I. Qed.
Lemma c_fail : forall A e, clean (@Fail A e).
Proof. intros. exact I. Qed.
Lemma c_bind : forall A B (p : prog A) (f : A -> prog B), clean p -> (forall a, clean (f a)) ->
  clean (bind p f).
Proof.
  intros A B p f. induction p; intros Hp Hf; cbn [bind Tidy.clean] in *; auto.
  destruct Hp. split; auto.
Qed.
Lemma c_catch : forall A t (p : prog A), clean p -> clean (catch t p).
Proof.
  intros A t p. induction p; intros Hp; cbn [catch Tidy.clean] in *; auto. destruct Hp. split; auto.
Qed.
Lemma c_of_opt : forall A (o : option A), clean (of_opt o).
Proof. intros A [a|]; exact I. Qed.
Lemma c_mapP : forall A B (f : A -> prog B) l, (forall x, In x l -> clean (f x)) -> clean (mapP f l).
Proof.
  intros A B f l. induction l; intros H; cbn [mapP]; [exact I|].
  apply c_bind; [apply H; now left|]. intros y. apply c_bind; [apply IHl; intros; apply H; now right|].
  intros. exact I.
Qed.
Lemma c_foldP : forall A B (f : B -> A -> prog B) l acc, (forall y x, In x l -> clean (f y x)) ->
  clean (foldP f l acc).
Proof.
  intros A B f l. induction l; intros acc H; cbn [foldP]; [exact I|].
  apply c_bind; [apply H; now left|]. intros. apply IHl. intros; apply H; now right.
Qed.
Lemma c_type_idx : forall t, clean (with_type_idx E MUnpacking t).
Proof. intros t y. cbn zeta. match goal with |- context [if ?c then _ else _] => destruct c end; repeat split. Qed.
Lemma c_mem_used : forall t n, clean (with_mem_used E MUnpacking t n).
Proof. intros t n y. cbn zeta. match goal with |- context [if ?c then _ else _] => destruct c end; repeat split. Qed.

Lemma tidy_step : forall t t', tidy E t -> (forall u, inside E t' u -> inside E t u) -> tidy E t'.
Proof. intros t t' H Hs u Hu. apply H, Hs, Hu. Qed.
Lemma tidy_here : forall t, tidy E t -> neat E t.
Proof. intros t H. apply H. constructor. Qed.
Lemma tidy_prim : forall id sz, tidy E (TPrim id sz).
Proof. intros id sz t' H. inversion H; subst. exact I. Qed.

Section Rec.
Variable rec : ty -> list val -> prog (list val).
Hypothesis Hrec : forall t vs, tidy E t -> clean (rec t vs).

Lemma c_ser : forall t v, tidy E t -> clean (ser rec t v).
Proof.
  intros. unfold ser. apply c_bind; [auto|]. intros [|x [|]]; exact I.
Qed.
Lemma c_word : forall i s n, clean (ser_word rec i s n).
Proof. intros. unfold ser_word. apply c_bind; [apply c_ser, tidy_prim|]. intros []; exact I. Qed.
Lemma c_size : forall n, clean (ser_size rec n).
Proof. intros. apply c_word. Qed.
Lemma c_bool : forall x, clean (ser_bool rec x).
Proof.
  intros. unfold ser_bool. apply c_bind; [apply c_word|]. intros n.
  destruct (n =? 0); [exact I|]. destruct (n =? 1); exact I.
Qed.
Lemma c_array : forall t vs, tidy E t -> clean (ser_array rec t vs).
Proof. intros t [] Ht; cbn [ser_array]; [exact I|auto]. Qed.
Lemma c_cons : forall t A (k : val -> prog A), (forall d, recon E t = Some d -> clean (k d)) ->
  clean (bind (construct E t) k).
Proof.
  intros t A k H. unfold construct. cbn [bind Tidy.clean]. split; auto.
  destruct (recon E t) eqn:Er; cbn [of_opt bind]; [now apply H|exact I].
Qed.
Lemma c_leave : forall t x A (k : prog A), (movec E t = true \/ owns E t x = false) -> clean k ->
  clean (leave E t x k).
Proof.
  intros t x A k Hm Hk. unfold leave. destruct (movec E t); auto.
  destruct Hm; [discriminate|]. split; auto.
Qed.
Lemma c_moves : forall t x A (k : prog A), moves_out E t -> clean k -> clean (leave E t x k).
Proof. intros t x A k [H|H] Hk; apply c_leave; auto. right. now apply sf_owns. Qed.
Lemma c_leave_elem : forall a t x A (k : prog A), neat E (TAssoc a t) -> clean k ->
  clean (leave_elem E a t x k).
Proof.
  intros a t x A k H Hk. unfold leave_elem.
  assert (G : moves_out E t).
  { cbn [neat] in H. destruct a as [mu [|]|mu [|]]; auto; destruct t; auto; apply H. }
  destruct a as [mu [|]|mu [|]]; try (apply c_moves; auto; fail); destruct t; try (apply c_moves; auto; fail);
    destruct x; try (apply c_moves; auto; fail); destruct l as [|ke [|ve [|]]]; try (apply c_moves; auto; fail).
  all: cbn [neat] in H; destruct H as (Hk1 & Hv & _); split; [now apply sf_owns|now apply c_moves].
Qed.
Lemma c_vmeta : forall c n, clean (ser_vector_meta rec c n).
Proof.
  intros. unfold ser_vector_meta. apply c_bind; [apply c_size|]. intros.
  apply c_bind; [apply c_size|]. intros. exact I.
Qed.
Lemma c_vdata : forall t n l, neat E (TVector t) -> clean (construct_vector_data E t n l).
Proof.
  intros t n l H. unfold construct_vector_data. cbn [neat] in H. destruct (defc E t).
  - apply c_bind; [apply c_of_opt|]. intros. exact I.
  - destruct H as [H|H]; [discriminate|]. destruct (copyc E t).
    + apply c_cons. intros d Hd. split; auto. exact I.
    + apply c_foldP. intros. apply c_cons. intros d Hd. apply c_leave; [|exact I].
      destruct H; auto.
Qed.
Lemma c_push : forall A t l (acc : list val), moves_out E t -> tidy E t ->
  clean (foldP (fun acc (_ : A) => bind (construct E t) (fun d => bind (ser rec t d) (fun x => leave E t x (Ret (acc ++ [x]))))) l acc).
Proof.
  intros A t l acc Hm Ht. apply c_foldP. intros. apply c_cons. intros d _.
  apply c_bind; [now apply c_ser|]. intros. apply c_moves; auto. exact I.
Qed.

Local Notation m := MUnpacking.
Lemma c_elem : forall t v, tidy E t -> clean (apply_elem E m rec t v).
Proof.
  intros t v Ht. pose proof (tidy_here t Ht) as Hn.
  destruct t; try (destruct v; exact I).
  - destruct v; cbn [apply_elem]; try exact I. apply c_ser, tidy_prim.
  - destruct v; cbn [apply_elem]; try exact I. apply c_ser, tidy_prim.
  - (* string *)
    destruct v; cbn [apply_elem]; try exact I. unfold ser_string. cbn [is_footprinting].
    apply c_bind; [apply c_size|]. intros. apply c_bind; [apply c_array, tidy_prim|]. intros.
    apply c_bind; [apply c_of_opt|]. intros. exact I.
  - (* vector *)
    destruct v; cbn [apply_elem]; try exact I. unfold ser_vector. cbn [is_footprinting is_unpacking].
    assert (Ht' : tidy E t) by (apply (tidy_step (TVector t)); auto; intros; now constructor).
    apply c_bind; [apply c_vmeta|]. intros [c' n]. apply c_bind; [now apply c_vdata|].
    intros. apply c_bind; [now apply c_array|]. intros. exact I.
  - (* vector<bool> *)
    destruct v; cbn [apply_elem]; try exact I. unfold ser_vecbool. cbn [is_footprinting is_unpacking].
    apply c_bind; [apply c_vmeta|]. intros [c' n]. apply c_bind; [|intros; exact I].
    apply c_mapP. intros. apply c_bind; [apply c_bool|]. intros. exact I.
  - (* array *)
    destruct v; cbn [apply_elem]; try exact I. unfold ser_stdarray.
    apply c_bind; [|intros; exact I]. apply c_array.
    apply (tidy_step (TArray n t)); auto; intros; now constructor.
  - (* list *)
    destruct v; cbn [apply_elem]; try exact I. unfold ser_list, ser_container_size. cbn [is_footprinting is_unpacking].
    assert (Ht' : tidy E t) by (apply (tidy_step (TList deque t)); auto; intros; now constructor).
    apply c_bind; [apply c_size|]. intros. apply c_bind; [|intros; exact I].
    unfold deser_ordered. cbn [neat] in Hn. destruct (copyc E t).
    + apply c_cons. intros d Hd. split; auto. apply c_mapP. intros. now apply c_ser.
    + now apply c_push.
  - (* queue *)
    destruct v; cbn [apply_elem]; try exact I. unfold ser_queue, ser_container_size. cbn [is_footprinting is_unpacking].
    assert (Ht' : tidy E t) by (apply (tidy_step (TQueue t)); auto; intros; now constructor).
    apply c_bind; [apply c_size|]. intros. apply c_bind; [|intros; exact I]. now apply c_push.
  - (* associative containers *)
    cbn [apply_elem]. unfold ser_assoc, ser_container_size. cbn [is_footprinting is_unpacking].
    assert (Ht' : tidy E t) by (apply (tidy_step (TAssoc k t)); auto; intros; now constructor).
    apply c_bind; [apply c_of_opt|]. intros. apply c_bind; [apply c_size|]. intros.
    unfold deser_emplace. apply c_foldP. intros. apply c_cons. intros d _.
    apply c_bind; [now apply c_ser|]. intros. apply c_leave_elem; auto. apply c_of_opt.
  - (* pair *)
    destruct v; cbn [apply_elem]; try exact I. destruct l as [|x [|y [|]]]; try exact I.
    unfold ser_pair. cbn [Tidy.clean]. apply c_bind.
    + apply c_ser. apply (tidy_step (TPair t1 t2)); auto. intros. now apply InPairL.
    + intros. apply c_bind; [|intros; exact I].
      apply c_ser. apply (tidy_step (TPair t1 t2)); auto. intros. now apply InPairR.
  - (* tuple *)
    destruct v; cbn [apply_elem]; try exact I. apply c_bind; [|intros; exact I].
    assert (Hall : forall t, In t ts -> tidy E t).
    { intros t Hi. apply (tidy_step (TTuple ts)); auto. intros. eapply InTuple; eauto. }
    clear Ht Hn. revert l. induction ts as [|t ts IH]; intros [|v l]; cbn [ser_tuple]; try exact I.
    apply c_bind; [apply c_ser, Hall; now left|]. intros. apply c_bind; [|intros; exact I].
    apply IH. intros. apply Hall. now right.
  - (* optional *)
    destruct v; cbn [apply_elem]; try exact I. unfold ser_optional. cbn [is_footprinting is_unpacking].
    assert (Ht' : tidy E t) by (apply (tidy_step (TOptional t)); auto; intros; now constructor).
    apply c_bind; [apply c_bool|]. intros []; [|exact I]. apply c_cons. intros d _.
    apply c_bind; [now apply c_ser|]. intros. split; [now apply sf_owns|exact I].
  - (* variant *)
    cbn [apply_elem]. unfold ser_variant. apply c_bind; [apply c_of_opt|]. intros.
    apply c_bind; [apply c_size|]. intros entry.
    assert (Hall : forall t, In t ts -> tidy E t).
    { intros t Hi. apply (tidy_step (TVariant ts)); auto. intros. eapply InVariant; eauto. }
    cbn [neat] in Hn. clear Ht. generalize 0%nat.
    induction ts as [|t ts IH]; intros cur; cbn [ser_entry]; [exact I|].
    inversion Hn; subst. destruct (entry =? N.of_nat cur).
    + cbn [is_unpacking]. apply c_cons. intros d _. apply c_bind; [apply c_ser, Hall; now left|].
      intros. apply c_moves; auto. exact I.
    + apply IH; auto. intros. apply Hall. now right.
  - (* unique_ptr *)
    destruct v; cbn [apply_elem]; try exact I. unfold ser_unique. cbn [is_footprinting is_unpacking].
    assert (Ht' : tidy E t) by (apply (tidy_step (TUnique t)); auto; intros; now constructor).
    apply c_bind; [apply c_bool|]. intros []; [exact I|]. apply c_bind.
    + assert (Hp : clean (match o with
                          | Some v => Ret (Some v)
                          | None => if is_unpacking m then bind (construct E t) (fun o => Ret (Some o)) else Ret None
                          end)).
      { destruct o; [exact I|]. cbn [is_unpacking]. apply c_cons. intros. exact I. }
      unfold reconstruct_pointed. destruct t; try exact Hp.
      destruct (is_virtual E (TClass c)); [|exact Hp].
      apply c_bind.
      * unfold ser_virtual_type. cbn [is_unpacking is_footprinting bind].
        apply c_bind; [apply c_word|]. intros. destruct o; [|exact I].
        apply c_bind; [unfold dyn_type_idx; destruct v; try exact I;
          match goal with |- context [obj_idx E ?d] => destruct (obj_idx E d), (cls E d) end; exact I|].
        intros. destruct (_ || _); exact I.
      * intros. destruct o; [exact I|]. cbn [is_unpacking]. apply c_bind; [|intros; exact I].
        unfold construct_concrete. destruct (nth_error _ _); [|exact I]. cbn [Tidy.clean]. split; [exact I|].
        destruct (recon E _); [|destruct (asserts E); exact I]. destruct (existsb _ _); exact I.
    + intros [x|]; [|exact I]. apply c_bind; [now apply c_ser|]. intros. exact I.
  - (* class *)
    cbn [apply_elem]. unfold apply_static. destruct v; try exact I.
    destruct (cls E c) eqn:Ec; [|exact I]. destruct (nth_error ls (level E c)); [|exact I].
    cbn [Tidy.clean]. split; [exact I|]. apply c_bind; [|intros; split; exact I].
    unfold ser_members. apply c_foldP. intros fs i _.
    destruct (nth_error (cfields c1) i) eqn:En; [|exact I]. destruct (nth_error fs i); [|exact I].
    apply c_bind; [|intros; exact I]. apply c_ser.
    apply (tidy_step (TClass c)); auto. intros. eapply InMember; eauto.
    unfold wfields. rewrite Ec. eapply nth_error_In; eauto.
Qed.

Hypothesis chain_v : forall c c', is_virtual E (TClass c) = true -> In c' (chain E c) ->
  is_virtual E (TClass c') = true.

Lemma c_dyn : forall c v, is_virtual E (TClass c) = true -> tidy E (TClass c) ->
  clean (dyn_serialize E rec v).
Proof.
  intros c v Hc Ht. unfold dyn_serialize. destruct v; try exact I.
  destruct (is_virtual E (TClass c0)) eqn:Hv; [|exact I].
  apply c_foldP. intros y c' Hi. cbn [Tidy.clean]. split; [exact I|]. apply c_ser.
  apply (tidy_step (TClass c)); auto. intros. eapply InClass; [exact Hc|eapply chain_v; eauto|auto].
Qed.

Lemma c_ap : forall t vs, tidy E t -> clean (ap E m rec t vs).
Proof.
  intros t vs Ht. unfold ap. destruct (bytecopy E t).
  - destruct (opt_all _); [|exact I]. intros y. exact I.
  - destruct (is_virtual E t) eqn:Hv.
    + intros [|]; [cbn [Tidy.clean]; apply c_mapP; intros; now apply c_elem|].
      destruct vs; [exact I|]. destruct t; try discriminate.
      apply c_bind; [eapply c_dyn; eauto|]. intros. exact I.
    + apply c_mapP. intros. now apply c_elem.
Qed.
Lemma c_traverse : forall t vs, tidy E t -> clean (traverse E m rec t vs).
Proof.
  intros t vs Ht. unfold traverse. destruct (chk E); [|now apply c_ap].
  apply c_bind; [apply c_type_idx|]. intros _. apply c_bind; [now apply c_catch, c_ap|]. intros.
  apply c_bind; [apply c_mem_used|]. intros. exact I.
Qed.
End Rec.

Hypothesis chain_v : forall c c', is_virtual E (TClass c) = true -> In c' (chain E c) ->
  is_virtual E (TClass c') = true.

Lemma c_with : forall f t vs, tidy E t -> clean (with_ E MUnpacking f t vs).
Proof.
  induction f as [|f IH]; intros t vs Ht; cbn [with_]; [exact I|]. apply c_traverse; auto.
Qed.
Lemma c_with_root : forall f t v, tidy E t -> clean (with_root E MUnpacking f t v).
Proof.
  intros f t v Ht. unfold with_root.
  assert (H : clean (ser (with_ E MUnpacking f) t v)) by (apply c_ser; auto; intros; now apply c_with).
  destruct (chk E); auto.
  apply c_bind; [apply c_type_idx|]. intros _. apply c_bind; [exact H|]. intros.
  apply c_bind; [apply c_mem_used|]. intros. exact I.
Qed.
End Clean.
