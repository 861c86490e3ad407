(** Sizing and packing emit exactly the wire format of the specification. *)
From Coq Require Import List NArith Arith Bool Lia.
From Verif Require Import Base Syntax Prog Serializers Traverse Spec ProgFacts EnvFacts.
Import ListNotations.
Local Open Scope N_scope.

(** ** Named versions of the local fixpoints of [encb] *)
Section Zips.
Variable E : env.
Fixpoint zipenc (ts : list ty) (l : list val) {struct l} : list bytes :=
  match l, ts with
  | x :: l', t :: ts' => enc E t x :: zipenc ts' l'
  | _, _ => []
  end.

Fixpoint levelenc (cs : list nat) (ls : list (list val)) {struct ls}
  : list (nat * list bytes) :=
  match ls, cs with
  | fs :: ls', c :: cs' => (c, zipenc (wfields E c) fs) :: levelenc cs' ls'
  | _, _ => []
  end.
End Zips.

Lemma encb_tuple : forall E ts l, encb E (TTuple ts) (VSeq l) = concat (zipenc E ts l).
Proof. reflexivity. Qed.

Lemma encb_obj : forall E t d ls,
  encb E t (VObj d ls) =
  if is_virtual E t
  then concat (map (fun p => framed E (TClass (fst p)) 1 (wmembers E p)) (levelenc E (chain E d) ls))
  else concat (map (wmembers E) (levelenc E (chain E d) ls)).
Proof. reflexivity. Qed.

Lemma encb_unique_dyn : forall E c d ls i, is_virtual E (TClass c) = true ->
  obj_idx E d = Some i ->
  encb E (TUnique (TClass c)) (VOpt (Some (VObj d ls))) =
  wbool E false ++ wint E (N.of_nat i) ++ enc E (TClass c) (VObj d ls).
Proof.
  intros E c d ls i H H1.
  change (encb E (TUnique (TClass c)) (VOpt (Some (VObj d ls)))) with
    (wbool E false ++
     (if is_virtual E (TClass c)
      then match obj_idx E d with Some i => wint E (N.of_nat i) | None => [] end
      else []) ++ enc E (TClass c) (VObj d ls)).
  now rewrite H, H1.
Qed.

(** What a reference of static type [t] may designate: an object of that type, or
    (polymorphic classes) an object of a derived class. *)
Inductive holds (E : env) : ty -> val -> Prop :=
| HoldsTy t v : has_ty E t v -> holds E t v
| HoldsDyn c d ls :
    is_virtual E (TClass c) = true -> In c (chain E d) ->
    has_ty E (TClass d) (VObj d ls) -> holds E (TClass c) (VObj d ls).

(** The members of one class of an object. *)
Definition lvl_ok (E : env) (c' : nat) (fs : list val) : Prop :=
  exists k, cls E c' = Some k /\ cbyte k = false /\ wf_class k /\
    Forall2 (has_ty E) (cfields k) fs.

Lemma has_obj : forall E c d ls, has_ty E (TClass c) (VObj d ls) ->
  d = c /\ chain E c <> [] /\ Forall2 (lvl_ok E) (chain E c) ls.
Proof. intros E c d ls H. inversion H; subst. auto. Qed.

Lemma lvl_nth : forall E cs ls c i, Forall2 (lvl_ok E) cs ls -> nth_error cs i = Some c ->
  exists k fs, cls E c = Some k /\ cbyte k = false /\ nth_error ls i = Some fs /\
    Forall2 (has_ty E) (cfields k) fs.
Proof.
  intros E cs ls c i HF. revert i. induction HF; intros [|i] Hn; cbn in Hn; try discriminate.
  - inversion Hn; subst. destruct H as (k & ? & ? & _ & ?). cbn. eauto 10.
  - cbn. eauto.
Qed.
Lemma lvl_wf : forall E cs ls c k, Forall2 (lvl_ok E) cs ls -> In c cs -> cls E c = Some k ->
  wf_class k.
Proof.
  intros E cs ls c k HF. induction HF; intros Hin Hk; [destruct Hin|].
  destruct Hin as [->|Hin]; auto.
  destruct H as (k' & Hk' & _ & ? & _). congruence.
Qed.

Definition arr_ok (E : env) (t : ty) (l : list val) : Prop :=
  Forall (holds E t) l /\ l <> [] /\ (is_virtual E t = true -> length l = 1%nat).

Definition shallow (n : nat) (l : list val) : Prop := Forall (fun v => (depth v < n)%nat) l.

(** Recursion bound for an array of type [t]: scalars need one call. *)
Definition is_prim (t : ty) : bool := match t with TPrim _ _ => true | _ => false end.
Definition fits (n : nat) (t : ty) (l : list val) : Prop :=
  shallow n l \/ (is_prim t = true /\ (1 <= n)%nat).

(** ** Depth *)
Lemma depth_pos : forall v, (1 <= depth v)%nat.
Proof. destruct v; cbn [depth]; try lia; try (destruct o; lia). Qed.

Lemma fold_depth : forall l n,
  (fold_right (fun x n => Nat.max (depth x) n) 1%nat l < n)%nat ->
  shallow n l /\ (1 < n)%nat.
Proof.
  unfold shallow. induction l; cbn [fold_right]; intros n H.
  - split; [apply Forall_nil | lia].
  - destruct (IHl n) as (H1 & H2); [lia|]. split; [apply Forall_cons; [lia|auto] | lia].
Qed.

Lemma fold_depth2 : forall ls n,
  (fold_right (fun fs n =>
      Nat.max (fold_right (fun x n => Nat.max (depth x) n) 1%nat fs) n) 1%nat ls < n)%nat ->
  Forall (shallow n) ls /\ (1 < n)%nat.
Proof.
  induction ls; cbn [fold_right]; intros n H.
  - split; [apply Forall_nil | lia].
  - destruct (IHls n) as (H1 & H2); [lia|].
    split; [apply Forall_cons; [apply fold_depth; lia|auto] | lia].
Qed.

(** ** Byte-copyable arrays *)
Lemma opt_all_map_some : forall A B (f : A -> option B) g l,
  (forall x, In x l -> f x = Some (g x)) -> opt_all (map f l) = Some (map g l).
Proof.
  induction l; intros H; cbn; auto.
  rewrite (H a) by now left. rewrite IHl; auto. intros; apply H; now right.
Qed.

(** Bytes of a byte-copyable object. *)
Definition vb (v : val) : bytes := match v with VB b => b | _ => [] end.

Lemma bytecopy_vb : forall F E t v, wf_env F E -> holds E t v -> bytecopy E t = true ->
  v = VB (vb v) /\ len (vb v) = sizeof E t /\ encb E t v = vb v.
Proof.
  intros F E t v Hwf Hh Hb.
  assert (Hobj : forall c d ls, has_ty E (TClass d) (VObj d ls) -> In c (chain E d) ->
                  bytecopy E (TClass c) = false).
  { intros c d ls Ht Hin. apply has_obj in Ht. destruct Ht as (_ & _ & HF).
    destruct (In_nth_error _ _ Hin) as (i & Hi).
    destruct (lvl_nth _ _ _ _ _ HF Hi) as (k & fs & Hk & Hkb & _). cbn. now rewrite Hk. }
  inversion Hh; subst.
  - inversion H; subst; cbn [bytecopy] in Hb; try discriminate; cbn [vb encb sizeof]; auto.
    + change (bytecopy E (TVariant ts) = true) in Hb. congruence.
    + rewrite H0. auto.
    + exfalso. specialize (Hobj c c ls H). cbn [bytecopy] in Hobj. rewrite Hobj in Hb; [discriminate|].
      eapply chain_self; eauto.
  - rewrite (Hobj c d ls) in Hb; auto. discriminate.
Qed.

Lemma unflatten_same : forall E t vs bs,
  opt_all (map (obj_bytes E t) vs) = Some bs ->
  (forall v, In v vs -> v = VB (vb v)) ->
  unflatten E t vs (concat bs) = vs.
Proof.
  intros E t. induction vs; intros bs H Hv; cbn in *; auto.
  assert (Ha : a = VB (vb a)) by auto.
  assert (Ho : obj_bytes E t a = Some (vb a)).
  { rewrite Ha. destruct t; reflexivity. }
  rewrite Ho in *.
  destruct (opt_all (map (obj_bytes E t) vs)) as [bs'|] eqn:Eb; cbn in H; [|discriminate].
  inversion H; subst. cbn [concat].
  rewrite firstn_app, Nat.sub_diag, firstn_all, firstn_O, app_nil_r.
  rewrite skipn_app, skipn_all, Nat.sub_diag, skipn_O. cbn [app].
  rewrite (IHvs bs'); auto. f_equal. rewrite Ha. destruct t; reflexivity.
Qed.

(** ** Loops *)
Lemma emits_mapP : forall A B (f : A -> prog B) (g : A -> B) (h : A -> bytes) vf l,
  (forall x, In x l -> emits (f x) vf (g x) vf (h x)) ->
  emits (mapP f l) vf (map g l) vf (concat (map h l)).
Proof.
  induction l; intros H; cbn [mapP map concat].
  - apply emits_ret.
  - eapply emits_eq.
    + eapply emits_bind; [apply H; now left|].
      eapply emits_bind; [apply IHl; intros; apply H; now right|]. apply emits_ret.
    + now rewrite app_nil_r.
Qed.

Lemma emits_mapP_id : forall A (f : A -> prog A) (h : A -> bytes) vf l,
  (forall x, In x l -> emits (f x) vf x vf (h x)) ->
  emits (mapP f l) vf l vf (concat (map h l)).
Proof.
  intros. rewrite <- (map_id l) at 2. apply emits_mapP. auto.
Qed.

Lemma emits_foldP_id : forall A B (f : B -> A -> prog B) (h : A -> bytes) vf l acc,
  (forall x, In x l -> emits (f acc x) vf acc vf (h x)) ->
  emits (foldP f l acc) vf acc vf (concat (map h l)).
Proof.
  induction l; intros acc H; cbn [foldP map concat].
  - apply emits_ret.
  - eapply emits_bind; [apply H; now left|]. apply IHl. intros; apply H; now right.
Qed.

Lemma concat_singletons : forall A (l : list A), concat (map (fun c => [c]) l) = l.
Proof. induction l; cbn; congruence. Qed.

Lemma unchars_chars : forall b, unchars (chars b) = Some b.
Proof. induction b; cbn; auto. unfold chars in IHb. now rewrite IHb. Qed.

Lemma pow256_8 : 256 ^ N.of_nat 8 = two64.
Proof. reflexivity. Qed.

Section Pack.
Variable F : N -> Prop.
Variable E : env.
Hypothesis wf : wf_env F E.
Variable m : mode.
Hypothesis Hm : m = MPacking \/ m = MSizing.

Lemma m_unp : is_unpacking m = false.
Proof. destruct Hm as [-> | ->]; reflexivity. Qed.
Lemma m_fp : is_footprinting m = false.
Proof. destruct Hm as [-> | ->]; reflexivity. Qed.
Lemma m_cser : forall k, wf_class k -> cser k m = cser k MPacking.
Proof. intros k Hk. destruct Hm as [-> | ->]; auto. apply Hk. Qed.

Lemma emits_framed : forall A (p : prog A) t n vf a vf' body,
  emits p vf a vf' body ->
  emits (if chk E
         then bind (with_type_idx E m t) (fun _ => bind (catch (tix E t) p) (fun a =>
              bind (with_mem_used E m t n) (fun _ => Ret a)))
         else p) vf a vf' (framed E t n body).
Proof.
  intros A p t n vf a vf' body Hp. unfold framed. destruct (chk E); auto.
  eapply emits_bind.
  { unfold with_type_idx. destruct Hm as [-> | ->];
    (eapply emits_eq; [apply emits_contig; apply emits_ret|apply app_nil_r]). }
  eapply emits_bind; [apply emits_catch, Hp|].
  eapply emits_eq.
  { eapply emits_bind.
    - unfold with_mem_used. destruct Hm as [-> | ->];
      (apply emits_contig; apply emits_ret).
    - apply emits_ret. }
  now rewrite !app_nil_r.
Qed.

Section Level.
Variable rec : ty -> list val -> prog (list val).
Variable n : nat.
Hypothesis Hrec : forall t vs, arr_ok E t vs -> fits n t vs ->
  emits (rec t vs) false vs false (framed E t (length vs) (concat (map (encb E t) vs))).

Lemma p_ser : forall t v, holds E t v -> (depth v < n)%nat ->
  emits (ser rec t v) false v false (enc E t v).
Proof.
  intros t v Hv Hd. unfold ser. eapply emits_eq.
  - eapply emits_bind.
    + apply Hrec; [|left; constructor; auto].
      repeat split; auto. discriminate.
    + apply emits_ret.
  - cbn [map concat length]. now rewrite !app_nil_r.
Qed.

Lemma p_prim : forall id sz b, length b = sz -> (1 <= n)%nat ->
  emits (ser rec (TPrim id sz) (VB b)) false (VB b) false (framed E (TPrim id sz) 1 b).
Proof.
  intros id sz b Hb Hn. unfold ser. eapply emits_eq.
  - eapply emits_bind.
    + apply Hrec; [|right; auto].
      repeat split.
      * constructor; [|constructor]. apply HoldsTy. now constructor.
      * discriminate.
    + apply emits_ret.
  - cbn [map concat length encb]. now rewrite !app_nil_r.
Qed.

Lemma p_ser_word : forall id sz x, x < 256 ^ N.of_nat sz -> (1 < n)%nat ->
  emits (ser_word rec id sz x) false x false (framed E (TPrim id sz) 1 (le sz x)).
Proof.
  intros id sz x Hx Hn. unfold ser_word. eapply emits_eq.
  - eapply emits_bind.
    + apply p_prim; [apply le_length|lia].
    + cbn beta iota. rewrite unle_le by auto. apply emits_ret.
  - rewrite app_nil_r. reflexivity.
Qed.

Lemma p_ser_size : forall x, x < two64 -> (1 < n)%nat ->
  emits (ser_size rec x) false x false (wsize E x).
Proof. intros. apply p_ser_word; auto. Qed.

Lemma p_ser_int : forall x, x < 2 ^ 32 -> (1 < n)%nat ->
  emits (ser_int rec x) false x false (wint E x).
Proof. intros. apply p_ser_word; auto. Qed.

Lemma p_ser_bool : forall b, (1 < n)%nat ->
  emits (ser_bool rec b) false b false (wbool E b).
Proof.
  intros b Hn. unfold ser_bool. eapply emits_eq.
  - eapply emits_bind; [apply p_ser_word; auto; destruct b; reflexivity|].
    destruct b; cbn; apply emits_ret.
  - rewrite app_nil_r. reflexivity.
Qed.

Lemma p_ser_array : forall t l, Forall (has_ty E t) l ->
  (is_virtual E t = true -> (length l <= 1)%nat) -> shallow n l ->
  emits (ser_array rec t l) false l false (warray E t (map (encb E t) l)).
Proof.
  intros t l Hl Hv Hs. unfold ser_array, warray. destruct l as [|x r].
  - apply emits_ret.
  - cbn [map]. eapply emits_eq.
    + apply Hrec; [|left; auto]. repeat split.
      * eapply Forall_impl; [|exact Hl]. intros; now constructor.
      * discriminate.
      * intros H. apply Hv in H. cbn in *. lia.
    + cbn [length map]. now rewrite map_length.
Qed.

Lemma shallow_in : forall k l x, shallow k l -> In x l -> (depth x < k)%nat.
Proof. intros k l x H Hin. unfold shallow in H. rewrite Forall_forall in H. auto. Qed.

Lemma p_elems : forall t l, Forall (has_ty E t) l -> shallow n l ->
  emits (mapP (ser rec t) l) false l false (concat (map (enc E t) l)).
Proof.
  intros t l Hl Hs. apply emits_mapP_id. intros x Hx. apply p_ser.
  - constructor. rewrite Forall_forall in Hl. auto.
  - eapply shallow_in; eauto.
Qed.

Lemma p_tuple : forall ts l, Forall2 (has_ty E) ts l -> shallow n l ->
  emits (ser_tuple rec ts l) false l false (concat (zipenc E ts l)).
Proof.
  intros ts l H. induction H; intros Hs; cbn [ser_tuple zipenc concat].
  - apply emits_ret.
  - inversion Hs; subst. eapply emits_eq.
    + eapply emits_bind; [apply p_ser; [now constructor|auto]|].
      eapply emits_bind; [apply IHForall2; auto|]. apply emits_ret.
    + now rewrite app_nil_r.
Qed.

Lemma zipenc_nth : forall ts fs i t x,
  nth_error ts i = Some t -> nth_error fs i = Some x ->
  nth i (zipenc E ts fs) [] = enc E t x.
Proof.
  induction ts; intros fs [|i] t x Ht Hx; cbn in *; try discriminate;
    destruct fs; cbn in *; try discriminate.
  - congruence.
  - eauto.
Qed.

Lemma p_members : forall ts fs is_,
  Forall2 (has_ty E) ts fs -> shallow n fs ->
  (forall i, In i is_ -> (i < length ts)%nat) ->
  emits (ser_members rec ts is_ fs) false fs false
    (concat (map (fun i => nth i (zipenc E ts fs) []) is_)).
Proof.
  intros ts fs is_ Ht Hs Hi. unfold ser_members. apply emits_foldP_id.
  intros i Hin. apply Hi in Hin.
  destruct (nth_error ts i) as [t|] eqn:Et.
  2: { apply nth_error_None in Et. lia. }
  destruct (nth_error fs i) as [x|] eqn:Ex.
  2: { apply nth_error_None in Ex. apply Forall2_length in Ht. lia. }
  assert (Hx : has_ty E t x).
  { clear - Ht Et Ex. revert i Et Ex.
    induction Ht; intros [|i]; cbn; intros Et Ex; inversion Et; inversion Ex; subst; eauto. }
  rewrite (zipenc_nth _ _ _ _ _ Et Ex). eapply emits_eq.
  - eapply emits_bind; [apply p_ser; [now constructor|]|].
    + eapply shallow_in; eauto. eapply nth_error_In; eauto.
    + rewrite upd_same by auto. apply emits_ret.
  - apply app_nil_r.
Qed.

(** Lookup of the members of one class of an object. *)
Lemma obj_level : forall d ls c, In c (chain E d) ->
  Forall2 (lvl_ok E) (chain E d) ls ->
  exists k fs, cls E c = Some k /\ cbyte k = false /\ nth_error ls (level E c) = Some fs /\
    Forall2 (has_ty E) (cfields k) fs.
Proof.
  intros d ls c Hin HF. eapply lvl_nth; eauto. eapply chain_level; eauto.
Qed.

Lemma p_static : forall d ls c, In c (chain E d) ->
  Forall2 (lvl_ok E) (chain E d) ls ->
  Forall (shallow n) ls ->
  forall fs, nth_error ls (level E c) = Some fs ->
  emits (apply_static E m rec c (VObj d ls)) false (VObj d ls) false
    (wmembers E (c, zipenc E (wfields E c) fs)).
Proof.
  intros d ls c Hin HF Hs fs Hfs.
  destruct (obj_level _ _ _ Hin HF) as (k & fs' & Hk & _ & Hn & Hft).
  assert (fs' = fs) by congruence. subst fs'.
  unfold apply_static, wmembers, wfields. cbn [fst snd]. rewrite Hk, Hn.
  apply emits_note. pose proof (lvl_wf _ _ _ _ _ HF Hin Hk) as Hwk. rewrite (m_cser _ Hwk). eapply emits_eq.
  - eapply emits_bind.
    + apply p_members; eauto.
      * rewrite Forall_forall in Hs. apply Hs. eapply nth_error_In; eauto.
      * intros i. apply Hwk.
    + rewrite upd_same by auto. apply emits_note, emits_ret.
  - apply app_nil_r.
Qed.

(** The overloads of serialize(s, x). *)
Lemma p_elem : forall t v, has_ty E t v -> bytecopy E t = false -> is_virtual E t = false ->
  (depth v < S n)%nat ->
  emits (apply_elem E m rec t v) false v false (encb E t v).
Proof.
  intros t v Ht Hb Hv Hd.
  inversion Ht; subst; cbn [bytecopy] in Hb; try discriminate; cbn [apply_elem].
  - (* enum *)
    unfold ser_underlying. apply p_prim; [reflexivity|cbn in *; lia].
  - (* duration *)
    unfold ser_underlying. apply p_prim; [reflexivity|cbn in *; lia].
  - (* string *)
    cbn [depth] in Hd. unfold ser_string. rewrite m_fp. eapply emits_eq.
    + eapply emits_bind; [apply p_ser_size; lia|].
      cbn zeta. unfold len. rewrite Nat2N.id, resize_id.
      eapply emits_bind.
      { apply p_ser_array.
        - unfold chars. apply Forall_forall. intros x Hx. apply in_map_iff in Hx.
          destruct Hx as (y & <- & _). now constructor.
        - cbn. discriminate.
        - unfold chars, shallow. apply Forall_forall. intros x Hx. apply in_map_iff in Hx.
          destruct Hx as (y & <- & _). cbn. lia. }
      rewrite unchars_chars. cbn [of_opt bind].
      replace (N.max cap (N.of_nat (length b))) with cap by (unfold len in *; lia).
      apply emits_ret.
    + cbn [encb]. rewrite app_nil_r. do 2 f_equal. unfold chars. rewrite map_map. reflexivity.
  - (* vector *)
    cbn [depth] in Hd. destruct (fold_depth l n) as (Hs & H1n); [lia|].
    unfold ser_vector. rewrite m_fp, m_unp. unfold ser_vector_meta. eapply emits_eq.
    + eapply emits_bind.
      { eapply emits_bind; [apply p_ser_size; auto|].
        eapply emits_bind; [apply p_ser_size; auto; lia|]. apply emits_ret. }
      cbn beta iota. eapply emits_bind; [apply emits_ret|].
      eapply emits_bind; [apply p_ser_array; auto|].
      replace (N.max (N.max cap cap) (len l)) with cap by lia.
      apply emits_ret.
    + cbn [encb]. rewrite !app_nil_r, <- !app_assoc. reflexivity.
  - (* vector<bool> *)
    cbn [depth] in Hd. destruct (fold_depth l n) as (Hs & H1n); [lia|].
    unfold ser_vecbool. rewrite m_fp, m_unp. unfold ser_vector_meta. eapply emits_eq.
    + eapply emits_bind.
      { eapply emits_bind; [apply p_ser_size; auto|].
        eapply emits_bind; [apply p_ser_size; auto; lia|]. apply emits_ret. }
      cbn beta iota. eapply emits_bind.
      { apply (p_elems BOOL); auto. eapply Forall_impl; [|exact H1].
        intros x [-> | ->]; now constructor. }
      replace (N.max cap cap) with cap by lia.
      apply emits_ret.
    + cbn [encb]. rewrite !app_nil_r, <- !app_assoc. reflexivity.
  - (* array *)
    cbn [depth] in Hd. destruct (fold_depth l n) as (Hs & H1n); [lia|].
    unfold ser_stdarray. eapply emits_eq.
    + eapply emits_bind; [apply p_ser_array; auto|]. apply emits_ret.
    + cbn [encb]. now rewrite app_nil_r.
  - (* list, deque *)
    cbn [depth] in Hd. destruct (fold_depth l n) as (Hs & H1n); [lia|].
    unfold ser_list, ser_container_size. rewrite m_fp, m_unp. eapply emits_eq.
    + eapply emits_bind; [apply p_ser_size; auto|]. cbn beta.
      eapply emits_bind; [apply p_elems; auto|]. apply emits_ret.
    + cbn [encb]. rewrite app_nil_r. reflexivity.
  - (* queue *)
    cbn [depth] in Hd. destruct (fold_depth l n) as (Hs & H1n); [lia|].
    unfold ser_queue, ser_container_size. rewrite m_fp, m_unp. eapply emits_eq.
    + eapply emits_bind; [apply p_ser_size; auto|]. cbn beta.
      eapply emits_bind; [apply p_elems; auto|]. apply emits_ret.
    + cbn [encb]. rewrite app_nil_r. reflexivity.
  - (* ordered associative *)
    cbn [depth] in Hd. destruct (fold_depth l n) as (Hs & H1n); [lia|].
    unfold ser_assoc, ser_container_size. rewrite m_fp, m_unp. cbn [elements of_opt bind].
    eapply emits_eq.
    + eapply emits_bind; [apply p_ser_size; auto|]. cbn beta.
      eapply emits_bind; [apply p_elems; auto|]. apply emits_ret.
    + cbn [encb]. rewrite app_nil_r. reflexivity.
  - (* unordered associative *)
    cbn [depth] in Hd. destruct (fold_depth l n) as (Hs & H1n); [lia|].
    unfold ser_assoc, ser_container_size. rewrite m_fp, m_unp. cbn [elements of_opt bind].
    eapply emits_eq.
    + eapply emits_bind; [apply p_ser_size; auto|]. cbn beta.
      eapply emits_bind; [apply p_elems; auto|]. apply emits_ret.
    + cbn [encb]. rewrite app_nil_r. reflexivity.
  - (* pair *)
    cbn [depth fold_right] in Hd. unfold ser_pair. apply emits_count. eapply emits_eq.
    + eapply emits_bind; [apply p_ser; [now constructor|lia]|].
      eapply emits_bind; [apply p_ser; [now constructor|lia]|]. apply emits_ret.
    + cbn [encb]. rewrite app_nil_r. reflexivity.
  - (* tuple *)
    cbn [depth] in Hd. destruct (fold_depth l n) as (Hs & H1n); [lia|].
    eapply emits_eq.
    + eapply emits_bind; [apply p_tuple; auto|]. apply emits_ret.
    + rewrite encb_tuple, app_nil_r. reflexivity.
  - (* optional, empty *)
    cbn [depth] in Hd. unfold ser_optional. rewrite m_fp, m_unp. eapply emits_eq.
    + eapply emits_bind; [apply p_ser_bool; lia|]. apply emits_ret.
    + cbn [encb]. now rewrite app_nil_r.
  - (* optional, engaged *)
    cbn [depth] in Hd. unfold ser_optional. rewrite m_fp, m_unp. eapply emits_eq.
    + eapply emits_bind; [apply p_ser_bool; lia|]. cbn beta.
      eapply emits_bind; [apply p_ser; [now constructor|lia]|]. apply emits_ret.
    + cbn [encb]. now rewrite app_nil_r.
  - (* variant *)
    cbn [depth] in Hd. unfold ser_variant. cbn [variant_index of_opt bind].
    eapply emits_eq.
    + eapply emits_bind; [apply p_ser_size; lia|].
      assert (G : forall ts0 cur, nth_error ts0 (i - cur) = Some t0 -> (cur <= i)%nat ->
        emits (ser_entry E m rec ts0 (VVar i v0) (N.of_nat i) cur) false (VVar i v0) false
          (enc E t0 v0)).
      { induction ts0; intros cur Hn Hc; cbn [ser_entry].
        - destruct (i - cur)%nat; discriminate.
        - destruct (N.of_nat i =? N.of_nat cur) eqn:Ec.
          + apply N.eqb_eq in Ec. assert (i = cur) by lia. subst cur.
            rewrite Nat.sub_diag in Hn. inversion Hn; subst.
            rewrite m_unp, Nat.eqb_refl. eapply emits_eq.
            * eapply emits_bind; [apply p_ser; [now constructor|lia]|]. apply emits_ret.
            * apply app_nil_r.
          + apply N.eqb_neq in Ec. apply IHts0; [|lia].
            replace (i - cur)%nat with (S (i - S cur)) in Hn by lia. exact Hn. }
      apply G; [now rewrite Nat.sub_0_r|lia].
    + cbn [encb]. rewrite H0. reflexivity.
  - (* byte-copyable variant *)
    change (bytecopy E (TVariant ts) = false) in Hb. congruence.
  - (* null pointer *)
    cbn [depth] in Hd. unfold ser_unique. rewrite m_fp, m_unp. eapply emits_eq.
    + eapply emits_bind; [apply p_ser_bool; lia|]. apply emits_ret.
    + cbn [encb]. now rewrite app_nil_r.
  - (* pointer to a non-polymorphic object *)
    cbn [depth] in Hd. unfold ser_unique. rewrite m_fp. eapply emits_eq.
    + eapply emits_bind; [apply p_ser_bool; lia|]. cbn beta iota.
      eapply emits_bind.
      { assert (Hr : reconstruct_pointed E m rec t0 (Some v0) = Ret (Some v0)).
        { unfold reconstruct_pointed. destruct t0; auto. now rewrite H. }
        rewrite Hr. apply emits_ret. }
      cbn beta iota. eapply emits_bind; [apply p_ser; [now constructor|lia]|]. apply emits_ret.
    + cbn [encb]. rewrite H, app_nil_r. reflexivity.
  - (* pointer to a polymorphic object *)
    assert (Hdd : (depth (VObj d ls) < n)%nat) by (change (depth (VOpt (Some (VObj d ls))))
      with (S (Nat.max 1 (depth (VObj d ls)))) in Hd; lia).
    assert (H1n : (1 < n)%nat) by (cbn [depth] in Hdd; lia).
    unfold ser_unique. rewrite m_fp. eapply emits_eq.
    + eapply emits_bind; [apply p_ser_bool; lia|]. cbn beta iota.
      eapply emits_bind.
      { unfold reconstruct_pointed. rewrite H. unfold ser_virtual_type.
        rewrite m_fp, m_unp. unfold dyn_type_idx. rewrite H1. cbn [option_map of_opt bind].
        eapply emits_bind.
        - eapply emits_bind; [apply p_ser_int; lia|].
          cbn beta. rewrite N.eqb_refl. apply emits_ret.
        - apply emits_ret. }
      cbn beta iota. eapply emits_bind; [apply p_ser; [apply HoldsDyn; auto|auto]|].
      apply emits_ret.
    + rewrite (encb_unique_dyn _ _ _ _ _ H H1). now rewrite !app_nil_r.
  - (* byte-copyable class *)
    cbn [bytecopy] in Hb. rewrite H in Hb. congruence.
  - (* class *)
    assert (Hin : In c (chain E c)) by (eapply chain_self; eauto).
    destruct (chain_in_cls _ _ wf _ _ Hin) as (k & Hk).
    assert (Hst : chain E c = [c]).
    { eapply chain_static; eauto. cbn [is_virtual] in Hv. now rewrite Hk in Hv. }
    cbn [depth] in Hd. destruct (fold_depth2 ls n) as (Hs & H1n); [lia|].
    rewrite encb_obj, Hv, Hst.
    destruct (obj_level _ _ _ Hin H0) as (k' & fs & Hk' & _ & Hn & Hft).
    assert (Hls : ls = [fs]).
    { rewrite Hst in H0. inversion H0; subst. inversion H5; subst.
      unfold level in Hn. rewrite Hst in Hn. cbn in Hn. congruence. }
    subst ls. cbn [levelenc map concat]. rewrite app_nil_r.
    apply p_static; auto.
Qed.
End Level.

(** The recursive traversal, with the virtual-dispatch flag clear (first part)
    and set for one class of an object (second part). *)
Definition pack_ok (f : nat) : Prop :=
  (forall t vs, arr_ok E t vs -> fits f t vs ->
     emits (with_ E m f t vs) false vs false
       (framed E t (length vs) (concat (map (encb E t) vs)))) /\
  (forall d ls c fs, In c (chain E d) -> is_virtual E (TClass c) = true ->
     Forall2 (lvl_ok E) (chain E d) ls ->
     Forall (shallow (pred f)) ls -> (1 < f)%nat -> nth_error ls (level E c) = Some fs ->
     emits (ser (with_ E m f) (TClass c) (VObj d ls)) true (VObj d ls) false
       (framed E (TClass c) 1 (wmembers E (c, zipenc E (wfields E c) fs)))).

Lemma levelenc_nth : forall cs ls c i fs,
  length cs = length ls -> nth_error cs i = Some c -> nth_error ls i = Some fs ->
  nth_error (levelenc E cs ls) i = Some (c, zipenc E (wfields E c) fs).
Proof.
  induction cs; intros [|l ls] c [|i] fs Hl Hc Hf; cbn in *; try discriminate.
  - inversion Hc; inversion Hf; subst. reflexivity.
  - eauto.
Qed.

Lemma levelenc_map : forall cs ls (G : nat * list bytes -> bytes),
  length cs = length ls ->
  map G (levelenc E cs ls) =
  map (fun p => G (fst p, zipenc E (wfields E (fst p)) (snd p))) (combine cs ls).
Proof.
  induction cs; intros [|l ls] G Hl; cbn in *; try discriminate; auto.
  f_equal. auto.
Qed.

(** The frames of an object in terms of the classes of its chain. *)
Lemma levels_by_chain : forall d ls, length (chain E d) = length ls ->
  (forall i c, nth_error (chain E d) i = Some c -> level E c = i) ->
  concat (map (fun p => framed E (TClass (fst p)) 1 (wmembers E p)) (levelenc E (chain E d) ls)) =
  concat (map (fun c => framed E (TClass c) 1
    (wmembers E (c, zipenc E (wfields E c) (nth (level E c) ls [])))) (chain E d)).
Proof.
  intros d ls Hll Hnth. rewrite levelenc_map by auto. f_equal. cbn [fst].
  assert (G : forall cs l0 pre, length cs = length l0 ->
     (forall i c, nth_error cs i = Some c -> level E c = (length pre + i)%nat) ->
     map (fun c => framed E (TClass c) 1
           (wmembers E (c, zipenc E (wfields E c) (nth (level E c) (pre ++ l0) [])))) cs
     = map (fun p => framed E (TClass (fst p)) 1
           (wmembers E (fst p, zipenc E (wfields E (fst p)) (snd p)))) (combine cs l0)).
  { induction cs; intros [|x l0] pre Hl Hp; cbn [length] in Hl; try discriminate; auto.
    cbn [map combine fst snd]. f_equal.
    - rewrite (Hp O a eq_refl), Nat.add_0_r, nth_middle. reflexivity.
    - replace (pre ++ x :: l0) with ((pre ++ [x]) ++ l0) by now rewrite <- app_assoc.
      apply IHcs; [lia|]. intros i c Hi. rewrite app_length. cbn [length].
      rewrite (Hp (S i) c Hi). lia. }
  symmetry. apply (G (chain E d) ls []); auto.
Qed.

(** An object through its dynamic class. *)
Lemma p_dyn : forall f t d ls,
  (forall d ls c fs, In c (chain E d) -> is_virtual E (TClass c) = true ->
     Forall2 (lvl_ok E) (chain E d) ls ->
     Forall (shallow (pred f)) ls -> (1 < f)%nat -> nth_error ls (level E c) = Some fs ->
     emits (ser (with_ E m f) (TClass c) (VObj d ls)) true (VObj d ls) false
       (framed E (TClass c) 1 (wmembers E (c, zipenc E (wfields E c) fs)))) ->
  is_virtual E t = true -> is_virtual E (TClass d) = true -> has_ty E (TClass d) (VObj d ls) ->
  (depth (VObj d ls) < S f)%nat ->
  emits (dyn_serialize E (with_ E m f) (VObj d ls)) false (VObj d ls) false (encb E t (VObj d ls)).
Proof.
  intros f t d ls IH2 Hv Hvd Hty Hd.
  destruct (has_obj _ _ _ _ Hty) as (_ & Hcn & HF).
  cbn [depth] in Hd. destruct (fold_depth2 ls (pred f)) as (Hsl & H1n); [lia|].
  eapply emits_eq.
  - unfold dyn_serialize. rewrite Hvd.
    apply emits_foldP_id with (h := fun c =>
      framed E (TClass c) 1 (wmembers E (c, zipenc E (wfields E c) (nth (level E c) ls [])))).
    intros c Hc. apply emits_note, emits_setv.
    destruct (obj_level _ _ _ Hc HF) as (k & fs & Hk & Hkb & Hn & Hft).
    rewrite (nth_error_nth _ _ _ Hn). apply IH2; auto.
    + rewrite (chain_virtual _ _ wf d c); auto.
    + lia.
  - rewrite encb_obj, Hv. symmetry. apply levels_by_chain.
    + eapply Forall2_length; eauto.
    + intros; eapply chain_nth_level; eauto.
Qed.

Lemma pack_all : forall f, pack_ok f.
Proof.
  induction f as [|f IH].
  { split.
    - intros t vs (_ & Hne & _) [Hs|(_ & Hs)]; exfalso; [|lia].
      destruct vs; [congruence|]. inversion Hs; subst. lia.
    - intros. lia. }
  destruct IH as (IH1 & IH2). split.
  - intros t vs (Ht & Hne & Hv1) Hs. cbn [with_]. unfold traverse.
    apply emits_framed. unfold ap.
    destruct (bytecopy E t) eqn:Hb.
    { assert (Hvb : forall v, In v vs -> v = VB (vb v) /\ encb E t v = vb v).
      { intros v Hv. rewrite Forall_forall in Ht.
        destruct (bytecopy_vb _ _ _ _ wf (Ht _ Hv) Hb) as (? & ? & ?). auto. }
      assert (Hob : opt_all (map (obj_bytes E t) vs) = Some (map vb vs)).
      { apply opt_all_map_some. intros v Hv. destruct (Hvb _ Hv) as (-> & _).
        destruct t; reflexivity. }
      rewrite Hob.
      eapply emits_eq.
      - apply emits_contig. rewrite unflatten_same; auto.
        + apply emits_ret.
        + intros v Hv. now apply Hvb.
      - rewrite app_nil_r. f_equal. apply map_ext_in. intros v Hv. symmetry. now apply Hvb. }
    destruct Hs as [Hs|(Hs & _)]; [|destruct t; discriminate].
    destruct (is_virtual E t) eqn:Hv.
    + specialize (Hv1 eq_refl).
      destruct vs as [|v [|v' r]]; try discriminate. clear Hv1 Hne.
      inversion Ht as [|? ? Hh _]; subst. inversion Hs as [|? ? Hd _]; subst.
      assert (Hobj : exists d ls, v = VObj d ls /\ has_ty E (TClass d) (VObj d ls) /\
                       is_virtual E (TClass d) = true).
      { inversion Hh; subst.
        - inversion H; subst; cbn in Hv; try discriminate.
          + rewrite H0 in Hv. congruence.
          + exists c, ls. auto.
        - exists d, ls. split; auto. split; auto. rewrite <- (chain_virtual _ _ wf d c); auto. }
      destruct Hobj as (d & ls & -> & Hty & Hvd).
      apply emits_getv. cbn beta iota.
      eapply emits_eq.
      * eapply emits_bind with (a := VObj d ls) (vf1 := false); [|apply emits_ret].
        apply (p_dyn f t d ls); auto.
      * cbn [map concat length]. reflexivity.
    + assert (Hty : Forall (has_ty E t) vs).
      { eapply Forall_impl; [|exact Ht]. intros v Hh. inversion Hh; subst; auto. congruence. }
      apply emits_mapP_id. intros v Hin.
      rewrite Forall_forall in Hty.
      apply (p_elem (with_ E m f) f IH1); auto.
      eapply shallow_in; eauto.
  - intros d ls c fs Hin Hv HF Hs Hf Hfs.
    destruct (obj_level _ _ _ Hin HF) as (k & fs' & Hk & Hkb & Hn & Hft).
    assert (fs' = fs) by congruence. subst fs'.
    unfold ser. cbn [with_]. unfold traverse. eapply emits_eq.
    { eapply emits_bind with (a := [VObj d ls]) (vf1 := false); [|apply emits_ret].
      apply emits_framed. unfold ap. cbn [bytecopy]. rewrite Hk, Hkb, Hv.
      apply emits_getv. cbn beta iota. apply emits_setv.
      cbn [mapP apply_elem]. eapply emits_bind.
      - apply (p_static (with_ E m f) f IH1 _ _ _ Hin HF Hs _ Hfs).
      - cbn [bind]. apply emits_ret. }
    rewrite !app_nil_r. reflexivity.
Qed.

(** The root call. *)
Lemma pack_root : forall f t v, has_ty E t v -> (depth v < f)%nat ->
  emits (with_root E m f t v) false v false (enc_root E t v).
Proof.
  intros f t v Ht Hd. unfold with_root, enc_root.
  assert (Hs : emits (ser (with_ E m f) t v) false v false (enc E t v)).
  { eapply p_ser; [apply (pack_all f)|now constructor|auto]. }
  destruct (chk E) eqn:Ec; auto.
  eapply emits_eq.
  - eapply emits_bind.
    { unfold with_type_idx. destruct Hm as [-> | ->]; (apply emits_contig; apply emits_ret). }
    eapply emits_bind; [exact Hs|].
    eapply emits_bind with (a := tt) (vf1 := false); [|apply emits_ret].
    unfold with_mem_used. destruct Hm as [-> | ->]; (apply emits_contig; apply emits_ret).
  - rewrite !app_nil_r. unfold enc, framed. rewrite Ec. rewrite N.mul_1_r. reflexivity.
Qed.
End Pack.
