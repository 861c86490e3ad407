(** Serializers with a dispatcher of their own are handed exactly the cells of the specification. *)
From Coq Require Import List NArith Arith Bool Lia.
From Verif Require Import Base Syntax Prog Serializers Traverse Streams Dispatchers Spec Cells ProgFacts EnvFacts Pack.
Import ListNotations.
Local Open Scope N_scope.

(** Collects the bytes and the objects handed over. *)
Definition recorder : serializer := {|
  state := list cell;
  contig b s := Ok (b, s ++ raw b);
  count _ s := s;
  note e s := match e with EvHand t v => s ++ [Handed t v] | _ => s end
|}.

Definition demits {A} (p : prog A) (vf : bool) (a : A) (vf' : bool) (out : list cell) : Prop :=
  forall s, interp recorder p vf s = Ok (a, vf', s ++ out).
Definition silent (e : event) : Prop := forall t v, e <> EvHand t v.

Lemma demits_ret : forall A (a : A) vf, demits (Ret a) vf a vf [].
Proof. intros A a vf s. cbn. now rewrite app_nil_r. Qed.
Lemma demits_bind : forall A B (p : prog A) (f : A -> prog B) vf a vf1 o1 b vf2 o2,
  demits p vf a vf1 o1 -> demits (f a) vf1 b vf2 o2 ->
  demits (bind p f) vf b vf2 (o1 ++ o2).
Proof. intros * H1 H2 s. rewrite interp_bind, H1, H2. now rewrite app_assoc. Qed.
Lemma demits_contig : forall A b (k : bytes -> prog A) vf a vf' out,
  demits (k b) vf a vf' out -> demits (Contig b k) vf a vf' (raw b ++ out).
Proof. intros * H s. cbn. rewrite H. now rewrite app_assoc. Qed.
Lemma demits_count : forall A n (k : prog A) vf a vf' out,
  demits k vf a vf' out -> demits (Count n k) vf a vf' out.
Proof. intros * H s. cbn. apply H. Qed.
Lemma demits_hand : forall A t v (k : prog A) vf a vf' out,
  demits k vf a vf' out -> demits (Note (EvHand t v) k) vf a vf' (Handed t v :: out).
Proof. intros * H s. cbn. rewrite H. now rewrite <- app_assoc. Qed.
Lemma demits_note : forall A n (k : prog A) vf a vf' out, silent n ->
  demits k vf a vf' out -> demits (Note n k) vf a vf' out.
Proof. intros * Hn H s. destruct n; cbn; try apply H. exfalso. eapply Hn. reflexivity. Qed.
Lemma demits_getv : forall A (k : bool -> prog A) vf a vf' out,
  demits (k vf) vf a vf' out -> demits (GetV k) vf a vf' out.
Proof. intros * H s. cbn. apply H. Qed.
Lemma demits_setv : forall A f (k : prog A) vf a vf' out,
  demits k f a vf' out -> demits (SetV f k) vf a vf' out.
Proof. intros * H s. cbn. apply H. Qed.
Lemma demits_catch : forall A t (p : prog A) vf a vf' out,
  demits p vf a vf' out -> demits (catch t p) vf a vf' out.
Proof. intros * H s. apply interp_catch_ok, H. Qed.
Lemma demits_eq : forall A (p : prog A) vf a vf' out out',
  demits p vf a vf' out -> out = out' -> demits p vf a vf' out'.
Proof. intros; subst; auto. Qed.
Lemma demits_mapP_id : forall A (f : A -> prog A) (h : A -> list cell) vf l,
  (forall x, In x l -> demits (f x) vf x vf (h x)) ->
  demits (mapP f l) vf l vf (concat (map h l)).
Proof.
  induction l; intros H; cbn [mapP map concat].
  - apply demits_ret.
  - eapply demits_eq.
    + eapply demits_bind; [apply H; now left|].
      eapply demits_bind; [apply IHl; intros; apply H; now right|]. apply demits_ret.
    + now rewrite app_nil_r.
Qed.
Lemma demits_foldP_id : forall A B (f : B -> A -> prog B) (h : A -> list cell) vf l acc,
  (forall x, In x l -> demits (f acc x) vf acc vf (h x)) ->
  demits (foldP f l acc) vf acc vf (concat (map h l)).
Proof.
  induction l; intros acc H; cbn [foldP map concat].
  - apply demits_ret.
  - eapply demits_bind; [apply H; now left|]. apply IHl. intros; apply H; now right.
Qed.
Lemma raw_app : forall a b, raw (a ++ b) = raw a ++ raw b.
Proof. intros. apply map_app. Qed.
Lemma raw_concat : forall l, raw (concat l) = concat (map raw l).
Proof. intros. unfold raw. apply concat_map. Qed.

Section Zips.
Variable E : env.
Variable m : mode.
Variable special : ty -> bool.
Fixpoint zipcell (ts : list ty) (l : list val) {struct l} : list (list cell) :=
  match l, ts with
  | x :: l', t :: ts' => cells E m special t x :: zipcell ts' l'
  | _, _ => []
  end.
Fixpoint levelcell (cs : list nat) (ls : list (list val)) {struct ls}
  : list (nat * list (list cell)) :=
  match ls, cs with
  | fs :: ls', c :: cs' => (c, zipcell (wfields E c) fs) :: levelcell cs' ls'
  | _, _ => []
  end.
(** The part of class [c] of the object [v]. *)
Definition part (v : val) (p : nat * list (list cell)) : list cell :=
  cframed E m (TClass (fst p)) 1
    (if is_virtual E (TClass (fst p)) && special (TClass (fst p))
     then [Handed (TClass (fst p)) v] else cmembers E p).
Lemma cellb_tuple : forall ts l, cellb E m special (TTuple ts) (VSeq l) = concat (zipcell ts l).
Proof. reflexivity. Qed.
Lemma cellb_obj : forall t d ls,
  cellb E m special t (VObj d ls) =
  if is_virtual E t
  then concat (map (part (VObj d ls)) (levelcell (chain E d) ls))
  else concat (map (cmembers E) (levelcell (chain E d) ls)).
Proof. reflexivity. Qed.
Lemma cellb_unique_dyn : forall c d ls i, is_virtual E (TClass c) = true ->
  obj_idx E d = Some i ->
  cellb E m special (TUnique (TClass c)) (VOpt (Some (VObj d ls))) =
  cbool E m false ++ cint E m (N.of_nat i) ++ cells E m special (TClass c) (VObj d ls).
Proof.
  intros c d ls i H H1.
  change (cellb E m special (TUnique (TClass c)) (VOpt (Some (VObj d ls)))) with
    (cbool E m false ++
     (if is_virtual E (TClass c)
      then match obj_idx E d with Some i => cint E m (N.of_nat i) | None => [] end
      else []) ++ cells E m special (TClass c) (VObj d ls)).
  now rewrite H, H1.
Qed.
End Zips.

Section Pack.
Variable F : N -> Prop.
Variable E : env.
Hypothesis wf : wf_env F E.
Variable m : mode.
Variable special : ty -> bool.
Hypothesis Hm : m = MPacking \/ m = MSizing \/ m = MNone.
Hypothesis Hser : forall c k, cls E c = Some k -> cser k m = cser k MPacking.
Local Notation zipcell := (zipcell E m special).
Local Notation levelcell := (levelcell E m special).

Lemma m_unp : is_unpacking m = false.
Proof. destruct Hm as [-> | [-> | ->]]; reflexivity. Qed.
Lemma m_fp : is_footprinting m = false.
Proof. destruct Hm as [-> | [-> | ->]]; reflexivity. Qed.

Lemma demits_noted : forall A (p : prog A) t n vf a vf' body,
  demits p vf a vf' body ->
  demits (bind (with_type_idx E m t) (fun _ => bind p (fun a =>
          bind (with_mem_used E m t n) (fun _ => Ret a)))) vf a vf' (noted E m t n body).
Proof.
  intros A p t n vf a vf' body Hp. unfold noted, with_type_idx, with_mem_used, records.
  destruct Hm as [-> | [-> | ->]]; cbn [bind].
  1,2: eapply demits_eq;
    [eapply demits_contig; eapply demits_bind; [exact Hp|]; apply demits_contig; apply demits_ret
    |now rewrite app_nil_r].
  eapply demits_eq; [eapply demits_bind; [exact Hp|]; apply demits_ret|apply app_nil_r].
Qed.
Lemma demits_cframed : forall A (p : prog A) t n vf a vf' body,
  demits p vf a vf' body ->
  demits (if chk E
         then bind (with_type_idx E m t) (fun _ => bind (catch (tix E t) p) (fun a =>
              bind (with_mem_used E m t n) (fun _ => Ret a)))
         else p) vf a vf' (cframed E m t n body).
Proof.
  intros A p t n vf a vf' body Hp. unfold cframed. destruct (chk E); auto.
  apply demits_noted, demits_catch, Hp.
Qed.
Lemma whole_prim : forall id sz b, whole E m special (TPrim id sz) (VB b) = raw b.
Proof. intros. unfold whole, pick, taken. cbn [bytecopy]. now rewrite andb_false_r. Qed.

Section Level.
Variable rec : ty -> list val -> prog (list val).
Variable n : nat.
Hypothesis Hrec : forall t vs, arr_ok E t vs -> fits n t vs ->
  demits (rec t vs) false vs false (cframed E m t (length vs) (concat (map (whole E m special t) vs))).

Lemma p_ser : forall t v, holds E t v -> (depth v < n)%nat ->
  demits (ser rec t v) false v false (cells E m special t v).
Proof.
  intros t v Hv Hd. unfold ser. eapply demits_eq.
  - eapply demits_bind.
    + apply Hrec; [|left; constructor; auto].
      repeat split; auto. discriminate.
    + apply demits_ret.
  - cbn [map concat length]. now rewrite !app_nil_r.
Qed.

Lemma p_prim : forall id sz b, length b = sz -> (1 <= n)%nat ->
  demits (ser rec (TPrim id sz) (VB b)) false (VB b) false (cframed E m (TPrim id sz) 1 (raw b)).
Proof.
  intros id sz b Hb Hn. unfold ser. eapply demits_eq.
  - eapply demits_bind.
    + apply Hrec; [|right; auto].
      repeat split.
      * constructor; [|constructor]. apply HoldsTy. now constructor.
      * discriminate.
    + apply demits_ret.
  - cbn [map concat length]. now rewrite whole_prim, !app_nil_r.
Qed.

Lemma p_ser_word : forall id sz x, x < 256 ^ N.of_nat sz -> (1 < n)%nat ->
  demits (ser_word rec id sz x) false x false (cframed E m (TPrim id sz) 1 (raw (le sz x))).
Proof.
  intros id sz x Hx Hn. unfold ser_word. eapply demits_eq.
  - eapply demits_bind.
    + apply p_prim; [apply le_length|lia].
    + cbn beta iota. rewrite unle_le by auto. apply demits_ret.
  - rewrite app_nil_r. reflexivity.
Qed.

Lemma p_ser_size : forall x, x < two64 -> (1 < n)%nat ->
  demits (ser_size rec x) false x false (csize_ E m x).
Proof. intros. apply p_ser_word; auto. Qed.

Lemma p_ser_int : forall x, x < 2 ^ 32 -> (1 < n)%nat ->
  demits (ser_int rec x) false x false (cint E m x).
Proof. intros. apply p_ser_word; auto. Qed.

Lemma p_ser_bool : forall b, (1 < n)%nat ->
  demits (ser_bool rec b) false b false (cbool E m b).
Proof.
  intros b Hn. unfold ser_bool. eapply demits_eq.
  - eapply demits_bind; [apply p_ser_word; auto; destruct b; reflexivity|].
    destruct b; cbn; apply demits_ret.
  - rewrite app_nil_r. reflexivity.
Qed.

Lemma p_ser_array : forall t l, Forall (has_ty E t) l ->
  (is_virtual E t = true -> (length l <= 1)%nat) -> shallow n l ->
  demits (ser_array rec t l) false l false (carray E m t (map (whole E m special t) l)).
Proof.
  intros t l Hl Hv Hs. unfold ser_array, carray. destruct l as [|x r].
  - apply demits_ret.
  - cbn [map]. eapply demits_eq.
    + apply Hrec; [|left; auto]. repeat split.
      * eapply Forall_impl; [|exact Hl]. intros; now constructor.
      * discriminate.
      * intros H. apply Hv in H. cbn in *. lia.
    + cbn [length map]. now rewrite map_length.
Qed.

Lemma shallow_in : forall k l x, shallow k l -> In x l -> (depth x < k)%nat.
Proof. intros k l x H Hin. unfold shallow in H. rewrite Forall_forall in H. auto. Qed.

Lemma p_elems : forall t l, Forall (has_ty E t) l -> shallow n l ->
  demits (mapP (ser rec t) l) false l false (concat (map (cells E m special t) l)).
Proof.
  intros t l Hl Hs. apply demits_mapP_id. intros x Hx. apply p_ser.
  - constructor. rewrite Forall_forall in Hl. auto.
  - eapply shallow_in; eauto.
Qed.

Lemma p_tuple : forall ts l, Forall2 (has_ty E) ts l -> shallow n l ->
  demits (ser_tuple rec ts l) false l false (concat (zipcell ts l)).
Proof.
  intros ts l H. induction H; intros Hs; cbn [ser_tuple zipcell concat].
  - apply demits_ret.
  - inversion Hs; subst. eapply demits_eq.
    + eapply demits_bind; [apply p_ser; [now constructor|auto]|].
      eapply demits_bind; [apply IHForall2; auto|]. apply demits_ret.
    + now rewrite app_nil_r.
Qed.

Lemma zipcell_nth : forall ts fs i t x,
  nth_error ts i = Some t -> nth_error fs i = Some x ->
  nth i (zipcell ts fs) [] = cells E m special t x.
Proof.
  induction ts; intros fs [|i] t x Ht Hx; cbn in *; try discriminate;
    destruct fs; cbn in *; try discriminate.
  - congruence.
  - eauto.
Qed.

Lemma p_members : forall ts fs is_,
  Forall2 (has_ty E) ts fs -> shallow n fs ->
  (forall i, In i is_ -> (i < length ts)%nat) ->
  demits (ser_members rec ts is_ fs) false fs false
    (concat (map (fun i => nth i (zipcell ts fs) []) is_)).
Proof.
  intros ts fs is_ Ht Hs Hi. unfold ser_members. apply demits_foldP_id.
  intros i Hin. apply Hi in Hin.
  destruct (nth_error ts i) as [t|] eqn:Et.
  2: { apply nth_error_None in Et. lia. }
  destruct (nth_error fs i) as [x|] eqn:Ex.
  2: { apply nth_error_None in Ex. apply Forall2_length in Ht. lia. }
  assert (Hx : has_ty E t x).
  { clear - Ht Et Ex. revert i Et Ex.
    induction Ht; intros [|i]; cbn; intros Et Ex; inversion Et; inversion Ex; subst; eauto. }
  rewrite (zipcell_nth _ _ _ _ _ Et Ex). eapply demits_eq.
  - eapply demits_bind; [apply p_ser; [now constructor|]|].
    + eapply shallow_in; eauto. eapply nth_error_In; eauto.
    + rewrite upd_same by auto. apply demits_ret.
  - apply app_nil_r.
Qed.

(** Lookup of the members of one class of an object. *)
Lemma obj_level : forall d ls c, In c (chain E d) ->
  Forall2 (lvl_ok E) (chain E d) ls ->
  exists k fs, cls E c = Some k /\ cbyte k = false /\ nth_error ls (level E c) = Some fs /\
    Forall2 (has_ty E) (cfields k) fs.
Proof.
  intros d ls c Hin HF. eapply lvl_nth; eauto. eapply chain_level; eauto.
Qed.

Lemma p_static : forall d ls c, In c (chain E d) ->
  Forall2 (lvl_ok E) (chain E d) ls ->
  Forall (shallow n) ls ->
  forall fs, nth_error ls (level E c) = Some fs ->
  demits (apply_static E m rec c (VObj d ls)) false (VObj d ls) false
    (cmembers E (c, zipcell (wfields E c) fs)).
Proof.
  intros d ls c Hin HF Hs fs Hfs.
  destruct (obj_level _ _ _ Hin HF) as (k & fs' & Hk & _ & Hn & Hft).
  assert (fs' = fs) by congruence. subst fs'.
  unfold apply_static, cmembers, wfields. cbn [fst snd]. rewrite Hk, Hn.
  apply demits_note; [discriminate|]. pose proof (lvl_wf _ _ _ _ _ HF Hin Hk) as Hwk. rewrite (Hser _ _ Hk). eapply demits_eq.
  - eapply demits_bind.
    + apply p_members; eauto.
      * rewrite Forall_forall in Hs. apply Hs. eapply nth_error_In; eauto.
      * intros i. apply Hwk.
    + rewrite upd_same by auto. apply demits_note; [discriminate|]. apply demits_ret.
  - apply app_nil_r.
Qed.

(** The overloads of serialize(s, x). *)
Lemma p_elem : forall t v, has_ty E t v -> bytecopy E t = false -> is_virtual E t = false ->
  (depth v < S n)%nat ->
  demits (apply_elem E m rec t v) false v false (cellb E m special t v).
Proof.
  intros t v Ht Hb Hv Hd.
  inversion Ht; subst; cbn [bytecopy] in Hb; try discriminate; cbn [apply_elem].
  - (* enum *)
    unfold ser_underlying. apply p_prim; [reflexivity|cbn in *; lia].
  - (* duration *)
    unfold ser_underlying. apply p_prim; [reflexivity|cbn in *; lia].
  - (* string *)
    cbn [depth] in Hd. unfold ser_string. rewrite m_fp. eapply demits_eq.
    + eapply demits_bind; [apply p_ser_size; lia|].
      cbn zeta. unfold len. rewrite Nat2N.id, resize_id.
      eapply demits_bind.
      { apply p_ser_array.
        - unfold chars. apply Forall_forall. intros x Hx. apply in_map_iff in Hx.
          destruct Hx as (y & <- & _). now constructor.
        - cbn. discriminate.
        - unfold chars, shallow. apply Forall_forall. intros x Hx. apply in_map_iff in Hx.
          destruct Hx as (y & <- & _). cbn. lia. }
      rewrite unchars_chars. cbn [of_opt bind].
      replace (N.max cap (N.of_nat (length b))) with cap by (unfold len in *; lia).
      apply demits_ret.
    + cbn [cellb]. rewrite app_nil_r. do 2 f_equal. unfold chars. rewrite map_map. apply map_ext.
      intros x. apply whole_prim.
  - (* vector *)
    cbn [depth] in Hd. destruct (fold_depth l n) as (Hs & H1n); [lia|].
    unfold ser_vector. rewrite m_fp, m_unp. unfold ser_vector_meta. eapply demits_eq.
    + eapply demits_bind.
      { eapply demits_bind; [apply p_ser_size; auto|].
        eapply demits_bind; [apply p_ser_size; auto; lia|]. apply demits_ret. }
      cbn beta iota. eapply demits_bind; [apply demits_ret|].
      eapply demits_bind; [apply p_ser_array; auto|].
      replace (N.max (N.max cap cap) (len l)) with cap by lia.
      apply demits_ret.
    + cbn [cellb]. rewrite !app_nil_r, <- !app_assoc. reflexivity.
  - (* vector<bool> *)
    cbn [depth] in Hd. destruct (fold_depth l n) as (Hs & H1n); [lia|].
    unfold ser_vecbool. rewrite m_fp, m_unp. unfold ser_vector_meta. eapply demits_eq.
    + eapply demits_bind.
      { eapply demits_bind; [apply p_ser_size; auto|].
        eapply demits_bind; [apply p_ser_size; auto; lia|]. apply demits_ret. }
      cbn beta iota. eapply demits_bind.
      { apply (p_elems BOOL); auto. eapply Forall_impl; [|exact H1].
        intros x [-> | ->]; now constructor. }
      replace (N.max cap cap) with cap by lia.
      apply demits_ret.
    + cbn [cellb]. rewrite !app_nil_r, <- !app_assoc. reflexivity.
  - (* array *)
    cbn [depth] in Hd. destruct (fold_depth l n) as (Hs & H1n); [lia|].
    unfold ser_stdarray. eapply demits_eq.
    + eapply demits_bind; [apply p_ser_array; auto|]. apply demits_ret.
    + cbn [cellb]. now rewrite app_nil_r.
  - (* list, deque *)
    cbn [depth] in Hd. destruct (fold_depth l n) as (Hs & H1n); [lia|].
    unfold ser_list, ser_container_size. rewrite m_fp, m_unp. eapply demits_eq.
    + eapply demits_bind; [apply p_ser_size; auto|]. cbn beta.
      eapply demits_bind; [apply p_elems; auto|]. apply demits_ret.
    + cbn [cellb]. rewrite app_nil_r. reflexivity.
  - (* queue *)
    cbn [depth] in Hd. destruct (fold_depth l n) as (Hs & H1n); [lia|].
    unfold ser_queue, ser_container_size. rewrite m_fp, m_unp. eapply demits_eq.
    + eapply demits_bind; [apply p_ser_size; auto|]. cbn beta.
      eapply demits_bind; [apply p_elems; auto|]. apply demits_ret.
    + cbn [cellb]. rewrite app_nil_r. reflexivity.
  - (* ordered associative *)
    cbn [depth] in Hd. destruct (fold_depth l n) as (Hs & H1n); [lia|].
    unfold ser_assoc, ser_container_size. rewrite m_fp, m_unp. cbn [elements of_opt bind].
    eapply demits_eq.
    + eapply demits_bind; [apply p_ser_size; auto|]. cbn beta.
      eapply demits_bind; [apply p_elems; auto|]. apply demits_ret.
    + cbn [cellb]. rewrite app_nil_r. reflexivity.
  - (* unordered associative *)
    cbn [depth] in Hd. destruct (fold_depth l n) as (Hs & H1n); [lia|].
    unfold ser_assoc, ser_container_size. rewrite m_fp, m_unp. cbn [elements of_opt bind].
    eapply demits_eq.
    + eapply demits_bind; [apply p_ser_size; auto|]. cbn beta.
      eapply demits_bind; [apply p_elems; auto|]. apply demits_ret.
    + cbn [cellb]. rewrite app_nil_r. reflexivity.
  - (* pair *)
    cbn [depth fold_right] in Hd. unfold ser_pair. apply demits_count. eapply demits_eq.
    + eapply demits_bind; [apply p_ser; [now constructor|lia]|].
      eapply demits_bind; [apply p_ser; [now constructor|lia]|]. apply demits_ret.
    + cbn [cellb]. rewrite app_nil_r. reflexivity.
  - (* tuple *)
    cbn [depth] in Hd. destruct (fold_depth l n) as (Hs & H1n); [lia|].
    eapply demits_eq.
    + eapply demits_bind; [apply p_tuple; auto|]. apply demits_ret.
    + rewrite cellb_tuple, app_nil_r. reflexivity.
  - (* optional, empty *)
    cbn [depth] in Hd. unfold ser_optional. rewrite m_fp, m_unp. eapply demits_eq.
    + eapply demits_bind; [apply p_ser_bool; lia|]. apply demits_ret.
    + cbn [cellb]. now rewrite app_nil_r.
  - (* optional, engaged *)
    cbn [depth] in Hd. unfold ser_optional. rewrite m_fp, m_unp. eapply demits_eq.
    + eapply demits_bind; [apply p_ser_bool; lia|]. cbn beta.
      eapply demits_bind; [apply p_ser; [now constructor|lia]|]. apply demits_ret.
    + cbn [cellb]. now rewrite app_nil_r.
  - (* variant *)
    cbn [depth] in Hd. unfold ser_variant. cbn [variant_index of_opt bind].
    eapply demits_eq.
    + eapply demits_bind; [apply p_ser_size; lia|].
      assert (G : forall ts0 cur, nth_error ts0 (i - cur) = Some t0 -> (cur <= i)%nat ->
        demits (ser_entry E m rec ts0 (VVar i v0) (N.of_nat i) cur) false (VVar i v0) false
          (cells E m special t0 v0)).
      { induction ts0; intros cur Hn Hc; cbn [ser_entry].
        - destruct (i - cur)%nat; discriminate.
        - destruct (N.of_nat i =? N.of_nat cur) eqn:Ec.
          + apply N.eqb_eq in Ec. assert (i = cur) by lia. subst cur.
            rewrite Nat.sub_diag in Hn. inversion Hn; subst.
            rewrite m_unp, Nat.eqb_refl. eapply demits_eq.
            * eapply demits_bind; [apply p_ser; [now constructor|lia]|]. apply demits_ret.
            * apply app_nil_r.
          + apply N.eqb_neq in Ec. apply IHts0; [|lia].
            replace (i - cur)%nat with (S (i - S cur)) in Hn by lia. exact Hn. }
      apply G; [now rewrite Nat.sub_0_r|lia].
    + cbn [cellb]. rewrite H0. reflexivity.
  - (* byte-copyable variant *)
    change (bytecopy E (TVariant ts) = false) in Hb. congruence.
  - (* null pointer *)
    cbn [depth] in Hd. unfold ser_unique. rewrite m_fp, m_unp. eapply demits_eq.
    + eapply demits_bind; [apply p_ser_bool; lia|]. apply demits_ret.
    + cbn [cellb]. now rewrite app_nil_r.
  - (* pointer to a non-polymorphic object *)
    cbn [depth] in Hd. unfold ser_unique. rewrite m_fp. eapply demits_eq.
    + eapply demits_bind; [apply p_ser_bool; lia|]. cbn beta iota.
      eapply demits_bind.
      { assert (Hr : reconstruct_pointed E m rec t0 (Some v0) = Ret (Some v0)).
        { unfold reconstruct_pointed. destruct t0; auto. now rewrite H. }
        rewrite Hr. apply demits_ret. }
      cbn beta iota. eapply demits_bind; [apply p_ser; [now constructor|lia]|]. apply demits_ret.
    + cbn [cellb]. rewrite H, app_nil_r. reflexivity.
  - (* pointer to a polymorphic object *)
    assert (Hdd : (depth (VObj d ls) < n)%nat) by (change (depth (VOpt (Some (VObj d ls))))
      with (S (Nat.max 1 (depth (VObj d ls)))) in Hd; lia).
    assert (H1n : (1 < n)%nat) by (cbn [depth] in Hdd; lia).
    unfold ser_unique. rewrite m_fp. eapply demits_eq.
    + eapply demits_bind; [apply p_ser_bool; lia|]. cbn beta iota.
      eapply demits_bind.
      { unfold reconstruct_pointed. rewrite H. unfold ser_virtual_type.
        rewrite m_fp, m_unp. unfold dyn_type_idx. rewrite H1. cbn [option_map of_opt bind].
        eapply demits_bind.
        - eapply demits_bind; [apply p_ser_int; lia|].
          cbn beta. rewrite N.eqb_refl. apply demits_ret.
        - apply demits_ret. }
      cbn beta iota. eapply demits_bind; [apply p_ser; [apply HoldsDyn; auto|auto]|].
      apply demits_ret.
    + rewrite (cellb_unique_dyn _ _ _ _ _ _ _ H H1). now rewrite !app_nil_r.
  - (* byte-copyable class *)
    cbn [bytecopy] in Hb. rewrite H in Hb. congruence.
  - (* class *)
    assert (Hin : In c (chain E c)) by (eapply chain_self; eauto).
    destruct (chain_in_cls _ _ wf _ _ Hin) as (k & Hk).
    assert (Hst : chain E c = [c]).
    { eapply chain_static; eauto. cbn [is_virtual] in Hv. now rewrite Hk in Hv. }
    cbn [depth] in Hd. destruct (fold_depth2 ls n) as (Hs & H1n); [lia|].
    rewrite cellb_obj, Hv, Hst.
    destruct (obj_level _ _ _ Hin H0) as (k' & fs & Hk' & _ & Hn & Hft).
    assert (Hls : ls = [fs]).
    { rewrite Hst in H0. inversion H0; subst. inversion H5; subst.
      unfold level in Hn. rewrite Hst in Hn. cbn in Hn. congruence. }
    subst ls. cbn [levelcell map concat]. rewrite app_nil_r.
    apply p_static; auto.
Qed.
End Level.

(** The recursive traversal, with the virtual-dispatch flag clear (first part)
    and set for one class of an object (second part). *)
Definition pack_ok (f : nat) : Prop :=
  (forall t vs, arr_ok E t vs -> fits f t vs ->
     demits (dispatch_with E m special f t vs) false vs false
       (cframed E m t (length vs) (concat (map (whole E m special t) vs)))) /\
  (forall d ls c fs, In c (chain E d) -> is_virtual E (TClass c) = true ->
     Forall2 (lvl_ok E) (chain E d) ls ->
     Forall (shallow (pred f)) ls -> (1 < f)%nat -> nth_error ls (level E c) = Some fs ->
     demits (ser (dispatch_with E m special f) (TClass c) (VObj d ls)) true (VObj d ls) false
       (part E m special (VObj d ls) (c, zipcell (wfields E c) fs))).

Lemma levelcell_nth : forall cs ls c i fs,
  length cs = length ls -> nth_error cs i = Some c -> nth_error ls i = Some fs ->
  nth_error (levelcell cs ls) i = Some (c, zipcell (wfields E c) fs).
Proof.
  induction cs; intros [|l ls] c [|i] fs Hl Hc Hf; cbn in *; try discriminate.
  - inversion Hc; inversion Hf; subst. reflexivity.
  - eauto.
Qed.

Lemma levelcell_map : forall cs ls (G : nat * list (list cell) -> list cell),
  length cs = length ls ->
  map G (levelcell cs ls) =
  map (fun p => G (fst p, zipcell (wfields E (fst p)) (snd p))) (combine cs ls).
Proof.
  induction cs; intros [|l ls] G Hl; cbn in *; try discriminate; auto.
  f_equal. auto.
Qed.

(** The parts of an object in terms of the classes of its chain. *)
Lemma levels_by_chain : forall v d ls, length (chain E d) = length ls ->
  (forall i c, nth_error (chain E d) i = Some c -> level E c = i) ->
  concat (map (part E m special v) (levelcell (chain E d) ls)) =
  concat (map (fun c => part E m special v (c, zipcell (wfields E c) (nth (level E c) ls []))) (chain E d)).
Proof.
  intros v d ls Hll Hnth. rewrite levelcell_map by auto. f_equal.
  assert (G : forall cs l0 pre, length cs = length l0 ->
     (forall i c, nth_error cs i = Some c -> level E c = (length pre + i)%nat) ->
     map (fun c => part E m special v (c, zipcell (wfields E c) (nth (level E c) (pre ++ l0) []))) cs
     = map (fun p => part E m special v (fst p, zipcell (wfields E (fst p)) (snd p))) (combine cs l0)).
  { induction cs; intros [|x l0] pre Hl Hp; cbn [length] in Hl; try discriminate; auto.
    cbn [map combine fst snd]. f_equal.
    - rewrite (Hp O a eq_refl), Nat.add_0_r, nth_middle. reflexivity.
    - replace (pre ++ x :: l0) with ((pre ++ [x]) ++ l0) by now rewrite <- app_assoc.
      apply IHcs; [lia|]. intros i c Hi. rewrite app_length. cbn [length].
      rewrite (Hp (S i) c Hi). lia. }
  symmetry. apply (G (chain E d) ls []); auto.
Qed.

(** An object through its dynamic class. *)
Lemma p_dyn : forall f t d ls,
  (forall d ls c fs, In c (chain E d) -> is_virtual E (TClass c) = true ->
     Forall2 (lvl_ok E) (chain E d) ls ->
     Forall (shallow (pred f)) ls -> (1 < f)%nat -> nth_error ls (level E c) = Some fs ->
     demits (ser (dispatch_with E m special f) (TClass c) (VObj d ls)) true (VObj d ls) false
       (part E m special (VObj d ls) (c, zipcell (wfields E c) fs))) ->
  is_virtual E t = true -> is_virtual E (TClass d) = true -> has_ty E (TClass d) (VObj d ls) ->
  (depth (VObj d ls) < S f)%nat ->
  demits (dyn_serialize E (dispatch_with E m special f) (VObj d ls)) false (VObj d ls) false (cellb E m special t (VObj d ls)).
Proof.
  intros f t d ls IH2 Hv Hvd Hty Hd.
  destruct (has_obj _ _ _ _ Hty) as (_ & Hcn & HF).
  cbn [depth] in Hd. destruct (fold_depth2 ls (pred f)) as (Hsl & H1n); [lia|].
  eapply demits_eq.
  - unfold dyn_serialize. rewrite Hvd.
    apply demits_foldP_id with (h := fun c =>
      part E m special (VObj d ls) (c, zipcell (wfields E c) (nth (level E c) ls []))).
    intros c Hc. apply demits_note; [discriminate|]. apply demits_setv.
    destruct (obj_level _ _ _ Hc HF) as (k & fs & Hk & Hkb & Hn & Hft).
    rewrite (nth_error_nth _ _ _ Hn). apply IH2; auto.
    + rewrite (chain_virtual _ _ wf d c); auto.
    + lia.
  - rewrite cellb_obj, Hv. symmetry. apply levels_by_chain.
    + eapply Forall2_length; eauto.
    + intros; eapply chain_nth_level; eauto.
Qed.

Lemma pack_all : forall f, pack_ok f.
Proof.
  induction f as [|f IH].
  { split.
    - intros t vs (_ & Hne & _) [Hs|(_ & Hs)]; exfalso; [|lia].
      destruct vs; [congruence|]. inversion Hs; subst. lia.
    - intros. lia. }
  destruct IH as (IH1 & IH2). split.
  - intros t vs (Ht & Hne & Hv1) Hs. cbn [dispatch_with]. unfold dispatch_traverse.
    apply demits_cframed. unfold dispatch_ap.
    destruct (bytecopy E t) eqn:Hb.
    { assert (Hvb : forall v, In v vs -> v = VB (vb v) /\ whole E m special t v = raw (vb v)).
      { intros v Hv. rewrite Forall_forall in Ht.
        destruct (bytecopy_vb _ _ _ _ wf (Ht _ Hv) Hb) as (Hvv & _). split; [exact Hvv|].
        unfold whole, pick, taken. rewrite Hb, andb_false_r. cbn [andb]. rewrite Hvv. cbn [cellb vb].
        destruct t; try discriminate; reflexivity. }
      assert (Hob : opt_all (map (obj_bytes E t) vs) = Some (map vb vs)).
      { apply opt_all_map_some. intros v Hv. destruct (Hvb _ Hv) as (-> & _).
        destruct t; reflexivity. }
      rewrite Hob.
      eapply demits_eq.
      - apply demits_contig. rewrite unflatten_same; auto.
        + apply demits_ret.
        + intros v Hv. now apply Hvb.
      - rewrite app_nil_r, raw_concat, map_map. f_equal. apply map_ext_in. intros v Hv. symmetry. now apply Hvb. }
    destruct Hs as [Hs|(Hs & _)]; [|destruct t; discriminate].
    destruct (is_virtual E t) eqn:Hv.
    + specialize (Hv1 eq_refl).
      destruct vs as [|v [|v' r]]; try discriminate. clear Hv1 Hne.
      inversion Ht as [|? ? Hh _]; subst. inversion Hs as [|? ? Hd _]; subst.
      assert (Hobj : exists d ls, v = VObj d ls /\ has_ty E (TClass d) (VObj d ls) /\
                       is_virtual E (TClass d) = true).
      { inversion Hh; subst.
        - inversion H; subst; cbn in Hv; try discriminate.
          + rewrite H0 in Hv. congruence.
          + exists c, ls. auto.
        - exists d, ls. split; auto. split; auto. rewrite <- (chain_virtual _ _ wf d c); auto. }
      destruct Hobj as (d & ls & -> & Hty & Hvd).
      apply demits_getv. cbn beta iota.
      eapply demits_eq.
      * eapply demits_bind with (a := VObj d ls) (vf1 := false); [|apply demits_ret].
        apply (p_dyn f t d ls); auto.
      * cbn [map concat length]. rewrite !app_nil_r. unfold whole, pick, taken. rewrite Hv. cbn [negb].
        now rewrite andb_false_r.
    + assert (Hty : Forall (has_ty E t) vs).
      { eapply Forall_impl; [|exact Ht]. intros v Hh. inversion Hh; subst; auto. congruence. }
      apply demits_mapP_id. intros v Hin.
      rewrite Forall_forall in Hty.
      unfold dispatch_elem. destruct (specialised special t) eqn:Esp.
      { eapply demits_eq; [apply demits_hand, demits_ret|].
        unfold whole, pick, taken. rewrite Hb, Hv. cbn [negb]. rewrite !andb_true_r.
        destruct t; cbn [specialised] in Esp; try discriminate; rewrite Esp; reflexivity. }
      eapply demits_eq.
      * apply (p_elem (dispatch_with E m special f) f IH1); auto. eapply shallow_in; eauto.
      * unfold whole, pick, taken. rewrite Hb, Hv. cbn [negb]. rewrite !andb_true_r.
        destruct t; cbn [specialised] in Esp; rewrite ?Esp, ?andb_false_r; reflexivity.
  - intros d ls c fs Hin Hv HF Hs Hf Hfs.
    destruct (obj_level _ _ _ Hin HF) as (k & fs' & Hk & Hkb & Hn & Hft).
    assert (fs' = fs) by congruence. subst fs'.
    unfold ser. cbn [dispatch_with]. unfold dispatch_traverse. eapply demits_eq.
    { eapply demits_bind with (a := [VObj d ls]) (vf1 := false); [|apply demits_ret].
      apply demits_cframed. unfold dispatch_ap. cbn [bytecopy]. rewrite Hk, Hkb, Hv.
      apply demits_getv. cbn beta iota. apply demits_setv.
      cbn [mapP]. unfold dispatch_elem. cbn [specialised apply_elem].
      eapply demits_eq with (out := if special (TClass c) then [Handed (TClass c) (VObj d ls)]
        else cmembers E (c, zipcell (wfields E c) fs)); [|reflexivity].
      destruct (special (TClass c)).
      - eapply demits_eq.
        + eapply demits_bind; [apply demits_hand, demits_ret|]. cbn [bind]. apply demits_ret.
        + reflexivity.
      - eapply demits_eq.
        + eapply demits_bind.
          * apply (p_static (dispatch_with E m special f) f IH1 _ _ _ Hin HF Hs _ Hfs).
          * cbn [bind]. apply demits_ret.
        + apply app_nil_r. }
    cbn [length]. unfold part. cbn [fst]. now rewrite Hv, !app_nil_r.
Qed.

(** The root call. *)
Lemma dispatch_root_emits : forall f t v, has_ty E t v -> (depth v < f)%nat ->
  demits (dispatch_root E m special f t v) false v false (root_cells E m special t v).
Proof.
  intros f t v Ht Hd. unfold dispatch_root, root_cells.
  assert (Hs : demits (ser (dispatch_with E m special f) t v) false v false (cells E m special t v)).
  { eapply p_ser; [apply (pack_all f)|now constructor|auto]. }
  unfold cells, cframed in Hs. destruct (chk E); [exact Hs|]. now apply demits_noted.
Qed.
End Pack.
