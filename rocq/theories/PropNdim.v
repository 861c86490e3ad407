(** C71: the recursive traversal of views. *)
From Coq Require Import List NArith Arith Bool Lia.
From Coq.Strings Require Import Byte.
From Verif Require Import Base Syntax Prog Serializers Traverse Views Ndim Spec ViewSpec
  ValFacts EnvFacts ProgFacts ApiFacts Fails RegistryFacts ViewFacts ViewRound ViewEq Examples PropViews.
Import ListNotations.
Local Open Scope N_scope.

(** ** Programs that are the same step by step *)
Inductive teq {A} : prog A -> prog A -> Prop :=
| TRet a : teq (Ret a) (Ret a)
| TContig b k k' : (forall x, teq (k x) (k' x)) -> teq (Contig b k) (Contig b k')
| TCount n k k' : teq k k' -> teq (Count n k) (Count n k')
| TGetV k k' : (forall x, teq (k x) (k' x)) -> teq (GetV k) (GetV k')
| TSetV v k k' : teq k k' -> teq (SetV v k) (SetV v k')
| TNote e k k' : teq k k' -> teq (Note e k) (Note e k')
| TFail e : teq (Fail e) (Fail e).

Lemma teq_refl : forall A (p : prog A), teq p p.
Proof. induction p; constructor; auto. Qed.
Lemma teq_sym : forall A (p q : prog A), teq p q -> teq q p.
Proof. induction 1; constructor; auto. Qed.
Lemma teq_trans : forall A (p q : prog A), teq p q -> forall r, teq q r -> teq p r.
Proof.
  induction 1; intros r Hr; inversion Hr; subst; constructor; auto.
Qed.
Lemma teq_interp : forall A (p q : prog A), teq p q -> peq p q.
Proof.
  intros A p q H S. induction H; intros vf s; cbn [interp]; auto.
  destruct (contig S b s) as [[b' s']|e]; auto.
Qed.
Lemma teq_bind : forall A B (p q : prog A) (f g : A -> prog B), teq p q ->
  (forall a, teq (f a) (g a)) -> teq (bind p f) (bind q g).
Proof. intros A B p q f g H Hf. induction H; cbn [bind]; auto; constructor; auto. Qed.
Lemma teq_assoc : forall A B C (p : prog A) (f : A -> prog B) (g : B -> prog C),
  teq (bind (bind p f) g) (bind p (fun a => bind (f a) g)).
Proof. intros A B C p f g. induction p; cbn [bind]; try constructor; auto. apply teq_refl. Qed.
Lemma teq_ret_r : forall A (p : prog A), teq (bind p (fun a => Ret a)) p.
Proof. induction p; cbn [bind]; constructor; auto. Qed.
Lemma teq_catch : forall A i (p q : prog A), teq p q -> teq (catch i p) (catch i q).
Proof. intros A i p q H. induction H; cbn [catch]; try constructor; auto. Qed.

(** All results of a program satisfy [P]. *)
Fixpoint leaves {A} (P : A -> Prop) (p : prog A) : Prop :=
  match p with
  | Ret a => P a
  | Contig b k => forall x, leaves P (k x)
  | Count n k => leaves P k
  | GetV k => forall x, leaves P (k x)
  | SetV v k => leaves P k
  | Note e k => leaves P k
  | Fail e => True
  end.
Lemma leaves_true : forall A (P : A -> Prop) p, (forall a, P a) -> leaves P p.
Proof. induction p; cbn [leaves]; auto. Qed.
Lemma leaves_bind : forall A B (P : A -> Prop) (Q : B -> Prop) p f,
  leaves P p -> (forall a, P a -> leaves Q (f a)) -> leaves Q (bind p f).
Proof. intros A B P Q p f. induction p; cbn [bind leaves]; auto. Qed.
Lemma leaves_catch : forall A (P : A -> Prop) i p, leaves P p -> leaves P (catch i p).
Proof. intros A P i p. induction p; cbn [catch leaves]; auto. Qed.
Lemma teq_leaves : forall A B (P : A -> Prop) (p : prog A) (f g : A -> prog B), leaves P p ->
  (forall a, P a -> teq (f a) (g a)) -> teq (bind p f) (bind p g).
Proof. intros A B P p f g H Hf. induction p; cbn [bind leaves] in *; try constructor; auto. Qed.
Lemma leaves_mapP : forall A B (g : A -> prog B) l, leaves (fun r => length r = length l) (mapP g l).
Proof.
  intros A B g l. induction l as [|x l IH]; cbn [mapP length]; [reflexivity|].
  eapply leaves_bind; [apply (leaves_true _ (fun _ => True)); auto|]. intros y _.
  eapply leaves_bind; [exact IH|]. intros ys Hy. cbn [leaves length]. now rewrite Hy.
Qed.

(** ** Nested loops *)
Lemma fold_app : forall A B (f : B -> A -> prog B) l1 l2 b,
  teq (foldP f (l1 ++ l2) b) (bind (foldP f l1 b) (fun b' => foldP f l2 b')).
Proof.
  induction l1; intros l2 b; cbn [app foldP]; [apply teq_refl|].
  eapply teq_trans; [|apply teq_sym, teq_assoc]. apply teq_bind; [apply teq_refl|]. auto.
Qed.
Lemma fold_ext : forall A B (f g : B -> A -> prog B) l b,
  (forall b a, teq (f b a) (g b a)) -> teq (foldP f l b) (foldP g l b).
Proof. induction l; intros b H; cbn [foldP]; [apply teq_refl|]. apply teq_bind; auto. Qed.
Lemma fold_map : forall A B C (f : B -> C -> prog B) (h : A -> C) l b,
  teq (foldP f (map h l) b) (foldP (fun b a => f b (h a)) l b).
Proof.
  induction l; intros b; cbn [map foldP]; [apply teq_refl|]. apply teq_bind; [apply teq_refl|]. auto.
Qed.
Lemma nest_fold : forall S ext (k : list N -> S -> prog S) s,
  teq (nest ext k s) (foldP (fun s idx => k idx s) (indices ext) s).
Proof.
  intros S ext. induction ext as [|e r IH]; intros k s; cbn [nest indices].
  - cbn [foldP]. apply teq_sym, teq_ret_r.
  - unfold for_. revert s. induction (seq 0 (N.to_nat e)) as [|i l IHl]; intros s; cbn [foldP flat_map].
    + apply teq_refl.
    + eapply teq_trans; [|apply teq_sym, fold_app]. apply teq_bind; [|intros a; apply IHl].
      eapply teq_trans; [apply IH|]. apply teq_sym, fold_map.
Qed.

Lemma nest_cong : forall S ext (k k' : list N -> S -> prog S) s,
  (forall idx s, teq (k idx s) (k' idx s)) -> teq (nest ext k s) (nest ext k' s).
Proof.
  intros S ext. induction ext as [|e ext IH]; intros k k' s Hk; cbn [nest]; [apply Hk|].
  unfold for_. apply fold_ext. intros b a. now apply IH.
Qed.

(** The recursion takes the extents one by one: the template argument, which wraps around below
    zero when there are compile-time dimensions, counts the dimensions that were passed. *)
Lemma dim_now : forall nd k, nd < 4294967296 -> k < 4294967296 ->
  wrap32 (nd + 4294967296 - wrap32 (nd + 4294967296 - k)) = k.
Proof.
  intros nd k Hn Hk. unfold wrap32.
  destruct (N.le_gt_cases k nd) as [H|H].
  - replace (nd + 4294967296 - k) with (nd - k + 1 * 4294967296) by lia.
    rewrite N.mod_add by discriminate. rewrite (N.mod_small (nd - k)) by lia.
    replace (nd + 4294967296 - (nd - k)) with (k + 1 * 4294967296) by lia.
    rewrite N.mod_add by discriminate. now apply N.mod_small.
  - rewrite (N.mod_small (nd + 4294967296 - k)) by lia.
    replace (nd + 4294967296 - (nd + 4294967296 - k)) with k by lia. now apply N.mod_small.
Qed.
Lemma dim_next : forall nd k, nd < 4294967296 -> k + 1 < 4294967296 ->
  wrap32 (wrap32 (nd + 4294967296 - k) + 4294967296 - 1) = wrap32 (nd + 4294967296 - (k + 1)).
Proof.
  intros nd k Hn Hk. unfold wrap32.
  destruct (N.le_gt_cases k nd) as [H|H].
  - replace (nd + 4294967296 - k) with (nd - k + 1 * 4294967296) by lia.
    rewrite N.mod_add by discriminate. rewrite (N.mod_small (nd - k)) by lia.
    f_equal. lia.
  - rewrite (N.mod_small (nd + 4294967296 - k)) by lia.
    replace (nd + 4294967296 - k + 4294967296 - 1) with (nd + 4294967296 - (k + 1) + 1 * 4294967296) by lia.
    now rewrite N.mod_add by discriminate.
Qed.

Lemma fold_inv : forall A B (I : B -> Prop) (f g : B -> A -> prog B) l b, I b ->
  (forall b a, I b -> leaves I (g b a)) -> (forall b a, I b -> teq (f b a) (g b a)) ->
  teq (foldP f l b) (foldP g l b).
Proof.
  intros A B I f g l. induction l as [|a l IH]; intros b Hb Hg Hf; cbn [foldP]; [apply teq_refl|].
  eapply teq_trans; [apply teq_bind; [now apply Hf|intros; apply teq_refl]|].
  eapply teq_leaves; [now apply Hg|]. intros b' Hb'. now apply IH.
Qed.
Lemma leaves_fold : forall A B (I : B -> Prop) (g : B -> A -> prog B) l b, I b ->
  (forall b a, I b -> leaves I (g b a)) -> leaves I (foldP g l b).
Proof.
  intros A B I g l. induction l as [|a l IH]; intros b Hb Hg; cbn [foldP]; [exact Hb|].
  eapply leaves_bind; [now apply Hg|]. intros b' Hb'. now apply IH.
Qed.

Section Traversal.
Variable E : env.
Variable m : mode.
Variable rec : ty -> list val -> prog (list val).
Variable t : ty.

Lemma elem_ext : forall idx v, leaves (fun w => v_ext w = v_ext v) (ndim_elem m rec t idx v).
Proof.
  intros idx v. unfold ndim_elem. eapply leaves_bind; [apply (leaves_true _ (fun _ => True)); auto|].
  intros x _. eapply leaves_bind; [apply (leaves_true _ (fun _ => True)); auto|]. intros y _.
  destruct (is_unpacking m); [|reflexivity]. unfold set_at.
  destruct (Nat.ltb _ _); cbn [valid leaves]; [reflexivity|exact I].
Qed.
Lemma nest_ext : forall x ext (k : list N -> view -> prog view) v,
  (forall idx w, v_ext w = x -> leaves (fun w' => v_ext w' = x) (k idx w)) -> v_ext v = x ->
  leaves (fun w => v_ext w = x) (nest ext k v).
Proof.
  intros x ext. induction ext as [|e ext IH]; intros k v Hk Hv; cbn [nest]; [now apply Hk|].
  unfold for_. apply leaves_fold; [exact Hv|]. intros w i Hw. apply IH; [|exact Hw].
  intros idx w' Hw'. now apply Hk.
Qed.

Lemma recur_nest : forall nd ds pre ext idx v, nd < 4294967296 -> v_ext v = pre ++ ext ->
  length ds = length ext -> len (v_ext v) < 4294967296 ->
  teq (ndim_recur m rec t ds nd (wrap32 (nd + 4294967296 - len pre)) idx v)
      (nest ext (fun i => ndim_elem m rec t (idx ++ i)) v).
Proof.
  intros nd ds. induction ds as [|b ds IH]; intros pre ext idx v Hn Hv Hl H32;
    destruct ext as [|e ext]; try discriminate; cbn [ndim_recur nest].
  - rewrite app_nil_r. apply teq_refl.
  - assert (Hp : len pre + 1 + len ext < 4294967296).
    { rewrite Hv in H32. unfold len in *. rewrite app_length in H32. cbn [length] in H32. lia. }
    rewrite dim_now by lia.
    replace (extent v (N.to_nat (len pre))) with e.
    2:{ unfold extent. rewrite Hv, len_nat, app_nth2, Nat.sub_diag by lia. reflexivity. }
    rewrite dim_next by lia. unfold for_.
    apply fold_inv with (I := fun w => v_ext w = v_ext v); [reflexivity| |].
    + intros w i Hw. apply nest_ext; [|exact Hw]. intros i' w' Hw'. rewrite <- Hw'. apply elem_ext.
    + intros w i Hw. replace (len pre + 1) with (len (pre ++ [e])) by (unfold len; rewrite app_length; cbn [length]; lia).
      eapply teq_trans; [apply (IH (pre ++ [e]) ext)|].
      * exact Hn.
      * now rewrite Hw, Hv, <- app_assoc.
      * now inversion Hl.
      * now rewrite Hw.
      * apply nest_cong. intros i' w'. rewrite <- app_assoc. apply teq_refl.
Qed.

(** Other modes than Unpacking: the two traversals are the same. *)
Lemma writing_same : forall dims v, is_unpacking m = false -> length dims = length (v_ext v) ->
  (length (v_ext v) <= 8)%nat ->
  teq (traverse_recursive m rec dims t v) (traverse_manual E m rec (length (v_ext v)) t v).
Proof.
  intros dims v Hm Hl H8. unfold traverse_recursive.
  assert (Hd : dynamic dims < 4294967296).
  { unfold dynamic, len. pose proof (filter_length_le bool (fun b : bool => b) dims). lia. }
  assert (H32 : len (v_ext v) < 4294967296) by (unfold len; lia).
  eapply teq_trans.
  - replace (dynamic dims) with (wrap32 (dynamic dims + 4294967296 - len (@nil N))) at 2.
    2:{ change (len (@nil N)) with 0. rewrite N.sub_0_r. unfold wrap32.
        replace (dynamic dims + 4294967296) with (dynamic dims + 1 * 4294967296) by lia.
        rewrite N.mod_add by discriminate. now apply N.mod_small. }
    apply (recur_nest _ dims [] (v_ext v)); auto.
  - cbn [app]. destruct (Nat.eq_dec (length (v_ext v)) 0) as [H0|H0].
    + rewrite H0. destruct (v_ext v); [|discriminate]. cbn [nest traverse_manual]. unfold trav0, visit0, ndim_elem.
      apply teq_refl.
    + rewrite traverse_nest by lia. apply nest_cong. intros idx w. unfold ndim_elem, visit. rewrite Hm.
      apply teq_refl.
Qed.

(** Reading into a view whose elements have their default value and lie at different places. *)
Lemma visits_same : is_unpacking m = true -> forall d L v, dflt E t = Some d -> NoDup L ->
  (forall idx idx', In idx L -> In idx' L -> offset (v_str v) idx = offset (v_str v) idx' -> idx = idx') ->
  (forall idx, In idx L -> at_ v idx = Some d) ->
  teq (foldP (fun w idx => ndim_elem m rec t idx w) L v) (foldP (fun w idx => visit E m rec t idx w) L v).
Proof.
  intros Hm d L v Hd. revert v. induction L as [|idx L IH]; intros v Hn Hdis Hat; cbn [foldP]; [apply teq_refl|].
  inversion Hn as [|? ? Hin Hn']; subst.
  assert (He : ndim_elem m rec t idx v = visit E m rec t idx v).
  { unfold ndim_elem, visit. rewrite Hm, Hd, (Hat idx (or_introl eq_refl)). reflexivity. }
  rewrite He.
  apply teq_leaves with (P := fun w => exists x, set_at v idx x = Some w).
  - unfold visit. rewrite Hm, Hd. cbn [of_opt bind].
    eapply leaves_bind; [apply (leaves_true _ (fun _ => True)); auto|]. intros x _.
    destruct (set_at v idx x) eqn:Hs; cbn [valid leaves]; [now exists x|exact I].
  - intros w (x & Hw). unfold set_at in Hw. destruct (Nat.ltb _ _) eqn:Hlt; [|discriminate].
    inversion Hw; subst. apply IH; [exact Hn'| |].
    + intros i j Hi Hj. cbn [v_str with_data]. apply Hdis; now right.
    + intros i Hi. rewrite at_upd_other; [apply Hat; now right|]. intros Ho.
      apply Hin. replace idx with i; [exact Hi|]. symmetry. apply Hdis; [now left|now right|exact Ho].
Qed.

Lemma reading_same : forall dims d v, is_unpacking m = true -> length dims = length (v_ext v) ->
  (length (v_ext v) <= 8)%nat -> dflt E t = Some d -> disjoint_elems v ->
  (forall idx, in_bounds idx (v_ext v) -> at_ v idx = Some d) ->
  teq (traverse_recursive m rec dims t v) (traverse_manual E m rec (length (v_ext v)) t v).
Proof.
  intros dims d v Hm Hl H8 Hdf Hdis Hat. unfold traverse_recursive.
  assert (Hd : dynamic dims < 4294967296).
  { unfold dynamic, len. pose proof (filter_length_le bool (fun b : bool => b) dims). lia. }
  assert (H32 : len (v_ext v) < 4294967296) by (unfold len; lia).
  eapply teq_trans.
  - replace (dynamic dims) with (wrap32 (dynamic dims + 4294967296 - len (@nil N))) at 2.
    2:{ change (len (@nil N)) with 0. rewrite N.sub_0_r. unfold wrap32.
        replace (dynamic dims + 4294967296) with (dynamic dims + 1 * 4294967296) by lia.
        rewrite N.mod_add by discriminate. now apply N.mod_small. }
    apply (recur_nest _ dims [] (v_ext v)); auto.
  - cbn [app]. destruct (Nat.eq_dec (length (v_ext v)) 0) as [H0|H0].
    + rewrite H0. destruct (v_ext v); [|discriminate]. cbn [nest traverse_manual]. unfold trav0, visit0, ndim_elem.
      apply teq_refl.
    + rewrite traverse_nest by lia. eapply teq_trans; [apply nest_fold|].
      eapply teq_trans; [|apply teq_sym, nest_fold].
      eapply visits_same; eauto.
      * apply indices_nodup.
      * intros i j Hi Hj. apply Hdis; now apply in_indices.
      * intros i Hi. apply Hat. now apply in_indices.
Qed.
End Traversal.

Lemma at_repeat : forall v d idx n, v_data v = repeat d n -> offset (v_str v) idx < N.of_nat n -> at_ v idx = Some d.
Proof.
  intros v d idx n Hv Ho. unfold at_. rewrite Hv. apply nth_error_repeat. lia.
Qed.

(** ** Views *)
Section View.
Variable E : env.
Variable span : list N -> list N -> N.
Variable f : nat.

Lemma as_object_same : forall A m t (p q : prog A), teq p q -> teq (as_object E m t p) (as_object E m t q).
Proof.
  intros A m t p q H. unfold as_object. destruct (chk E); [|exact H].
  apply teq_bind; [apply teq_refl|]. intros _. apply teq_bind; [now apply teq_catch|]. intros; apply teq_refl.
Qed.
Lemma root_same : forall A m t (p q : prog A), teq p q -> teq (root_object E m t p) (root_object E m t q).
Proof.
  intros A m t p q H. unfold root_object. destruct (chk E); [now apply as_object_same|].
  apply teq_bind; [apply teq_refl|]. intros _. apply teq_bind; [exact H|]. intros; apply teq_refl.
Qed.

Lemma view_writing : forall m rec dims vt v, is_unpacking m = false -> length dims = vt_rank vt ->
  length (v_ext v) = vt_rank vt -> (vt_rank vt <= 8)%nat ->
  teq (ndim_view E span m rec dims vt v) (ser_view E span m rec vt v).
Proof.
  intros m rec dims vt v Hm Hd Hr H8. unfold ndim_view, ser_view. rewrite Hm.
  do 4 (apply teq_bind; [apply teq_refl|intros ?]). cbn [bind].
  do 3 (apply teq_bind; [apply teq_refl|intros ?]). destruct a5; [|apply teq_refl].
  destruct a4; [apply teq_refl|]. rewrite <- Hr. apply writing_same; congruence.
Qed.

(** What a layout is read as has eight entries. *)
Lemma layout_eight : forall m rec t k l, length (fst l) = 8%nat -> length (snd l) = 8%nat ->
  leaves (fun l' => length (fst l') = 8%nat /\ length (snd l') = 8%nat) (as_object E m t (ser_layout rec k l)).
Proof.
  intros m rec t k [a b] Ha Hb. cbn [fst snd] in *.
  assert (Hl : leaves (fun l' => length (fst l') = 8%nat /\ length (snd l') = 8%nat) (ser_layout rec k (a, b))).
  { unfold ser_layout. cbn [fst snd].
    destruct k; (eapply leaves_bind; [apply leaves_mapP|]); intros r Hrr; cbn [leaves fst snd].
    - split; congruence.
    - split; congruence.
    - rewrite combine_length, Ha, Hb in Hrr. now rewrite split_length_l, split_length_r, Hrr. }
  unfold as_object. destruct (chk E); [|exact Hl].
  eapply leaves_bind; [apply (leaves_true _ (fun _ => True)); auto|]. intros _ _.
  eapply leaves_bind; [apply leaves_catch; exact Hl|]. intros l' Hl'.
  eapply leaves_bind; [apply (leaves_true _ (fun _ => True)); auto|]. intros _ _. exact Hl'.
Qed.

Lemma view_reading : forall rec dims vt v, vt_kind vt <> LStride -> length dims = vt_rank vt ->
  (vt_rank vt <= 8)%nat ->
  teq (ndim_view E span MUnpacking rec dims vt v) (ser_view E span MUnpacking rec vt v).
Proof.
  intros rec dims vt v Hk Hd H8. unfold ndim_view, ser_view. cbn [is_unpacking].
  do 3 (apply teq_bind; [apply teq_refl|intros ?]).
  eapply teq_leaves; [apply layout_eight; reflexivity|]. intros l (Hl & _).
  apply teq_leaves with (P := fun w => exists d, dflt E (vt_elem vt) = Some d /\
    length (v_ext w) = vt_rank vt /\ v_str w = natural (vt_kind vt) (v_ext w) /\
    v_data w = repeat d (N.to_nat (prod (v_ext w)))).
  { unfold new_view. destruct (dflt E (vt_elem vt)) as [d|]; [|exact I]. cbn [of_opt bind leaves].
    exists d. split; [reflexivity|]. cbn [v_ext v_str v_data]. rewrite firstn_length, Hl.
    split; [lia|]. destruct (vt_kind vt); try congruence; now split. }
  intros w (d & Hdf & Hr & Hst & Hda).
  do 3 (apply teq_bind; [apply teq_refl|intros ?]). destruct a4; [|apply teq_refl].
  destruct a3; [apply teq_refl|]. rewrite <- Hr. eapply reading_same; eauto; try congruence.
  - intros i j Hi Hj. rewrite Hst. now apply natural_inj.
  - intros i Hi. eapply at_repeat; [exact Hda|]. rewrite Hst, N2Nat.id. now apply natural_bound.
Qed.

Lemma new_view_ext : forall vt label ext str,
  leaves (fun w => v_ext w = ext) (new_view E span vt label ext str).
Proof.
  intros vt label ext str. unfold new_view. destruct (dflt E (vt_elem vt)); [|exact I]. reflexivity.
Qed.
Lemma deep_copy_ext : forall dst src, leaves (fun w => v_ext w = v_ext dst) (deep_copy dst src).
Proof.
  intros dst src. unfold deep_copy. apply leaves_fold with (I := fun w => v_ext w = v_ext dst); [reflexivity|].
  intros w idx Hw. eapply leaves_bind; [apply (leaves_true _ (fun _ => True)); auto|]. intros x _.
  unfold set_at. destruct (Nat.ltb _ _); cbn [valid leaves]; [exact Hw|exact I].
Qed.

Lemma const_writing : forall m rec dims vt v, is_unpacking m = false -> length dims = vt_rank vt ->
  length (v_ext v) = vt_rank vt -> (vt_rank vt <= 8)%nat ->
  teq (ndim_const_view E span m rec dims vt v) (ser_const_view E span m rec vt v).
Proof.
  intros m rec dims vt v Hm Hd Hr H8. unfold ndim_const_view, ser_const_view. rewrite Hm.
  eapply teq_leaves; [apply new_view_ext|]. intros tmp Ht.
  apply teq_leaves with (P := fun w => v_ext w = v_ext tmp).
  - destruct (is_packing m); [apply deep_copy_ext|reflexivity].
  - intros tmp1 Ht1. apply teq_bind; [|intros; apply teq_refl]. apply view_writing; congruence.
Qed.
Lemma const_reading : forall rec dims vt v, vt_kind vt <> LStride -> length dims = vt_rank vt ->
  (vt_rank vt <= 8)%nat ->
  teq (ndim_const_view E span MUnpacking rec dims vt v) (ser_const_view E span MUnpacking rec vt v).
Proof.
  intros rec dims vt v Hk Hd H8. unfold ndim_const_view, ser_const_view. cbn [is_unpacking is_packing].
  do 2 (apply teq_bind; [apply teq_refl|intros ?]).
  apply teq_bind; [|intros; apply teq_refl]. now apply view_reading.
Qed.

Lemma root_writing : forall m dims vt v, is_unpacking m = false -> length dims = vt_rank vt ->
  length (v_ext v) = vt_rank vt -> (vt_rank vt <= 8)%nat ->
  teq (root_ndim_view E span f m dims vt v) (root_view E span f m vt v).
Proof.
  intros m dims vt v Hm Hd Hr H8. unfold root_ndim_view, root_view. apply root_same.
  destruct (vt_const vt); [now apply const_writing|now apply view_writing].
Qed.
Lemma root_reading : forall dims vt v, vt_kind vt <> LStride -> length dims = vt_rank vt ->
  (vt_rank vt <= 8)%nat ->
  teq (root_ndim_view E span f MUnpacking dims vt v) (root_view E span f MUnpacking vt v).
Proof.
  intros dims vt v Hk Hd H8. unfold root_ndim_view, root_view. apply root_same.
  destruct (vt_const vt); [now apply const_reading|now apply view_reading].
Qed.

(** ** Views of dynamic size *)
Lemma line_same : forall m rec t b n v, v_ext v = [n] -> n = len (v_data v) ->
  v_str v = [1] -> (is_unpacking m = true -> exists d, dflt E t = Some d /\ v_data v = repeat d (N.to_nat n)) ->
  teq (ndim_recur m rec t [b] 1 1 [] v) (trav1 E m rec t v).
Proof.
  intros m rec t b n v Hx Hn Hs Hd.
  assert (Hl : length [b] = length (v_ext v)) by now rewrite Hx.
  assert (H1 : teq (ndim_recur m rec t [b] 1 1 [] v) (traverse_recursive m rec [true] t v))
    by apply teq_refl.
  eapply teq_trans; [exact H1|]. change (trav1 E m rec t v) with (traverse_manual E m rec 1 t v).
  replace 1%nat with (length (v_ext v)) by now rewrite Hx.
  destruct (is_unpacking m) eqn:Hm.
  - destruct (Hd eq_refl) as (d & Hdf & Hda). eapply reading_same; eauto.
    + rewrite Hx. cbn [length]. lia.
    + intros i j Hi Hj. rewrite Hx in Hi, Hj. apply bounds1 in Hi, Hj.
      destruct Hi as (i' & -> & _), Hj as (j' & -> & _). rewrite Hs. cbn [offset]. intros H. f_equal. lia.
    + intros i Hi. rewrite Hx in Hi. apply bounds1 in Hi. destruct Hi as (i' & -> & Hi').
      eapply at_repeat; [exact Hda|]. rewrite Hs. cbn [offset]. lia.
  - apply writing_same; auto. rewrite Hx. cbn [length]. lia.
Qed.

Lemma dynamic_same : forall m rec t v, 
  teq (ndim_dynamic_view E m rec t v) (ser_dynamic_view E m rec t v).
Proof.
  intros m rec t v. unfold ndim_dynamic_view, ser_dynamic_view.
  do 4 (apply teq_bind; [apply teq_refl|intros ?]).
  apply teq_leaves with (P := fun w => is_unpacking m = true ->
    exists d, dflt E t = Some d /\ d_elems w = repeat d (length (d_elems w))).
  - destruct (is_unpacking m); [|cbn [leaves]; discriminate]. cbv zeta. destruct (_ <? _); [exact I|].
    destruct (dflt E t) as [d|]; [|exact I]. cbn [of_opt bind leaves d_elems]. intros _. exists d.
    now rewrite repeat_length.
  - intros w Hw. apply teq_bind; [|intros; apply teq_refl]. apply line_same with (n := len (d_elems w)); auto.
    intros Hm. destruct (Hw Hm) as (d & Hd & He). exists d. cbn [v_data]. now rewrite len_nat.
Qed.

(** ** Strided layouts *)
Section Strided.
Hypothesis wf : wf_env any E.
Hypothesis Hf : (2 < f)%nat.
Notation rec := (with_ E MUnpacking f).
Let U := proj1 (Unpack.unpack_all any E wf Cany N.le Cany_any Cany_max f).

Lemma n_view : forall dims vt d v w, wf_span span -> view_ok E span vt f v -> disjoint_elems v ->
  length dims = vt_rank vt -> vt_managed vt = true \/ asserts E = false ->
  is_virtual E (vt_elem vt) = false -> dflt E (vt_elem vt) = Some d ->
  exists x, view_copy (vt_kind vt) v x /\
    reads (ser_view E span MUnpacking rec vt w) false (wview E span vt v) x false /\
    reads (ndim_view E span MUnpacking rec dims vt w) false (wview E span vt v) x false.
Proof.
  intros dims vt d v w Hsp Hok Hdis Hdm Hman Hv Hd.
  assert (Hf1 : (1 <= f)%nat) by lia.
  destruct (r_body E wf span f Hf vt d v Hsp Hok Hv Hd) as (x & Hx & Hr).
  exists x. split; auto. pose proof (layout_of_64 _ _ _ _ _ Hok) as Hlay. pose proof Hok as Hok'. destruct Hok.
  assert (Hr' : reads (if v_live v
           then if contiguous span (vt_kind vt) v
                then ser_data rec (vt_elem vt) (prod (v_ext v)) (shell vt span d v)
                else traverse_recursive MUnpacking rec dims (vt_elem vt) (shell vt span d v)
           else Ret (shell vt span d v)) false (wbody E span vt v) x false).
  { destruct (v_live v); [|exact Hr]. destruct (contiguous span (vt_kind vt) v); [exact Hr|].
    eapply reads_peq; [|exact Hr]. apply teq_interp.
    replace (vt_rank vt) with (length (v_ext (shell vt span d v))) by exact vo_rank.
    eapply reading_same; eauto.
    - cbn [shell v_ext]. congruence.
    - cbn [shell v_ext]. lia.
    - intros i j Hi Hj. cbn [shell v_ext v_str] in *.
      destruct (vt_kind vt); try (now apply natural_inj). now apply Hdis.
    - intros i Hi. eapply at_repeat; [reflexivity|].
      rewrite N2Nat.id. cbn [shell v_ext v_str] in *.
      destruct (vt_kind vt); try (now apply natural_bound). apply Hsp; [congruence|exact Hi]. }
  split; [unfold ser_view|unfold ndim_view]; unfold wview; cbn [is_unpacking].
  all: eapply reads_eq; [|apply app_nil_l].
  all: eapply reads_bind with (a := tt) (vf1 := false);
    [destruct (asserts E), (vt_managed vt), Hman; try discriminate; apply reads_ret|].
  all: eapply reads_bind; [now apply r_label|].
  all: eapply reads_bind; [apply (Unpack.u_int E Cany N.le rec f U); auto; rewrite vo_rank; lia|].
  all: eapply reads_bind; [now apply r_layout|].
  all: eapply reads_eq; [|apply app_nil_l].
  all: (eapply reads_bind with (a := shell vt span d v) (vf1 := false);
    [unfold layout_of; cbn [fst snd]; rewrite pad8_firstn by auto;
     pose proof (r_new_shell E span vt d v false Hd) as Hn; rewrite vo_rank in Hn;
     destruct (vt_kind vt); auto; now rewrite pad8_firstn by auto|]).
  all: eapply reads_bind; [apply (Unpack.u_size E Cany N.le rec f U); auto|].
  all: eapply reads_bind; [apply (Unpack.u_bool E Cany N.le rec f U); auto|].
  all: eapply reads_bind; [apply (Unpack.u_bool E Cany N.le rec f U); auto|].
  - exact Hr.
  - exact Hr'.
Qed.
End Strided.
End View.

(** ** C71 *)

(** Every use of a view that does not change it: the traversals of every serializer in every mode
    but Unpacking, and so the data, the size and the errors of serialize and serializeToStream. *)
Theorem C71_writing : forall E span f dims vt v, length dims = vt_rank vt ->
  length (v_ext v) = vt_rank vt -> (vt_rank vt <= 8)%nat ->
  (forall m H vf s, m <> MUnpacking -> interp H (root_ndim_view E span f m dims vt v) vf s =
                                       interp H (root_view E span f m vt v) vf s) /\
  serialize_ndim_view E span f dims vt v = serialize_view E span f vt v /\
  forall o, ndim_view_to_stream E span f dims vt v o =
            object_to_stream (root_view E span f MSizing vt v) (root_view E span f MPacking vt v) o.
Proof.
  intros E span f dims vt v Hd Hr H8.
  assert (G : forall m, is_unpacking m = false ->
    peq (root_ndim_view E span f m dims vt v) (root_view E span f m vt v)).
  { intros m Hm. apply teq_interp. now apply root_writing. }
  split; [|split].
  - intros m H vf s Hm. apply G. destruct m; try reflexivity. now destruct Hm.
  - unfold serialize_ndim_view, serialize_view, serialize_object.
    rewrite (G MSizing eq_refl). destruct (interp sizer _ _ _) as [[[a vf] n]|]; [|reflexivity].
    now rewrite (G MPacking eq_refl).
  - intros o. unfold ndim_view_to_stream, object_to_stream. rewrite (G MSizing eq_refl).
    destruct (interp sizer _ _ _) as [[[a vf] n]|]; [|reflexivity]. now rewrite (G MPacking eq_refl).
Qed.
Print Assumptions C71_writing.

(** Views with LayoutLeft and LayoutRight are read alike, whatever the input holds. *)
Theorem C71_reading : forall E span f dims vt w, length dims = vt_rank vt -> (vt_rank vt <= 8)%nat ->
  vt_kind vt <> LStride ->
  (forall H vf s, interp H (root_ndim_view E span f MUnpacking dims vt w) vf s =
                  interp H (root_view E span f MUnpacking vt w) vf s) /\
  forall mem off, deserialize_ndim_view E span f dims vt mem off w = deserialize_view E span f vt mem off w.
Proof.
  intros E span f dims vt w Hd H8 Hk.
  assert (G : peq (root_ndim_view E span f MUnpacking dims vt w) (root_view E span f MUnpacking vt w)).
  { apply teq_interp. now apply root_reading. }
  split; [intros; apply G|]. intros mem off. unfold deserialize_ndim_view, deserialize_view, deserialize_object.
  now rewrite G.
Qed.
Print Assumptions C71_reading.

(** Views with any layout whose elements lie at different places: either build writes the same
    bytes, and from these either build reads the same copy. *)
Theorem C71_strided : forall E span f dims vt d v, wf_env any E -> wf_span span -> (2 < f)%nat ->
  view_ok E span vt f v -> disjoint_elems v -> length dims = vt_rank vt ->
  vt_const vt = false -> vt_managed vt = true ->
  is_virtual E (vt_elem vt) = false -> dflt E (vt_elem vt) = Some d ->
  exists b, stream_view E span f vt v = Ok (b, v) /\
    (len b < two64 -> serialize_ndim_view E span f dims vt v = Ok (b, v)) /\
    forall w, exists x, view_copy (vt_kind vt) v x /\ forall before after,
      deserialize_view E span f vt (before ++ b ++ after) (length before) w = Ok (x, len b) /\
      deserialize_ndim_view E span f dims vt (before ++ b ++ after) (length before) w = Ok (x, len b).
Proof.
  intros E span f dims vt d v wf Hsp Hf Hok Hdis Hd Hc Hman Hv Hdf.
  exists (wroot E (vt_name vt) (wview E span vt v)).
  assert (Hw : stream_view E span f vt v = Ok (wroot E (vt_name vt) (wview E span vt v), v) /\
    (len (wroot E (vt_name vt) (wview E span vt v)) < two64 ->
     serialize_view E span f vt v = Ok (wroot E (vt_name vt) (wview E span vt v), v))).
  { unfold stream_view, serialize_view, root_view. rewrite Hc.
    refine (both_ways _ _ _ _ v v _ _ _ _ eq_refl).
    + apply e_root; [now right|]. eapply e_view; eauto.
    + apply e_root; [now left|]. eapply e_view; eauto. }
  split; [apply Hw|split].
  - intros Hb. destruct (C71_writing E span f dims vt v Hd (vo_rank _ _ _ _ _ Hok) (vo_max _ _ _ _ _ Hok))
      as (_ & -> & _). now apply Hw.
  - intros w. destruct (n_view E span f wf Hf dims vt d v w) as (x & Hx & Hr & Hr'); auto.
    exists x. split; [exact Hx|]. intros before after.
    split; apply deserialize_reads; [unfold root_view|unfold root_ndim_view]; rewrite Hc; now apply r_root.
Qed.
Print Assumptions C71_strided.

(** Views of dynamic size, in every mode and on every input. *)
Theorem C71_dynamic : forall E f name t v,
  (forall m H vf s, interp H (root_ndim_dynamic_view E f m name t v) vf s =
                    interp H (root_dynamic_view E f m name t v) vf s) /\
  serialize_ndim_dynamic_view E f name t v = serialize_dynamic_view E f name t v /\
  forall mem off, deserialize_ndim_dynamic_view E f name t mem off v = deserialize_dynamic_view E f name t mem off v.
Proof.
  intros E f name t v.
  assert (G : forall m, peq (root_ndim_dynamic_view E f m name t v) (root_dynamic_view E f m name t v)).
  { intros m. apply teq_interp. unfold root_ndim_dynamic_view, root_dynamic_view.
    apply root_same. apply dynamic_same. }
  split; [intros; apply G|split].
  - unfold serialize_ndim_dynamic_view, serialize_dynamic_view, serialize_object.
    rewrite (G MSizing). destruct (interp sizer _ _ _) as [[[a vf] n]|]; [|reflexivity]. now rewrite (G MPacking).
  - intros mem off. unfold deserialize_ndim_dynamic_view, deserialize_dynamic_view, deserialize_object.
    now rewrite G.
Qed.
Print Assumptions C71_dynamic.

(** The only element of an atomic view of rank 0 is serialized like that of a view that is not
    atomic: always when written, and when read if the view was just allocated. *)
Theorem C71_atomic : forall E span m rec vt v, vt_rank vt = 0%nat ->
  (is_unpacking m = false \/
   exists H label vf s vf' s', interp H (new_view E span vt label [] []) vf s = Ok (v, vf', s')) ->
  vt_kind vt <> LStride ->
  forall H vf s, interp H (atomic_memory E m rec (vt_elem vt) v) vf s =
                 interp H (traverse_manual E m rec (vt_rank vt) (vt_elem vt) v) vf s.
Proof.
  intros E span m rec vt v Hr Hv Hk H vf s. rewrite Hr. cbn [traverse_manual].
  unfold atomic_memory, trav0, visit0. destruct (is_unpacking m) eqn:Hm.
  - destruct Hv as [Hv|(H' & label & vf0 & s0 & vf1 & s1 & Hn)]; [discriminate|].
    unfold new_view in Hn. destruct (dflt E (vt_elem vt)) as [d|] eqn:Hd; cbn [of_opt bind interp] in Hn; [|discriminate].
    injection Hn as <- _ _. cbn [of_opt bind].
    replace (at_ _ []) with (Some d); [reflexivity|].
    unfold at_. cbn [v_data v_str]. destruct (vt_kind vt); [reflexivity|reflexivity|contradiction].
  - apply (teq_interp _ _ _ (teq_refl _ _)).
Qed.
Print Assumptions C71_atomic.

(** A single integer. *)
Example C71_atomic_case : forall b, exists v out,
  interp (reader RtErr) (new_view (ex b) ex_span (ex_vt INT 0 LRight false) [x61] [] []) false [] = Ok (v, false, []) /\
  interp stream_packer (atomic_memory (ex b) MPacking (with_ (ex b) MPacking 2) INT (with_data v [i_ 9])) false
    {| o_data := []; o_room := None; o_bad := false; o_nbytes := 0 |} = Ok (with_data v [i_ 9], false, out) /\
  interp (reader RtErr) (atomic_memory (ex b) MUnpacking (with_ (ex b) MUnpacking 2) INT v) false (o_data out)
    = Ok (with_data v [i_ 9], false, []).
Proof.
  intros []; (do 2 eexists; split; [vm_compute; reflexivity|]; split; vm_compute; reflexivity).
Qed.

(** ** Concrete cases *)

(** int[2]-star and int-star-star with gaps between the columns. *)
Example C71_case : forall b dims, In dims [[true; false]; [true; true]; [false; false]] ->
  wf_env any (ex b) /\ wf_span ex_span /\ view_ok (ex b) ex_span (ex_vt INT 2 LStride false) 3 ex_strided /\
  disjoint_elems ex_strided /\ contiguous ex_span LStride ex_strided = false /\
  length dims = vt_rank (ex_vt INT 2 LStride false) /\
  exists out x n,
    serialize_ndim_view (ex b) ex_span 3 dims (ex_vt INT 2 LStride false) ex_strided = Ok (out, ex_strided) /\
    deserialize_ndim_view (ex b) ex_span 3 dims (ex_vt INT 2 LStride false) out 0 no_view = Ok (x, n) /\
    v_ext x = [2; 3] /\ v_str x = [1; 4] /\ at_ x [1; 2] = Some (i_ 19).
Proof.
  intros b dims Hd. split; [now apply ex_wf|]. split; [apply ex_span_wf|]. split; [apply ex_strided_ok|].
  split.
  { intros i j Hi Hj. destruct (bounds2 _ _ _ Hi) as (i0 & i1 & -> & A0 & A1).
    destruct (bounds2 _ _ _ Hj) as (j0 & j1 & -> & B0 & B1). cbn [v_str ex_strided offset].
    intros H. assert (i0 = j0 /\ i1 = j1) as (-> & ->) by lia. reflexivity. }
  split; [vm_compute; reflexivity|].
  destruct Hd as [<-|[<-|[<-|[]]]]; (split; [reflexivity|]);
    destruct b; do 3 eexists; (split; [vm_compute; reflexivity|]); (split; [vm_compute; reflexivity|]);
    vm_compute; auto.
Qed.

(** LayoutRight and LayoutLeft, with extents known at compile time and not. *)
Definition ex_dense (k : lkind) : view := {|
  v_label := [x64]; v_ext := [2; 3]; v_str := natural k [2; 3];
  v_data := map i_ [11; 12; 13; 14; 15; 16]; v_live := true
|}.
Example C71_dense_case : forall b k dims, In k [LRight; LLeft] -> In dims [[true; false]; [false; false]] ->
  length dims = 2%nat /\ k <> LStride /\
  exists out n,
    serialize_ndim_view (ex b) ex_span 3 dims (ex_vt INT 2 k false) (ex_dense k) = Ok (out, ex_dense k) /\
    deserialize_ndim_view (ex b) ex_span 3 dims (ex_vt INT 2 k false) out 0 no_view = Ok (ex_dense k, n).
Proof.
  intros b k dims Hk Hd. destruct Hk as [<-|[<-|[]]]; destruct Hd as [<-|[<-|[]]]; (split; [reflexivity|]);
    (split; [discriminate|]); destruct b; do 2 eexists; (split; vm_compute; reflexivity).
Qed.

Example C71_dynamic_case : forall b, exists out x n,
  serialize_ndim_dynamic_view (ex b) 3 (TPrim 93 48) INT ex_dynamic = Ok (out, ex_dynamic) /\
  deserialize_ndim_dynamic_view (ex b) 3 (TPrim 93 48) INT out 0 no_dview = Ok (x, n) /\
  d_elems x = map i_ [1; 2; 3; 4; 5].
Proof.
  destruct b; do 3 eexists; (split; [vm_compute; reflexivity|]); (split; [vm_compute; reflexivity|]); reflexivity.
Qed.
