(** What is read takes no more room when it is written again: proofs. *)
From Coq Require Import List NArith Arith Bool Lia Permutation.
From Coq.Strings Require Import Byte.
From Verif Require Import Base Syntax Prog Serializers Traverse Spec ProgFacts EnvFacts
  RegistryFacts Pack Unpack ApiFacts.
From Verif Require RobustFacts.
Import ListNotations.
Local Open Scope nat_scope.

(** ** Specification *)

(** No part of the value is a variant, other than one that is copied bytewise. *)
Fixpoint no_variants (v : val) : bool :=
  match v with
  | VB _ | VStr _ _ => true
  | VVec _ l | VSeq l | VBag l => forallb no_variants l
  | VOpt None => true
  | VOpt (Some x) => no_variants x
  | VVar _ _ | VVarNone => false
  | VObj _ ls => forallb (forallb no_variants) ls
  end.

(** ** Programs and what they consume *)

(** However [p] ends normally, the flag is down and [Q] holds of its result and of the number of
    bytes it has consumed. *)
Definition costs {A} (p : prog A) (vf : bool) (Q : A -> nat -> Prop) : Prop :=
  forall i a vf', reads p vf i a vf' -> vf' = false /\ Q a (length i).

Lemma reads_inv_bind : forall A B (p : prog A) (k : A -> prog B) vf i b vf',
  reads (bind p k) vf i b vf' ->
  exists i1 a vf1 i2, i = i1 ++ i2 /\ reads p vf i1 a vf1 /\ reads (k a) vf1 i2 b vf'.
Proof.
  intros A B p k vf i b vf' H. specialize (H RtErr []). rewrite interp_bind in H.
  destruct (interp (reader RtErr) p vf (i ++ [])) as [[[a vf1] s1]|] eqn:E; [|discriminate].
  apply reader_local in E. destruct E as (i1 & E1 & R1).
  apply reader_local in H. destruct H as (i2 & E2 & R2).
  rewrite !app_nil_r in *. subst. eauto 10.
Qed.
Lemma reads_inv_ret : forall A (a b : A) vf i vf', reads (Ret a) vf i b vf' -> i = [] /\ b = a /\ vf' = vf.
Proof.
  intros A a b vf i vf' H. specialize (H RtErr []). cbn [interp] in H. rewrite app_nil_r in H.
  inversion H; subst. auto.
Qed.

Lemma costs_ret : forall A (a : A) (Q : A -> nat -> Prop), Q a 0 -> costs (Ret a) false Q.
Proof. intros A a Q H i b vf' R. apply reads_inv_ret in R. destruct R as (-> & -> & ->). auto. Qed.
Lemma costs_fail : forall A e vf (Q : A -> nat -> Prop), costs (Fail e) vf Q.
Proof. intros A e vf Q i b vf' R. specialize (R RtErr []). discriminate. Qed.
Lemma costs_of : forall A (o : option A) (Q : A -> nat -> Prop),
  (forall a, o = Some a -> Q a 0) -> costs (of_opt o) false Q.
Proof. intros A [a|] Q H; [apply costs_ret; auto|apply costs_fail]. Qed.
Lemma costs_bind : forall A B (p : prog A) (k : A -> prog B) vf Q Q',
  costs p vf Q -> (forall a n, Q a n -> costs (k a) false (fun b m => Q' b (n + m))) ->
  costs (bind p k) vf Q'.
Proof.
  intros A B p k vf Q Q' Hp Hk i b vf' R. apply reads_inv_bind in R.
  destruct R as (i1 & a & vf1 & i2 & -> & R1 & R2). destruct (Hp _ _ _ R1) as (-> & Ha).
  destruct (Hk a _ Ha _ _ _ R2) as (-> & Hb). rewrite app_length. auto.
Qed.
Lemma costs_contig : forall A b (k : bytes -> prog A) vf (Q : A -> nat -> Prop),
  (forall x, length x = length b -> costs (k x) vf (fun a n => Q a (length b + n))) ->
  costs (Contig b k) vf Q.
Proof.
  intros A b k vf Q H i a vf' R. apply reads_inv_contig in R.
  destruct R as (x & i' & -> & Hl & R). destruct (H x Hl _ _ _ R) as (-> & Ha).
  rewrite app_length, Hl. auto.
Qed.
Lemma costs_count : forall A n (p : prog A) vf Q, costs p vf Q -> costs (Count n p) vf Q.
Proof. intros A n p vf Q H i a vf' R. apply (H i a vf'). exact R. Qed.
Lemma costs_note : forall A n (p : prog A) vf Q, costs p vf Q -> costs (Note n p) vf Q.
Proof. intros A n p vf Q H i a vf' R. apply (H i a vf'). exact R. Qed.
Lemma costs_setv : forall A n (p : prog A) vf Q, costs p n Q -> costs (SetV n p) vf Q.
Proof. intros A n p vf Q H i a vf' R. apply (H i a vf'). exact R. Qed.
Lemma costs_getv : forall A (k : bool -> prog A) vf Q, costs (k vf) vf Q -> costs (GetV k) vf Q.
Proof. intros A k vf Q H i a vf' R. apply (H i a vf'). exact R. Qed.
Lemma costs_catch : forall A t (p : prog A) vf Q, costs p vf Q -> costs (catch t p) vf Q.
Proof.
  intros A t p vf Q H i a vf' R. specialize (R RtErr []).
  destruct (interp (reader RtErr) p vf (i ++ [])) as [[[b vf1] s1]|e] eqn:E.
  - rewrite (interp_catch_ok _ _ _ _ _ _ _ E) in R. inversion R; subst.
    apply reader_local in E. destruct E as (j & Ej & Rj). rewrite !app_nil_r in Ej. subst. eauto.
  - rewrite (interp_catch_err _ _ _ _ _ _ e) in R; [discriminate| |exact E].
    intros t' b s0 e0 He. cbn [contig reader] in He. destruct (split_at (length b) s0) as [[? ?]|]; inversion He; reflexivity.
Qed.
Lemma costs_impl : forall A (p : prog A) vf (Q Q' : A -> nat -> Prop),
  costs p vf Q -> (forall a n, Q a n -> Q' a n) -> costs p vf Q'.
Proof. intros A p vf Q Q' H HQ i a vf' R. destruct (H _ _ _ R). auto. Qed.
Lemma costs_leave : forall E t x A (k : prog A) vf Q, costs k vf Q -> costs (leave E t x k) vf Q.
Proof. intros. unfold leave. destruct (movec E t); auto using costs_note. Qed.
Lemma costs_leave_elem : forall E c t x A (k : prog A) vf Q, costs k vf Q -> costs (leave_elem E c t x k) vf Q.
Proof.
  intros * H. pose proof (fun t x => costs_leave E t x A k vf Q H) as Hl. unfold leave_elem.
  destruct c as [mu [|]|mu [|]]; try apply Hl; destruct t; try apply Hl; destruct x; try apply Hl;
    destruct l as [|ke [|ve [|]]]; try apply Hl; apply costs_note, Hl.
Qed.

Lemma sum_cons : forall A (h : A -> nat) x l, list_sum (map h (x :: l)) = h x + list_sum (map h l).
Proof. reflexivity. Qed.

(** A loop over elements; [P]: what is asked of an element and its origin. *)
Lemma costs_mapP : forall A B (g : A -> prog B) (K P : B -> A -> Prop) (h : B -> nat) ws,
  (forall w, costs (g w) false (fun x n => K x w /\ (P x w -> h x <= n))) ->
  costs (mapP g ws) false (fun xs n => Forall2 K xs ws /\
    (Forall2 P xs ws -> list_sum (map h xs) <= n)).
Proof.
  intros A B g K P h ws Hg. induction ws as [|w ws IH]; cbn [mapP].
  - apply costs_ret. cbn. auto with arith.
  - eapply costs_bind; [apply Hg|]. intros x n (Hk & Hx). cbn beta.
    eapply costs_bind; [exact IH|]. intros xs m (Hl & Hxs). apply costs_ret. cbn beta. split; [auto|].
    intros H. inversion H; subst. specialize (Hx H3). specialize (Hxs H5). rewrite sum_cons. lia.
Qed.

Lemma concat_len : forall A (l : list (list A)), length (concat l) = list_sum (map (@length A) l).
Proof. induction l; auto. cbn [concat]. rewrite app_length, IHl. reflexivity. Qed.
Lemma list_sum_perm : forall l l', Permutation l l' -> list_sum l = list_sum l'.
Proof. intros l l' H. unfold list_sum. induction H; cbn; lia. Qed.
Lemma map_const_sum : forall A (h : A -> nat) k l, (forall x, In x l -> h x = k) -> list_sum (map h l) = length l * k.
Proof. induction l; intros H; auto. rewrite sum_cons, (H a), IHl; cbn; auto. intros; apply H; now right. Qed.

Section Inflate.
Variable F : N -> Prop.
Variable E : env.
Hypothesis wf : wf_env F E.
Notation C := (fun _ _ : N => True).
Notation m := MUnpacking.
Notation nv := (fun l => forallb no_variants l = true).

Definition fl : nat := if chk E then 12 else 0.
Lemma framed_len : forall t n b, length (framed E t n b) = fl + length b.
Proof. intros. unfold framed, fl. destruct (chk E); auto. rewrite !app_length, !le_length. lia. Qed.
Lemma enc_len : forall t x, length (enc E t x) = fl + length (encb E t x).
Proof. intros. apply framed_len. Qed.
Lemma recon_target : forall t v d, has_ty E t v -> recon E t = Some d -> target C E t v d.
Proof. intros. eapply recon_tgt; eauto. Qed.
Lemma dflt_target : forall t v d, has_ty E t v -> dflt E t = Some d -> target C E t v d.
Proof. intros. eapply dflt_tgt; eauto. Qed.
Lemma nv_in : forall l x, forallb no_variants l = true -> In x l -> no_variants x = true.
Proof. intros l x H Hi. rewrite forallb_forall in H. auto. Qed.

(** Objects of classes keep their dynamic type. *)
Definition kept (x w : val) : Prop :=
  match w with VObj d _ => exists ls', x = VObj d ls' | _ => True end.

(** What is asked of a value that was read into [w]. *)
Definition fine (t : ty) (x w : val) : Prop :=
  has_ty E t x /\ target C E t x w /\ no_variants x = true.

(** No polymorphic class is copied bytewise. *)
Hypothesis Hnb : forall c, is_virtual E (TClass c) = true -> bytecopy E (TClass c) = false.

Section Level.
Variable rec : ty -> list val -> prog (list val).
Hypothesis Hrec : forall t ws, costs (rec t ws) false (fun xs n => Forall2 kept xs ws /\
  (arr_ok E t xs -> Forall2 (tgt E C t) xs ws -> forallb no_variants xs = true ->
   fl + length (concat (map (encb E t) xs)) <= n)).
Hypothesis Hprim : forall id sz b, length b = sz -> costs (rec (TPrim id sz) [VB b]) false
  (fun xs n => exists b', xs = [VB b'] /\ length b' = sz /\ fl + sz <= n).

Lemma s_ser' : forall t w, costs (ser rec t w) false (fun x n => kept x w /\ (holds E t x -> tgt E C t x w ->
  no_variants x = true -> length (enc E t x) <= n)).
Proof.
  intros t w. unfold ser. eapply costs_bind; [apply Hrec|]. intros xs n (Hl & H). cbn beta.
  destruct xs as [|x [|]]; try apply costs_fail. apply costs_ret.
  split; [inversion Hl; auto|]. intros Hh Ht Hn. rewrite enc_len. specialize (H ltac:(split; [auto|split; [discriminate|auto]])).
  specialize (H ltac:(auto)). cbn [forallb] in H. rewrite Hn in H. specialize (H eq_refl).
  cbn [map concat] in H. rewrite app_nil_r in H. lia.
Qed.
Lemma s_ser : forall t w, costs (ser rec t w) false (fun x n => fine t x w -> length (enc E t x) <= n).
Proof.
  intros t w. eapply costs_impl; [apply s_ser'|]. cbn beta. intros x n (_ & H) (H1 & H2 & H3).
  apply H; auto; constructor; auto.
Qed.
Lemma s_word : forall id sz x, costs (ser_word rec id sz x) false (fun _ n => fl + sz <= n).
Proof.
  intros id sz x. unfold ser_word, ser.
  eapply (costs_bind _ _ _ _ _ (fun v n => exists b, v = VB b /\ fl + sz <= n)).
  - eapply costs_bind; [apply Hprim, le_length|]. intros xs n (b & -> & _ & H). apply costs_ret. exists b. split; auto. lia.
  - intros v n (b & -> & H). apply costs_ret. lia.
Qed.
Lemma s_sizet : forall x, costs (ser_size rec x) false (fun _ n => fl + 8 <= n).
Proof. intros. apply s_word. Qed.
Lemma s_bool : forall b, costs (ser_bool rec b) false (fun _ n => fl + 1 <= n).
Proof.
  intros b. unfold ser_bool. eapply costs_bind; [apply s_word|]. cbn beta. intros a n H.
  destruct (N.eqb a 0); [apply costs_ret; lia|]. destruct (N.eqb a 1); [apply costs_ret; lia|apply costs_fail].
Qed.
Lemma wsize_len : forall x, length (wsize E x) = fl + 8.
Proof. intros. unfold wsize. now rewrite framed_len, le_length. Qed.
Lemma wbool_len : forall x, length (wbool E x) = fl + 1.
Proof. intros. unfold wbool. now rewrite framed_len, le_length. Qed.
Lemma wint_len : forall x, length (wint E x) = fl + 4.
Proof. intros. unfold wint. now rewrite framed_len, le_length. Qed.

Lemma s_array : forall t ws, costs (ser_array rec t ws) false (fun xs n => length xs = length ws /\
  (Forall2 (fine t) xs ws -> (is_virtual E t = true -> length xs <= 1) ->
   length (warray E t (map (encb E t) xs)) <= n)).
Proof.
  intros t ws. unfold ser_array. destruct ws as [|w ws].
  { apply costs_ret. split; auto. }
  eapply costs_impl; [apply Hrec|]. cbn beta. intros xs n (Hl & H). apply Forall2_length in Hl. split; auto. intros Hf Hv.
  destruct xs as [|x xs]; [discriminate|].
  assert (Hlen : length (warray E t (map (encb E t) (x :: xs))) = fl + length (concat (map (encb E t) (x :: xs)))).
  { unfold warray. cbn [map]. apply framed_len. }
  rewrite Hlen. apply H.
  - split; [|split; [discriminate|intros Hv'; specialize (Hv Hv'); cbn in *; lia]].
    clear - Hf. induction Hf as [|a b la lb (H1 & _ & _)]; constructor; auto. now constructor.
  - clear - Hf. induction Hf as [|a b la lb (_ & H1 & _)]; constructor; auto. now constructor.
  - clear - Hf. induction Hf as [|a b la lb (_ & _ & H1)]; cbn; auto. now rewrite H1.
Qed.
Lemma s_construct : forall t, costs (construct E t) false (fun d n => recon E t = Some d).
Proof. intros t. unfold construct. apply costs_note, costs_of. auto. Qed.

(** A new object is constructed and read. *)
Lemma s_new : forall t, costs (bind (construct E t) (fun d => ser rec t d)) false
  (fun x n => has_ty E t x -> no_variants x = true -> length (enc E t x) <= n).
Proof.
  intros t. eapply costs_bind; [apply s_construct|]. intros d n Hd. cbn beta.
  eapply costs_impl; [apply s_ser|]. cbn beta. intros x k H H1 H2.
  specialize (H (conj H1 (conj (recon_target _ _ _ H1 Hd) H2))). lia.
Qed.
Lemma s_new_then : forall A t (k : val -> prog A) Q,
  (forall x n, (has_ty E t x -> no_variants x = true -> length (enc E t x) <= n) ->
     costs (k x) false (fun a j => Q a (n + j))) ->
  costs (bind (construct E t) (fun d => bind (ser rec t d) k)) false Q.
Proof.
  intros A t k Q H i a vf' R.
  assert (R' : reads (bind (bind (construct E t) (fun d => ser rec t d)) k) vf' i a vf' \/ True) by auto. clear R'.
  apply reads_inv_bind in R. destruct R as (i1 & d & vf1 & i2 & -> & R1 & R2).
  apply reads_inv_bind in R2. destruct R2 as (i3 & x & vf2 & i4 & -> & R3 & R4).
  destruct (s_construct t _ _ _ R1) as (-> & Hd). destruct (s_ser t d _ _ _ R3) as (-> & Hx).
  cbn beta in *. destruct (H x (length i1 + length i3)) with (i := i4) (a := a) (vf' := vf') as (-> & HQ); auto.
  { intros H1 H2. specialize (Hx (conj H1 (conj (recon_target _ _ _ H1 Hd) H2))). lia. }
  split; auto. rewrite !app_length. now rewrite <- Nat.add_assoc in HQ.
Qed.

Notation sum t := (fun l => list_sum (map (fun x => length (enc E t x)) l)).
Lemma concat_enc : forall t l, length (concat (map (enc E t) l)) = sum t l.
Proof. intros. now rewrite concat_len, map_map. Qed.

Lemma s_push : forall t k l, costs
  (foldP (fun acc (_ : unit) => bind (construct E t) (fun d => bind (ser rec t d) (fun x =>
     leave E t x (Ret (acc ++ [x]))))) (repeat tt k) l) false
  (fun xs n => exists ys, xs = l ++ ys /\ (Forall (has_ty E t) ys -> forallb no_variants ys = true -> sum t ys <= n)).
Proof.
  intros t k. induction k as [|k IH]; intros l; cbn [repeat foldP].
  - apply costs_ret. exists []. rewrite app_nil_r. cbn. auto.
  - eapply (costs_bind _ _ _ _ _ (fun xs n => exists x, xs = l ++ [x] /\
      (has_ty E t x -> no_variants x = true -> length (enc E t x) <= n))).
    + apply s_new_then. intros x n Hx. apply costs_leave, costs_ret. exists x. rewrite Nat.add_0_r. auto.
    + intros xs n (x & -> & Hx). eapply costs_impl; [apply IH|]. cbn beta. intros zs j (ys & -> & Hy).
      exists (x :: ys). rewrite <- app_assoc. split; auto. intros H1 H2. inversion H1; subst.
      cbn [forallb] in H2. apply andb_prop in H2. destruct H2 as (Ha & Hb).
      rewrite sum_cons. match goal with
        | Hc : has_ty E t x, Hd : Forall _ ys |- _ => specialize (Hx Hc Ha); specialize (Hy Hd Hb) end. lia.
Qed.

(** Lists without variants of fine elements. *)
Lemma fine_resize : forall t xs ws d k, length xs = k -> Forall (has_ty E t) xs -> forallb no_variants xs = true ->
  pairwise (target C E t) xs ws -> (forall x, has_ty E t x -> target C E t x d) ->
  Forall2 (fine t) xs (resize k d ws).
Proof.
  intros t xs ws d k <- Ht Hn Hp Hd.
  assert (H : Forall2 (target C E t) xs (resize (length xs) d ws)).
  { apply resize_pairwise; auto. intros v Hv. apply Hd. rewrite Forall_forall in Ht. auto. }
  revert Ht Hn. generalize dependent (resize (length xs) d ws). intros zs H. clear - H.
  induction H as [|x w xs' zs' H1 H2 IH]; intros Ht Hn; constructor; inversion Ht; subst;
    cbn [forallb] in Hn; apply andb_prop in Hn; destruct Hn; auto. split; auto.
Qed.

Lemma s_vector_data : forall t k l, costs (construct_vector_data E t k l) false
  (fun l1 n => forall xs, length xs = length l1 -> Forall (has_ty E t) xs -> forallb no_variants xs = true ->
     (defc E t = true \/ copyc E t = true \/ l = []) -> pairwise (target C E t) xs l -> Forall2 (fine t) xs l1).
Proof.
  intros t k l. unfold construct_vector_data. destruct (defc E t) eqn:Ed.
  - eapply costs_bind; [apply costs_of with (Q := fun d n => dflt E t = Some d); auto|]. intros d n Hd. apply costs_ret.
    intros xs Hl H1 H2 _ Hp. rewrite resize_length in Hl. eapply fine_resize; eauto. intros. eapply dflt_target; eauto.
  - destruct (copyc E t) eqn:Ec.
    + eapply costs_bind; [apply s_construct|]. intros d n Hd. cbn beta in *. apply costs_note, costs_ret.
      intros xs Hl H1 H2 _ Hp. rewrite resize_length in Hl. eapply fine_resize; eauto. intros. eapply recon_target; eauto.
    + assert (G : forall k l, costs
        (foldP (fun acc (_ : unit) => bind (construct E t) (fun d => leave E t d (Ret (acc ++ [d])))) (repeat tt k) l)
        false (fun l1 n => exists ds, l1 = l ++ ds /\ Forall (fun d => recon E t = Some d) ds)).
      { clear k l. induction k as [|k IH]; intros l; cbn [repeat foldP].
        - apply costs_ret. exists []. rewrite app_nil_r. auto.
        - eapply (costs_bind _ _ _ _ _ (fun xs n => exists x, xs = l ++ [x] /\ recon E t = Some x)).
          + eapply costs_bind; [apply s_construct|]. intros d n Hd. cbn beta in *. apply costs_leave, costs_ret. eauto.
          + intros xs n (x & -> & Hx). eapply costs_impl; [apply IH|]. cbn beta. intros zs j (ds & -> & Hds).
            exists (x :: ds). rewrite <- app_assoc. auto. }
      eapply costs_impl; [apply G|]. cbn beta. intros l1 n (ds & -> & Hds) xs Hl H1 H2 [H|[H| ->]] _; try discriminate.
      cbn [app] in *. revert ds Hl Hds. induction xs as [|x xs IHx]; intros [|d ds] Hl Hds; try discriminate; constructor;
        inversion H1; inversion Hds; subst; cbn [forallb] in H2; apply andb_prop in H2; destruct H2; auto.
      split; auto. split; auto. eapply recon_target; eauto.
Qed.

Lemma s_vector : forall t cap l, costs (ser_vector E m rec t cap l) false (fun x n =>
  fine (TVector t) x (VVec cap l) -> length (encb E (TVector t) x) <= n).
Proof.
  intros t cap l. unfold ser_vector, ser_vector_meta. cbn [is_footprinting is_unpacking].
  eapply (costs_bind _ _ _ _ _ (fun _ n => 2 * (fl + 8) <= n)).
  { eapply costs_bind; [apply s_sizet|]. intros a n Ha. cbn beta in *. eapply costs_bind; [apply s_sizet|].
    intros b j Hb. apply costs_ret. cbn beta in *. lia. }
  intros (cap', k) n0 H0. cbn beta iota in *.
  eapply costs_bind; [apply s_vector_data|]. intros l1 n1 H1. cbn beta in *.
  eapply costs_bind; [apply s_array|]. intros l2 n2 (Hl & H2). apply costs_ret.
  intros (Ht & Hg & Hn). inversion Ht; subst. inversion Hg; subst. cbn [no_variants] in Hn.
  cbn [encb]. rewrite !app_length, !wsize_len.
  assert (Hf : Forall2 (fine t) l2 l1) by auto.
  specialize (H2 Hf ltac:(auto)). lia.
Qed.

Lemma unchars_inv : forall l b, unchars l = Some b -> l = chars b.
Proof.
  induction l as [|v l IH]; intros b H; cbn in H; [inversion H; auto|].
  destruct v as [[|c [|]]| | | | | | | |]; try discriminate. destruct (unchars l) as [b'|]; inversion H; subst.
  cbn. f_equal. now apply IH.
Qed.
Lemma s_string : forall cap b, costs (ser_string E m rec cap b) false (fun x n =>
  fine TString x (VStr cap b) -> length (encb E TString x) <= n).
Proof.
  intros cap b. unfold ser_string. cbn [is_footprinting].
  eapply costs_bind; [apply s_sizet|]. intros k n0 H0. cbn beta in *.
  eapply costs_bind; [apply s_array|]. intros l n1 (Hl & H1). cbn beta in *.
  eapply costs_bind; [apply costs_of with (Q := fun a n => unchars l = Some a); auto|].
  intros b2 n2 Hb. cbn beta in *. apply unchars_inv in Hb. subst l. apply costs_ret. intros _.
  cbn [encb]. rewrite app_length, wsize_len. 
  assert (Hc : map (encb E CHAR) (chars b2) = map (fun c => [c]) b2) by (unfold chars; rewrite map_map; reflexivity).
  rewrite Hc in H1. clear Hc.
  assert (Hf : Forall2 (fine CHAR) (chars b2) (chars (resize (N.to_nat k) Byte.x00 b))).
  { unfold chars in *. rewrite !map_length in Hl. apply Forall2_of_nth; [now rewrite !map_length|].
    intros i x y Hx Hy. rewrite nth_error_map in Hx, Hy.
    destruct (nth_error b2 i); inversion Hx. destruct (nth_error (resize _ _ _) i); inversion Hy.
    split; [|split]; auto; constructor; auto. }
  specialize (H1 Hf ltac:(discriminate)). lia.
Qed.
Lemma s_vecbool : forall cap l, costs (ser_vecbool E m rec cap l) false (fun x n =>
  fine TVecBool x (VVec cap l) -> length (encb E TVecBool x) <= n).
Proof.
  intros cap l. unfold ser_vecbool, ser_vector_meta. cbn [is_footprinting is_unpacking].
  eapply (costs_bind _ _ _ _ _ (fun _ n => 2 * (fl + 8) <= n)).
  { eapply costs_bind; [apply s_sizet|]. intros a n Ha. cbn beta in *. eapply costs_bind; [apply s_sizet|].
    intros b j Hb. apply costs_ret. cbn beta in *. lia. }
  intros (cap', k) n0 H0. cbn beta iota in *.
  eapply costs_bind.
  { apply (costs_mapP _ _ _ (fun _ _ => True) (fun _ _ => True) (fun _ => fl + 1)). intros w.
    eapply costs_bind; [apply s_bool|]. intros b n Hb. apply costs_ret. cbn beta in *. split; auto. lia. }
  intros l2 n1 (HK & H1). apply costs_ret. intros (Ht & _ & _). inversion Ht; subst.
  specialize (H1 HK). cbn [encb]. rewrite !app_length, !wsize_len, concat_len, map_map.
  rewrite (map_const_sum _ _ (fl + 1)) in H1 by auto. rewrite (map_const_sum _ _ (fl + 1)).
  - lia.
  - intros x Hx. rewrite framed_len. match goal with H : Forall _ l2 |- _ => rewrite Forall_forall in H;
      destruct (H x Hx) as [-> | ->] end; reflexivity.
Qed.
Lemma s_list : forall dq t l, costs (ser_list E m rec (TList dq t) t l) false (fun x n =>
  fine (TList dq t) x (VSeq l) -> length (encb E (TList dq t) x) <= n).
Proof.
  intros dq t l. unfold ser_list, ser_container_size. cbn [is_footprinting is_unpacking].
  eapply costs_bind; [apply s_sizet|]. intros k n0 H0. cbn beta in *.
  eapply (costs_bind _ _ _ _ _ (fun xs n => fine (TList dq t) (VSeq xs) (VSeq l) -> sum t xs <= n)).
  - unfold deser_ordered. destruct (copyc E t) eqn:Ec.
    + eapply costs_bind; [apply s_construct|]. intros d n1 Hd. cbn beta in *. apply costs_note.
      eapply costs_impl.
      { apply (costs_mapP _ _ _ (fun _ _ => True) (fine t) (fun x => length (enc E t x))). intros w.
        eapply costs_impl; [apply s_ser|]. auto. }
      cbn beta. intros xs n (HK & H) (Ht & Hg & Hn). inversion Ht; subst. inversion Hg; subst. cbn [no_variants] in Hn.
      apply Forall2_length in HK. rewrite resize_length in HK.
      specialize (H ltac:(eapply fine_resize; eauto; intros; eapply recon_target; eauto)). lia.
    + eapply costs_impl; [apply s_push|]. cbn beta. intros xs n (ys & -> & H) (Ht & Hg & Hn). inversion Ht; subst.
      inversion Hg; subst. match goal with H : _ \/ _ |- _ => destruct H as [?| ->]; [congruence|] end.
      cbn [app no_variants] in *. auto.
  - intros xs n1 H1. apply costs_ret. intros Hf. specialize (H1 Hf). cbn [encb]. rewrite app_length, wsize_len.
    change (fun x => framed E t 1 (encb E t x)) with (enc E t). rewrite concat_enc. lia.
Qed.
Lemma s_queue : forall t l, costs (ser_queue E m rec t l) false (fun x n =>
  fine (TQueue t) x (VSeq l) -> length (encb E (TQueue t) x) <= n).
Proof.
  intros t l. unfold ser_queue, ser_container_size. cbn [is_footprinting is_unpacking].
  eapply costs_bind; [apply s_sizet|]. intros k n0 H0. cbn beta in *.
  eapply costs_bind; [apply s_push|]. cbn beta. intros xs n1 (ys & -> & H). apply costs_ret.
  intros (Ht & Hg & Hn). inversion Ht; subst. inversion Hg; subst. cbn [app no_variants] in *.
  match goal with H' : Forall _ ys |- _ => specialize (H H' Hn) end.
  cbn [encb]. rewrite app_length, wsize_len.
  change (fun x => framed E t 1 (encb E t x)) with (enc E t). rewrite concat_enc. lia.
Qed.

Lemma emplace_cost : forall k t c x c', emplace E k t c x = Some c' ->
  exists l l', elements c = Some l /\ elements c' = Some l' /\ incl l l' /\
    (l' = l \/ Permutation l' (x :: l)).
Proof.
  intros k t c x c' H. unfold emplace in H. destruct k as [mu mp|mu mp]; destruct c; try discriminate;
    match type of H with (if ?b then _ else _) = _ => destruct b end; inversion H; subst; do 2 eexists;
    (split; [reflexivity|split; [reflexivity|]]).
  - split; auto using incl_refl.
  - split; [|right; apply RobustFacts.insert_sorted_perm]. intros y Hy.
    eapply Permutation_in; [symmetry; apply RobustFacts.insert_sorted_perm|now right].
  - split; auto using incl_refl.
  - split; [|right; apply (wf_hplace _ _ wf)]. intros y Hy.
    eapply Permutation_in; [symmetry; apply (wf_hplace _ _ wf)|now right].
Qed.
Lemma s_emplace : forall a t k c, costs (deser_emplace E rec a t k c) false (fun c' n =>
  forall l, elements c = Some l -> exists l', elements c' = Some l' /\ incl l l' /\
    (Forall (has_ty E t) l' -> forallb no_variants l' = true -> sum t l' <= sum t l + n)).
Proof.
  intros a t k. unfold deser_emplace. induction k as [|k IH]; intros c; cbn [repeat foldP].
  - apply costs_ret. intros l Hl. exists l. split; auto. split; auto using incl_refl. lia.
  - eapply (costs_bind _ _ _ _ _ (fun c1 n => exists x l l1, elements c = Some l /\ elements c1 = Some l1 /\
      incl l l1 /\ (l1 = l \/ Permutation l1 (x :: l)) /\
      (has_ty E t x -> no_variants x = true -> length (enc E t x) <= n))).
    + apply s_new_then. intros x n Hx. apply costs_leave_elem. apply costs_of. intros c1 Hc.
      apply emplace_cost in Hc. destruct Hc as (l & l1 & H1 & H2 & H3 & H4). exists x, l, l1.
      rewrite Nat.add_0_r. auto.
    + intros c1 n (x & l & l1 & H1 & H2 & H3 & H4 & H5). eapply costs_impl; [apply IH|]. cbn beta.
      intros c2 j H l0 Hl0. assert (l0 = l) by congruence. subst l0.
      destruct (H _ H2) as (l' & G1 & G2 & G3). exists l'. split; auto. split; [eapply incl_tran; eauto|].
      intros Ht Hn. specialize (G3 Ht Hn). destruct H4 as [-> | HP]; [lia|].
      assert (Hin : In x l') by (apply G2; eapply Permutation_in; [symmetry; exact HP|now left]).
      rewrite Forall_forall in Ht. specialize (H5 (Ht _ Hin) (nv_in _ _ Hn Hin)).
      rewrite (list_sum_perm _ _ (Permutation_map (fun x => length (enc E t x)) HP)), sum_cons in G3. lia.
Qed.
Lemma s_assoc : forall a t c, costs (ser_assoc E m rec a t c) false (fun x n =>
  fine (TAssoc a t) x c -> length (encb E (TAssoc a t) x) <= n).
Proof.
  intros a t c. unfold ser_assoc, ser_container_size. cbn [is_footprinting is_unpacking].
  eapply costs_bind; [apply costs_of with (Q := fun l n => elements c = Some l); auto|].
  intros l n Hl. cbn beta in *. eapply costs_bind; [apply s_sizet|]. intros k n0 H0. cbn beta in *.
  eapply costs_impl; [apply s_emplace|]. cbn beta. intros x j H (Ht & Hg & Hn).
  destruct (H _ Hl) as (l' & G1 & _ & G3).
  assert (l = []) by (inversion Hg; subst; cbn in Hl; congruence). subst l.
  assert (Hx : Forall (has_ty E t) l' /\ forallb no_variants l' = true /\
     length (encb E (TAssoc a t) x) = (fl + 8) + sum t l').
  { inversion Ht; subst; cbn in G1; inversion G1; subst; (split; [auto|split; [auto|]]);
      cbn [encb]; rewrite app_length, wsize_len;
      change (fun x => framed E t 1 (encb E t x)) with (enc E t); now rewrite concat_enc. }
  destruct Hx as (X1 & X2 & X3). specialize (G3 X1 X2). cbn [map] in G3. change (list_sum []) with 0 in G3. lia.
Qed.
Lemma s_pair : forall a b x y, costs (ser_pair E rec a b x y) false (fun z n =>
  fine (TPair a b) z (VSeq [x; y]) -> length (encb E (TPair a b) z) <= n).
Proof.
  intros a b x y. unfold ser_pair. apply costs_count.
  eapply costs_bind; [apply s_ser|]. intros x' n Hx. cbn beta in *.
  eapply costs_bind; [apply s_ser|]. intros y' j Hy. apply costs_ret. cbn beta in *.
  intros (Ht & Hg & Hn). inversion Ht; subst. inversion Hg; subst. cbn [no_variants forallb] in Hn.
  apply andb_prop in Hn. destruct Hn as (N1 & N2). rewrite andb_true_r in N2.
  specialize (Hx ltac:(split; auto)). specialize (Hy ltac:(split; auto)).
  change (encb E (TPair a b) (VSeq [x'; y'])) with (enc E a x' ++ enc E b y'). rewrite app_length. lia.
Qed.
Lemma s_tuple : forall ts l, costs (ser_tuple rec ts l) false (fun xs n =>
  Forall2 (has_ty E) ts xs -> Forall2 (fun t p => target C E t (fst p) (snd p)) ts (combine xs l) ->
  forallb no_variants xs = true -> length (concat (zipenc E ts xs)) <= n).
Proof.
  induction ts as [|t ts IH]; intros [|v l]; cbn [ser_tuple]; try apply costs_fail.
  - apply costs_ret. cbn. auto.
  - eapply costs_bind; [apply s_ser|]. intros x n Hx. cbn beta in *.
    eapply costs_bind; [apply IH|]. intros xs j Hxs. apply costs_ret. cbn beta in *. intros H1 H2 H3.
    inversion H1; subst. cbn [combine] in H2. inversion H2; subst. cbn [forallb] in H3. apply andb_prop in H3. destruct H3.
    specialize (Hx ltac:(split; auto)). specialize (Hxs ltac:(auto) ltac:(auto) ltac:(auto)).
    cbn [zipenc concat]. rewrite app_length. lia.
Qed.
Lemma s_optional : forall t o, costs (ser_optional E m rec t o) false (fun x n =>
  fine (TOptional t) x (VOpt o) -> length (encb E (TOptional t) x) <= n).
Proof.
  intros t o. unfold ser_optional. cbn [is_footprinting is_unpacking].
  eapply costs_bind; [apply s_bool|]. intros [] n H; cbn beta iota in *.
  - apply s_new_then. intros x j Hx. apply costs_note, costs_ret. intros (Ht & _ & Hn). inversion Ht; subst.
    cbn [no_variants] in Hn. specialize (Hx ltac:(auto) Hn).
    change (encb E (TOptional t) (VOpt (Some x))) with (wbool E true ++ enc E t x).
    rewrite app_length, wbool_len. lia.
  - apply costs_ret. intros _. cbn [encb]. rewrite wbool_len. lia.
Qed.
Lemma s_entry : forall ts v entry cur, costs (ser_entry E m rec ts v entry cur) false
  (fun x _ => x = v \/ exists i y, x = VVar i y).
Proof.
  induction ts as [|t ts IH]; intros v entry cur; cbn [ser_entry]; [apply costs_ret; auto|].
  destruct (N.eqb entry (N.of_nat cur)); [|apply IH]. cbn [is_unpacking].
  apply s_new_then. intros x n _. apply costs_leave, costs_ret. eauto.
Qed.
Lemma s_variant : forall ts v, costs (ser_variant E m rec ts v) false (fun x n => no_variants x = false).
Proof.
  intros ts v. unfold ser_variant.
  eapply costs_bind; [apply costs_of with (Q := fun i n => variant_index v = Some i); auto|].
  intros i n Hi. cbn beta in *. eapply costs_bind; [apply s_sizet|]. intros e j _. cbn beta in *.
  eapply costs_impl; [apply s_entry|]. cbn beta. intros x _ [-> | (i' & y & ->)]; auto.
  destruct v; try discriminate; auto.
Qed.
Hypothesis Hflag : forall c d ls, is_virtual E (TClass c) = true -> costs (rec (TClass c) [VObj d ls]) true
  (fun xs n => exists fs fs', nth_error ls (level E c) = Some fs /\ xs = [VObj d (upd ls (level E c) fs')] /\
     (lvl_ok E c fs' -> lvl_tgt E C c fs' fs -> forallb no_variants fs' = true ->
      fl + length (wmembers E (c, zipenc E (wfields E c) fs')) <= n)).

Lemma recon_class : forall d o, is_virtual E (TClass d) = true -> recon E (TClass d) = Some o ->
  exists ls, o = VObj d ls.
Proof.
  intros d o Hv H. pose proof (Hnb d Hv) as Hb. cbn [recon bytecopy] in *. destruct (cls E d) as [k|]; [|discriminate].
  rewrite Hb in H. cbn [andb] in H. destruct (first_some _ _); inversion H. eauto.
Qed.
Lemma in_chain : forall c d, existsb (Nat.eqb c) (chain E d) = true -> In c (chain E d).
Proof. intros c d H. apply existsb_exists in H. destruct H as (x & H1 & H2). apply Nat.eqb_eq in H2. now subst. Qed.

Lemma s_pointed : forall t p, costs (reconstruct_pointed E m rec t p) false (fun o n => forall v, o = Some v ->
  (is_virtual E t = true -> fl + 4 <= n) /\
  (forall x, kept x v -> has_ty E (TUnique t) (VOpt (Some x)) ->
     target C E (TUnique t) (VOpt (Some x)) (VOpt p) -> holds E t x /\ tgt E C t x v)).
Proof.
  intros t p.
  assert (Hplain : is_virtual E t = false -> costs
    (match p with Some v => Ret (Some v) | None =>
       if is_unpacking m then bind (construct E t) (fun o => Ret (Some o)) else Ret None end) false
    (fun o n => forall v, o = Some v -> (is_virtual E t = true -> fl + 4 <= n) /\
      (forall x, kept x v -> has_ty E (TUnique t) (VOpt (Some x)) ->
         target C E (TUnique t) (VOpt (Some x)) (VOpt p) -> holds E t x /\ tgt E C t x v))).
  { intros Hv. destruct p as [w|].
    - apply costs_ret. intros v Hw. inversion Hw; subst. split; [congruence|]. intros x _ Ht Hg.
      inversion Ht; subst; [|congruence]. inversion Hg; subst; [|congruence]. split; constructor; auto.
    - cbn [is_unpacking]. eapply costs_bind; [apply s_construct|]. intros d n Hd. apply costs_ret. intros v Hw.
      inversion Hw; subst. split; [congruence|]. intros x _ Ht _. inversion Ht; subst; [|congruence].
      split; constructor; auto. eapply recon_target; eauto. }
  unfold reconstruct_pointed. destruct t; try (apply Hplain; reflexivity).
  destruct (is_virtual E (TClass c)) eqn:Ev; [|apply Hplain; auto]. clear Hplain.
  eapply (costs_bind _ _ _ _ _ (fun _ n => fl + 4 <= n)).
  { unfold ser_virtual_type. cbn [is_unpacking is_footprinting bind].
    eapply costs_bind; [apply s_word|]. intros e n He. cbn beta in *.
    destruct p as [w|]; [|apply costs_ret; lia].
    eapply (costs_bind _ _ _ _ _ (fun _ n => n = 0)).
    - unfold dyn_type_idx. destruct w; try apply costs_fail. destruct (obj_idx E c0).
      + now apply costs_ret.
      + destruct (cls E c0); [now apply costs_ret|apply costs_fail].
    - intros i j ->. destruct (_ || _); [apply costs_ret; lia|apply costs_fail]. }
  intros e n He. cbn beta in *. destruct p as [w|].
  - apply costs_ret. intros v Hw. inversion Hw; subst. split; [lia|]. intros x _ Ht Hg.
    inversion Ht; subst; [congruence|]. inversion Hg; subst; [congruence|]. split.
    + eapply HoldsDyn; eauto.
    + apply TgtDyn; auto.
  - cbn [is_unpacking]. eapply (costs_bind _ _ _ _ _ (fun o n => exists d, recon E (TClass d) = Some o /\ In c (chain E d))).
    + unfold construct_concrete. destruct (nth_error _ _) as [d|]; [|apply costs_fail]. apply costs_note.
      destruct (recon E (TClass d)) as [o|] eqn:Er; [|destruct (asserts E); apply costs_fail].
      destruct (existsb _ _) eqn:Ex; [|apply costs_fail]. apply costs_ret. exists d. split; auto. now apply in_chain.
    + intros o j (d & Hr & Hin). apply costs_ret. intros v Hw. inversion Hw; subst. split; [lia|]. intros x Hk Ht _.
      assert (Hvd : is_virtual E (TClass d) = true) by (rewrite <- (chain_virtual _ _ wf _ _ Hin); auto).
      destruct (recon_class _ _ Hvd Hr) as (ls0 & ->). cbn [kept] in Hk. destruct Hk as (ls' & ->).
      inversion Ht; subst; [congruence|]. split.
      * eapply HoldsDyn; eauto.
      * apply TgtDyn; auto. eapply recon_target; eauto.
Qed.
Lemma s_unique : forall t p, costs (ser_unique E m rec t p) false (fun x n =>
  fine (TUnique t) x (VOpt p) -> length (encb E (TUnique t) x) <= n).
Proof.
  intros t p. unfold ser_unique. cbn [is_footprinting is_unpacking].
  eapply costs_bind; [apply s_bool|]. intros [] n H; cbn beta iota in *.
  - apply costs_ret. intros _. cbn [encb]. rewrite wbool_len. lia.
  - eapply costs_bind; [apply s_pointed|]. intros [v|] n1 H1; [|apply costs_fail]. cbn beta in *.
    destruct (H1 v eq_refl) as (Hv & Hx). clear H1.
    eapply costs_bind; [apply s_ser'|]. intros x n2 (Hk & H2). apply costs_ret. cbn beta in *.
    intros (Ht & Hg & Hn). destruct (Hx x Hk Ht Hg) as (X1 & X2). specialize (H2 X1 X2 Hn).
    change (encb E (TUnique t) (VOpt (Some x))) with (wbool E false ++
      (if is_virtual E t
         then match x with
              | VObj d _ =>
                match obj_idx E d with Some i => wint E (N.of_nat i) | None => [] end
              | _ => []
              end
         else []) ++ enc E t x).
    rewrite !app_length, wbool_len.
    assert (length (if is_virtual E t
         then match x with
              | VObj d _ =>
                match obj_idx E d with Some i => wint E (N.of_nat i) | None => [] end
              | _ => []
              end
         else []) <= n1); [|lia].
    destruct (is_virtual E t); [|cbn; lia]. specialize (Hv eq_refl).
    destruct x; cbn [length]; try lia. destruct (obj_idx E c); cbn [length]; [rewrite wint_len|]; lia.
Qed.

Lemma s_members : forall ts is_ fs, costs (ser_members rec ts is_ fs) false (fun fs' n =>
  length fs' = length fs /\ (forall j, ~ In j is_ -> nth_error fs' j = nth_error fs j) /\
  (NoDup is_ -> (forall i t x w, In i is_ -> nth_error ts i = Some t -> nth_error fs' i = Some x ->
       nth_error fs i = Some w -> fine t x w) ->
   length (concat (map (fun i => nth i (zipenc E ts fs') []) is_)) <= n)).
Proof.
  intros ts. unfold ser_members. induction is_ as [|i is_ IH]; intros fs; cbn [foldP].
  - apply costs_ret. cbn. auto.
  - eapply (costs_bind _ _ _ _ _ (fun fs1 n => exists t v x, nth_error ts i = Some t /\ nth_error fs i = Some v /\
      fs1 = upd fs i x /\ (fine t x v -> length (enc E t x) <= n))).
    + destruct (nth_error ts i) as [t|] eqn:Et; [|apply costs_fail].
      destruct (nth_error fs i) as [v|] eqn:Ef; [|apply costs_fail].
      eapply costs_bind; [apply s_ser|]. intros x n Hx. apply costs_ret. cbn beta in *. exists t, v, x.
      rewrite Nat.add_0_r. auto.
    + intros fs1 n (t & v & x & Et & Ef & -> & Hx). eapply costs_impl; [apply IH|]. cbn beta.
      intros fs' j (Hl & Hu & Hs). rewrite upd_length in Hl. split; auto.
      assert (Hi : i < length fs) by (apply nth_error_Some; congruence). split.
      * intros k Hk. rewrite Hu by (intros Hc; apply Hk; now right). apply nth_error_upd_neq. intros ->. apply Hk. now left.
      * intros Hnd Hf. inversion Hnd; subst.
        assert (Hxi : nth_error fs' i = Some x) by (rewrite Hu by auto; now apply nth_error_upd_eq).
        specialize (Hx (Hf i t x v (or_introl eq_refl) Et Hxi Ef)).
        assert (Hs' : length (concat (map (fun i => nth i (zipenc E ts fs') []) is_)) <= j).
        { apply Hs; auto. intros i0 t0 x0 w0 Hin H1' H2' H3'. apply (Hf i0); auto; [now right|].
          rewrite nth_error_upd_neq in H3'; auto. intros ->. auto. }
        cbn [map concat]. rewrite app_length, (zipenc_nth _ _ _ _ _ _ Et Hxi). lia.
Qed.
Lemma s_static : forall c w, costs (apply_static E m rec c w) false (fun x n => exists d ls fs fs',
  w = VObj d ls /\ nth_error ls (level E c) = Some fs /\ x = VObj d (upd ls (level E c) fs') /\
  (lvl_ok E c fs' -> lvl_tgt E C c fs' fs -> forallb no_variants fs' = true ->
   length (wmembers E (c, zipenc E (wfields E c) fs')) <= n)).
Proof.
  intros c w. unfold apply_static. destruct w as [| | | | | | | |d ls]; try apply costs_fail.
  destruct (cls E c) as [k|] eqn:Ek; [|apply costs_fail].
  destruct (nth_error ls (level E c)) as [fs|] eqn:Ef; [|apply costs_fail]. apply costs_note.
  eapply costs_bind; [apply s_members|]. intros fs' n (Hl & _ & Hs). apply costs_note, costs_ret.
  exists d, ls, fs, fs'. repeat (split; auto). intros (k1 & Hk1 & _ & Hwk & Ht) (k2 & Hk2 & _ & Hg) Hn.
  assert (k1 = k) by congruence. assert (k2 = k) by congruence. subst k1 k2.
  rewrite (wfc_unpack _ Hwk) in Hs. unfold wmembers, wfields. cbn [fst snd]. rewrite Ek.
  rewrite Nat.add_0_r. apply Hs; [apply Hwk|]. intros i t x w _ H1 H2 H3. split; [|split].
  - exact (Forall2_nth _ _ _ _ _ _ _ _ Ht H1 H2).
  - eapply (Forall2_combine3 _ _ _ (target C E)); eauto.
  - eapply nv_in; eauto. eapply nth_error_In; eauto.
Qed.

Lemma s_elem : forall t w, bytecopy E t = false -> is_virtual E t = false ->
  costs (apply_elem E m rec t w) false (fun x n => kept x w /\ (fine t x w -> length (encb E t x) <= n)).
Proof.
  intros t w Hb Hv.
  assert (Hno : forall p Q, (match w with VObj _ _ => False | _ => True end) ->
    costs p false Q -> (forall x n, Q x n -> fine t x w -> length (encb E t x) <= n) ->
    costs p false (fun x n => kept x w /\ (fine t x w -> length (encb E t x) <= n))).
  { intros p Q Hw Hp HQ. eapply costs_impl; [exact Hp|]. cbn beta. intros x n H. split; eauto.
    destruct w; cbn; auto. destruct Hw. }
  destruct t; cbn [apply_elem]; try (destruct w; try apply costs_fail; fail).
  - destruct w as [b| | | | | | | |]; try apply costs_fail. eapply Hno; [exact I|apply s_ser|]. cbn beta.
    intros x n H (Ht & Hg & Hn). inversion Ht; subst. inversion Hg; subst.
    specialize (H ltac:(split; [constructor; auto|split; [constructor; auto|auto]])). exact H.
  - destruct w as [b| | | | | | | |]; try apply costs_fail. eapply Hno; [exact I|apply s_ser|]. cbn beta.
    intros x n H (Ht & Hg & Hn). inversion Ht; subst. inversion Hg; subst.
    specialize (H ltac:(split; [constructor; auto|split; [constructor; auto|auto]])). exact H.
  - destruct w; try apply costs_fail. eapply Hno; [exact I|apply s_string|auto].
  - destruct w; try apply costs_fail. eapply Hno; [exact I|apply s_vector|auto].
  - destruct w; try apply costs_fail. eapply Hno; [exact I|apply s_vecbool|auto].
  - destruct w as [| | |ws| | | | |]; try apply costs_fail. unfold ser_stdarray.
    eapply Hno; [exact I| |intros ? ? HQ; exact HQ].
    eapply costs_bind; [apply s_array|]. intros xs n0 (Hl & H). apply costs_ret. cbn beta.
    intros (Ht & Hg & Hn). inversion Ht; subst. inversion Hg; subst. cbn [no_variants] in Hn.
    rewrite Nat.add_0_r. apply H; auto. apply Forall2_of_nth; auto. intros i x y Hx Hy.
    split; [|split].
    + match goal with H : Forall (has_ty E t) xs |- _ => rewrite Forall_forall in H; apply H end. eapply nth_error_In; eauto.
    + match goal with H : Forall2 (target _ E t) xs ws |- _ => exact (Forall2_nth _ _ _ _ _ _ _ _ H Hx Hy) end.
    + eapply nv_in; eauto. eapply nth_error_In; eauto.
  - destruct w; try apply costs_fail. eapply Hno; [exact I|apply s_list|auto].
  - destruct w; try apply costs_fail. eapply Hno; [exact I|apply s_queue|auto].
  - destruct w; try (eapply Hno; [exact I|apply s_assoc|auto]; fail). apply costs_fail.
  - destruct w as [| | |[|x [|y [|]]]| | | | |]; try apply costs_fail. eapply Hno; [exact I|apply s_pair|auto].
  - destruct w as [| | |ws| | | | |]; try apply costs_fail. eapply Hno; [exact I| |intros ? ? HQ; exact HQ].
    eapply costs_bind; [apply s_tuple|]. intros xs n0 H. apply costs_ret. cbn beta in *.
    intros (Ht & Hg & Hn). inversion Ht; subst. inversion Hg; subst. cbn [no_variants] in Hn.
    rewrite encb_tuple, Nat.add_0_r. auto.
  - destruct w; try apply costs_fail. eapply Hno; [exact I|apply s_optional|auto].
  - destruct w; try (eapply Hno; [exact I|apply s_variant|]; cbn beta; intros x n Q (_ & _ & Hn); congruence).
    apply costs_fail.
  - destruct w; try apply costs_fail. eapply Hno; [exact I|apply s_unique|auto].
  - eapply costs_impl; [apply s_static|]. cbn beta. intros x n (d & ls & fs & fs' & -> & Hn & -> & H).
    split; [cbn; eauto|]. intros (Ht & Hg & Hnv).
    apply has_obj in Ht. destruct Ht as (-> & Hne & HF).
    assert (Hin : In c (chain E c)) by (eapply chain_self; eauto).
    destruct (obj_level _ _ wf _ _ _ Hin HF) as (k & fs1 & Hk & Hkb & Hn1 & _).
    assert (Hch : chain E c = [c]).
    { eapply (chain_static _ _ wf); eauto. cbn in Hv. now rewrite Hk in Hv. }
    pose proof (chain_level _ _ wf _ _ Hin) as Hlv. rewrite Hch in Hlv, HF.
    destruct (level E c) as [|l] eqn:El; [|destruct l; discriminate].
    inversion HF as [|? f1 ? r1 Hok HF' Ea Eb]; subst. inversion HF'; subst.
    destruct ls as [|f0 ls]; [discriminate|]. cbn in Hn. inversion Hn; subst f0.
    cbn [upd] in Eb. inversion Eb; subst. 
    inversion Hg; subst. rewrite encb_obj, Hv, Hch. cbn [levelenc map concat upd]. rewrite app_nil_r.
    cbn [no_variants forallb] in Hnv. cbn [upd forallb] in Hnv. rewrite andb_true_r in Hnv.
    apply H; auto. rewrite Hch in *. cbn [upd combine] in *.
    match goal with G : Forall2 _ [c] _ |- _ => inversion G; subst end. auto.
Qed.

Lemma s_chain : forall d cs ls, (forall c, In c cs -> is_virtual E (TClass c) = true) -> costs
  (foldP (fun v c => Note (EvRegistry c) (SetV true (ser rec (TClass c) v))) cs (VObj d ls)) false
  (fun x n => exists ls', x = VObj d ls' /\ length ls' = length ls /\
    (forall j, ~ In j (map (level E) cs) -> nth_error ls' j = nth_error ls j) /\
    (NoDup (map (level E) cs) ->
     (forall c fs fs', In c cs -> nth_error ls (level E c) = Some fs -> nth_error ls' (level E c) = Some fs' ->
        lvl_ok E c fs' /\ lvl_tgt E C c fs' fs /\ forallb no_variants fs' = true) ->
     length (concat (map (fun c => framed E (TClass c) 1
       (wmembers E (c, zipenc E (wfields E c) (nth (level E c) ls' [])))) cs)) <= n)).
Proof.
  intros d. induction cs as [|c cs IH]; intros ls Hv; cbn [foldP].
  - apply costs_ret. exists ls. cbn. auto.
  - eapply (costs_bind _ _ _ _ _ (fun v n => exists fs fs', nth_error ls (level E c) = Some fs /\
      v = VObj d (upd ls (level E c) fs') /\
      (lvl_ok E c fs' -> lvl_tgt E C c fs' fs -> forallb no_variants fs' = true ->
       fl + length (wmembers E (c, zipenc E (wfields E c) fs')) <= n))).
    + apply costs_note, costs_setv. unfold ser. eapply costs_bind; [apply Hflag; apply Hv; now left|].
      intros xs n (fs & fs' & H1 & -> & H2). apply costs_ret. exists fs, fs'. rewrite Nat.add_0_r. auto.
    + intros v n (fs & fs' & Hn & -> & Hc). eapply costs_impl; [apply IH; intros; apply Hv; now right|]. cbn beta.
      intros x j (ls' & -> & Hl & Hu & Hs). exists ls'. rewrite upd_length in Hl. split; auto. split; auto.
      assert (Hi : level E c < length ls) by (apply nth_error_Some; congruence). split.
      * cbn [map]. intros k Hk. rewrite Hu by (intros Hc'; apply Hk; now right). apply nth_error_upd_neq.
        intros Heq. apply Hk. now left.
      * cbn [map]. intros Hnd Hf. inversion Hnd; subst.
        assert (Hxi : nth_error ls' (level E c) = Some fs') by (rewrite Hu by auto; now apply nth_error_upd_eq).
        destruct (Hf c fs fs' (or_introl eq_refl) Hn Hxi) as (G1 & G2 & G3). specialize (Hc G1 G2 G3).
        assert (Hs' : length (concat (map (fun c => framed E (TClass c) 1
          (wmembers E (c, zipenc E (wfields E c) (nth (level E c) ls' [])))) cs)) <= j).
        { apply Hs; auto. intros c0 f0 f1 Hin H1' H2'. apply (Hf c0); auto; [now right|].
          rewrite nth_error_upd_neq in H1'; auto. intros Heq. apply H1. rewrite Heq. now apply in_map. }
        cbn [concat]. rewrite app_length, framed_len, (nth_error_nth _ _ _ Hxi). lia.
Qed.
Lemma levels_nodup : forall d, NoDup (map (level E) (chain E d)).
Proof.
  intros d. assert (G : map (level E) (chain E d) = seq 0 (length (chain E d))).
  { apply nth_ext with (d := 0) (d' := 0); [now rewrite map_length, seq_length|].
    intros i Hi. rewrite map_length in Hi. rewrite seq_nth by auto.
    destruct (nth_error (chain E d) i) as [c|] eqn:Ec; [|apply nth_error_None in Ec; lia].
    rewrite (nth_error_nth _ _ 0 (map_nth_error (level E) _ _ Ec)). cbn. eapply chain_nth_level; eauto. }
  rewrite G. apply seq_NoDup.
Qed.
Lemma s_dyn : forall c w, is_virtual E (TClass c) = true -> costs (dyn_serialize E rec w) false (fun x n =>
  kept x w /\ (holds E (TClass c) x -> tgt E C (TClass c) x w -> no_variants x = true ->
    length (encb E (TClass c) x) <= n)).
Proof.
  intros c w Hv. unfold dyn_serialize. destruct w as [| | | | | | | |d ls]; try apply costs_fail.
  destruct (is_virtual E (TClass d)) eqn:Ed; [|apply costs_fail].
  eapply costs_impl; [apply s_chain|].
  { intros c' Hin. now rewrite (chain_virtual _ _ wf _ _ Hin). }
  cbn beta. intros x n (ls' & -> & Hl & _ & H). split; [cbn; eauto|]. intros Hh Hg Hn.
  assert (Ht : has_ty E (TClass d) (VObj d ls')).
  { inversion Hh; subst; auto. match goal with Q : has_ty E _ _ |- _ => pose proof Q as Q' end.
    apply has_obj in Q'. destruct Q' as (-> & _). auto. }
  assert (Hg' : target C E (TClass d) (VObj d ls') (VObj d ls)).
  { inversion Hg; subst; auto. match goal with Q : target _ E _ _ _ |- _ => inversion Q; subst; auto end. }
  apply has_obj in Ht. destruct Ht as (_ & _ & HF).
  rewrite encb_obj, Hv, levels_by_chain.
  - apply H; [apply levels_nodup|]. intros c' fs fs' Hin H1 H2.
    pose proof (chain_level _ _ wf _ _ Hin) as Hlv. split; [|split].
    + exact (Forall2_nth _ _ _ _ _ _ _ _ HF Hlv H2).
    + inversion Hg'; subst. match goal with Q : Forall2 _ (chain E d) _, L : length ls' = length ls |- _ =>
        exact (Forall2_combine3 _ _ _ (lvl_tgt E C) _ _ _ Q L _ _ _ _ Hlv H2 H1) end.
    + cbn [no_variants] in Hn. rewrite forallb_forall in Hn. apply Hn. eapply nth_error_In; eauto.
  - exact (Forall2_length _ _ _ _ _ HF).
  - intros i c'. apply (chain_nth_level _ _ wf).
Qed.

Lemma kept_unflatten : forall t ws b, Forall2 kept (unflatten E t ws b) ws.
Proof.
  intros t. induction ws as [|w ws IH]; intros b; cbn [unflatten]; auto.
  destruct (obj_bytes E t w) as [x|] eqn:Ex; constructor; auto.
  - destruct w; cbn [kept]; auto. destruct t; cbn in Ex |- *; try discriminate; eauto.
  - destruct w; cbn [kept]; eauto.
Qed.
Lemma s_ap : forall t ws, costs (ap E m rec t ws) false (fun xs n => Forall2 kept xs ws /\
  (arr_ok E t xs -> Forall2 (tgt E C t) xs ws -> forallb no_variants xs = true ->
   length (concat (map (encb E t) xs)) <= n)).
Proof.
  intros t ws. unfold ap. destruct (bytecopy E t) eqn:Eb.
  - destruct (opt_all (map (obj_bytes E t) ws)) as [bs|] eqn:Eo; [|apply costs_fail].
    apply costs_contig. intros b Hb. apply costs_ret. split; [apply kept_unflatten|].
    intros (Ha & _) Hg _. generalize dependent (unflatten E t ws b). intros xs Ha Hg. rewrite Nat.add_0_r. clear Hb b.
    revert bs Eo Ha. induction Hg as [|x w xs ws Hg HF IH]; intros bs Eo Ha; [cbn; lia|].
    inversion Ha; subst. destruct (bytecopy_vb _ _ _ _ wf H1 Eb) as (_ & Hx & Hex).
    destruct (bytecopy_tgt F E wf C t x w H1 Hg Eb) as (b & -> & Hb).
    assert (Ho : obj_bytes E t (VB b) = Some b) by (destruct t; reflexivity).
    cbn [map opt_all] in Eo. rewrite Ho in Eo. destruct (opt_all (map (obj_bytes E t) ws)) as [bs'|]; [|discriminate].
    cbn in Eo. inversion Eo; subst. cbn [map concat]. rewrite !app_length, Hex. specialize (IH _ eq_refl H2).
    unfold len in *. lia.
  - destruct (is_virtual E t) eqn:Ev.
    + apply costs_getv. destruct ws as [|w ws]; [apply costs_ret; split; auto; intros (_ & Hne & _); congruence|].
      destruct t; try discriminate. eapply costs_bind; [apply s_dyn; exact Ev|]. intros x n (Hk & H). apply costs_ret.
      split.
      * constructor; auto. clear. induction ws as [|v ws IH]; constructor; auto. destruct v; cbn; eauto.
      * intros (Ha & _ & Hone) Hg Hn. specialize (Hone Ev). destruct ws as [|]; [|discriminate].
        inversion Ha; subst. inversion Hg; subst. cbn [forallb] in Hn. rewrite andb_true_r in Hn.
        cbn [map concat]. rewrite app_nil_r, Nat.add_0_r. auto.
    + eapply costs_impl.
      { apply (costs_mapP _ _ _ kept (fine t) (fun x => length (encb E t x))). intros w. now apply s_elem. }
      cbn beta. intros xs n (Hk & H). split; auto. intros (Ha & _) Hg Hn. rewrite concat_len, map_map. apply H.
      clear - Ha Hg Hn Ev. induction Hg as [|x w xs ws Hg HF IH]; constructor; inversion Ha; subst;
        cbn [forallb] in Hn; apply andb_prop in Hn; destruct Hn; auto.
      split; [|split]; auto.
      * inversion H1; subst; auto. congruence.
      * inversion Hg; subst; auto. congruence.
Qed.
End Level.

Lemma s_traverse : forall rec t ws vf (Q : list val -> nat -> Prop), costs (ap E m rec t ws) vf Q ->
  costs (traverse E m rec t ws) vf (fun xs n => exists n', Q xs n' /\ n = fl + n').
Proof.
  intros rec t ws vf Q H. unfold traverse, fl. destruct (chk E).
  - unfold with_type_idx. cbn [bind]. apply costs_contig. intros x _. cbn [bind].
    destruct (_ || _); [apply costs_fail|]. cbn [bind].
    eapply costs_bind; [apply costs_catch, H|]. intros xs n HQ. cbn beta.
    unfold with_mem_used. cbn [bind]. apply costs_contig. intros y _. destruct (N.eqb _ _); [|apply costs_fail].
    cbn [bind]. apply costs_ret. exists n. split; auto. rewrite !le_length. lia.
  - eapply costs_impl; [exact H|]. cbn beta. eauto.
Qed.

Lemma s_with : forall f,
  (forall t ws, costs (with_ E m f t ws) false (fun xs n => Forall2 kept xs ws /\
    (arr_ok E t xs -> Forall2 (tgt E C t) xs ws -> forallb no_variants xs = true ->
     fl + length (concat (map (encb E t) xs)) <= n))) /\
  (forall id sz b, length b = sz -> costs (with_ E m f (TPrim id sz) [VB b]) false
    (fun xs n => exists b', xs = [VB b'] /\ length b' = sz /\ fl + sz <= n)) /\
  (forall c d ls, is_virtual E (TClass c) = true -> costs (with_ E m f (TClass c) [VObj d ls]) true
    (fun xs n => exists fs fs', nth_error ls (level E c) = Some fs /\ xs = [VObj d (upd ls (level E c) fs')] /\
     (lvl_ok E c fs' -> lvl_tgt E C c fs' fs -> forallb no_variants fs' = true ->
      fl + length (wmembers E (c, zipenc E (wfields E c) fs')) <= n))).
Proof.
  induction f as [|f (IH1 & IH2 & IH3)].
  { cbn [with_]. split; [|split]; intros; apply costs_fail. }
  cbn [with_]. split; [|split].
  - intros t ws. eapply costs_impl; [apply s_traverse, s_ap; auto|]. cbn beta.
    intros xs n (n' & (H1 & H2) & ->). split; auto. intros X1 X2 X3. specialize (H2 X1 X2 X3). lia.
  - intros id sz b Hb. eapply costs_impl.
    + apply s_traverse with (Q := fun xs n => exists b', xs = [VB b'] /\ length b' = sz /\ sz <= n).
      unfold ap. cbn [bytecopy map obj_bytes opt_all option_map concat app]. rewrite app_nil_r.
      apply costs_contig. intros x Hx. apply costs_ret. cbn [unflatten obj_bytes obj_setbytes].
      eexists. split; [reflexivity|]. rewrite firstn_length. lia.
    + cbn beta. intros xs n (n' & (b' & -> & H1 & H2) & ->). exists b'. split; auto. split; auto. lia.
  - intros c d ls Hv. eapply costs_impl.
    + apply s_traverse with (Q := fun xs n => exists fs fs', nth_error ls (level E c) = Some fs /\
        xs = [VObj d (upd ls (level E c) fs')] /\
        (lvl_ok E c fs' -> lvl_tgt E C c fs' fs -> forallb no_variants fs' = true ->
         length (wmembers E (c, zipenc E (wfields E c) fs')) <= n)).
      unfold ap. rewrite (Hnb _ Hv), Hv. apply costs_getv, costs_setv. cbn [mapP apply_elem].
      eapply costs_bind; [apply s_static; auto|]. intros x n (d' & ls' & fs & fs' & H1 & H2 & -> & H3).
      inversion H1; subst. apply costs_ret. exists fs, fs'. rewrite Nat.add_0_r. auto.
    + cbn beta. intros xs n (n' & (fs & fs' & H1 & H2 & H3) & ->). exists fs, fs'. split; auto. split; auto.
      intros X1 X2 X3. specialize (H3 X1 X2 X3). lia.
Qed.

Lemma s_root : forall f t w, costs (with_root E m f t w) false (fun x n =>
  has_ty E t x -> target C E t x w -> no_variants x = true -> length (enc_root E t x) <= n).
Proof.
  intros f t w. destruct (s_with f) as (H1 & H2 & H3). unfold with_root, enc_root.
  destruct (chk E) eqn:Ec.
  - eapply costs_impl; [apply s_ser; auto|]. cbn beta. intros x n H X1 X2 X3. apply H. split; auto.
  - unfold with_type_idx. cbn [bind]. apply costs_contig. intros b _. cbn [bind].
    destruct (_ || _); [apply costs_fail|]. cbn [bind].
    eapply costs_bind; [apply s_ser; auto|]. intros x n H. cbn beta in *.
    unfold with_mem_used. cbn [bind]. apply costs_contig. intros y _. destruct (N.eqb _ _); [|apply costs_fail].
    cbn [bind]. apply costs_ret. intros X1 X2 X3. specialize (H ltac:(split; auto)). rewrite enc_len in H.
    rewrite !app_length, !le_length. lia.
Qed.
End Inflate.
