(** The memory footprint: a specification of what an object occupies, and the
    proof that footprinting computes it. *)
From Coq Require Import List NArith Arith Bool Lia.
From Coq.Strings Require Import Byte.
From Verif Require Import Base Syntax Prog Serializers Traverse Spec ProgFacts EnvFacts Pack.
Import ListNotations.
Local Open Scope N_scope.

(** ** Specification *)

Definition total (l : list N) : N := fold_right N.add 0 l.

(** Of an array of polymorphic objects only the first is looked at
    (dispatch_serializer_nonbyte.h:217-227, see C25). *)
Definition visited (E : env) (t : ty) (l : list val) : list val :=
  if is_virtual E t then firstn 1 l else l.

(** [takes E t v n]: the object [v], of static type [t], is reported to occupy
    [n] bytes.  The relation covers every type the library can traverse in
    footprinting mode, including those that cannot be serialized. *)
Inductive takes (E : env) : ty -> val -> N -> Prop :=
| TkPrim id sz b : length b = sz -> takes E (TPrim id sz) (VB b) (N.of_nat sz)
| TkEnum id uid usz b : length b = usz -> takes E (TEnum id uid usz) (VB b) (N.of_nat usz)
| TkChrono id uid usz b : length b = usz -> takes E (TChrono id uid usz) (VB b) (N.of_nat usz)
| TkString cap b :
    len b <= cap -> takes E TString (VStr cap b) (szof E TString + cap)
| TkVector t cap l ns :
    len l <= cap -> Forall2 (takes E t) (visited E t l) ns ->
    takes E (TVector t) (VVec cap l)
      (szof E (TVector t) + total ns + sizeof E t * (cap - len l))
| TkVecBool cap l : takes E TVecBool (VVec cap l) (szof E TVecBool)
| TkArray n t l ns :
    Forall2 (takes E t) (visited E t l) ns -> takes E (TArray n t) (VSeq l) (total ns)
| TkList dq t l ns :
    Forall2 (takes E t) l ns ->
    takes E (TList dq t) (VSeq l) (szof E (TList dq t) + total ns)
| TkOrd multi mp t l ns :
    Forall2 (takes E t) l ns ->
    takes E (TAssoc (AOrd multi mp) t) (VSeq l) (szof E (TAssoc (AOrd multi mp) t) + total ns)
| TkHash multi mp t l ns :
    Forall2 (takes E t) l ns ->
    takes E (TAssoc (AHash multi mp) t) (VBag l) (szof E (TAssoc (AHash multi mp) t) + total ns)
| TkQueue t l :
    takes E (TQueue t) (VSeq l) (szof E (TQueue t) + sizeof E t * len l)
| TkAdaptor t l :
    takes E (TAdaptor t) (VSeq l) (szof E (TAdaptor t) + sizeof E t * len l)
| TkPair a b x y nx ny :
    takes E a x nx -> takes E b y ny ->
    takes E (TPair a b) (VSeq [x; y]) (szof E (TPair a b) + nx + ny)
| TkTuple ts l ns :
    length ts = length l ->
    Forall2 (fun p n => takes E (fst p) (snd p) n) (combine ts l) ns ->
    takes E (TTuple ts) (VSeq l) (total ns)
| TkNone t : takes E (TOptional t) (VOpt None) (szof E (TOptional t))
| TkSome t v : takes E (TOptional t) (VOpt (Some v)) (szof E (TOptional t) + sizeof E t)
| TkVariant ts i t v n :
    bytecopy E (TVariant ts) = false -> nth_error ts i = Some t ->
    N.of_nat i < two64 - 1 -> takes E t v n ->
    takes E (TVariant ts) (VVar i v) (8 + n)
| TkValueless ts :
    bytecopy E (TVariant ts) = false -> len ts < two64 ->
    takes E (TVariant ts) VVarNone 8
| TkVariantB ts b :
    bytecopy E (TVariant ts) = true -> takes E (TVariant ts) (VB b) (len b)
| TkNull t : takes E (TUnique t) (VOpt None) (szof E (TUnique t))
| TkUnique t v n :
    is_virtual E t = false -> takes E t v n ->
    takes E (TUnique t) (VOpt (Some v)) (szof E (TUnique t) + n)
| TkUniqueV c d ls n :
    is_virtual E (TClass c) = true -> obj_idx E d <> None ->
    takes E (TClass c) (VObj d ls) n ->
    takes E (TUnique (TClass c)) (VOpt (Some (VObj d ls))) (szof E (TUnique (TClass c)) + n)
| TkSharedNull t : takes E (TShared t) (VOpt None) (szof E (TShared t))
| TkShared t v n :
    takes E t v n -> takes E (TShared t) (VOpt (Some v)) (szof E (TShared t) + n)
| TkRawNull t : takes E (TRaw t) (VOpt None) (szof E (TRaw t))
| TkRaw t v n :
    takes E t v n -> takes E (TRaw t) (VOpt (Some v)) (szof E (TRaw t) + n)
| TkCounted id sz v : takes E (TCounted id sz) v (N.of_nat sz)
| TkOpaque id sz v : takes E (TOpaque id sz) v (N.of_nat sz)
| TkClassB c k b :
    cls E c = Some k -> cbyte k = true -> cvirt k = false -> len b = csize k ->
    takes E (TClass c) (VB b) (csize k)
| TkClass c d ls ns :
    (* the object is of class [c], or of one derived from it *)
    In c (chain E d) -> (is_virtual E (TClass c) = false -> d = c) ->
    length (chain E d) = length ls ->
    (* each class on the chain: the members its serialize function visits *)
    Forall2 (fun p n => exists k ms, cls E (fst p) = Some k /\ cbyte k = false /\ n = total ms /\
               Forall2 (fun i m => exists t x, nth_error (cfields k) i = Some t /\
                          nth_error (snd p) i = Some x /\ takes E t x m)
                 (cser k MFootprinting) ms)
      (combine (chain E d) ls) ns ->
    takes E (TClass c) (VObj d ls) (total ns).

(** ** Programs that add to the footprint *)

Definition tallies {A} (p : prog A) (vf : bool) (a : A) (vf' : bool) (n : N) : Prop :=
  forall s, s < two64 -> interp footprinter p vf s = Ok (a, vf', wrap64 (s + n)).

Lemma wrap_small : forall s, s < two64 -> wrap64 s = s.
Proof. intros. unfold wrap64. now apply N.mod_small. Qed.
Lemma wrap_lt : forall s, wrap64 s < two64.
Proof. intros. unfold wrap64. apply N.mod_lt. discriminate. Qed.
Lemma wrap_add : forall a b, wrap64 (wrap64 a + b) = wrap64 (a + b).
Proof. intros. unfold wrap64. rewrite N.add_mod_idemp_l; auto. discriminate. Qed.
Lemma wrap_add_r : forall a b, wrap64 (a + wrap64 b) = wrap64 (a + b).
Proof. intros. unfold wrap64. rewrite N.add_mod_idemp_r; auto. discriminate. Qed.

Lemma tallies_ret : forall A (a : A) vf, tallies (Ret a) vf a vf 0.
Proof. intros A a vf s Hs. cbn [interp]. now rewrite N.add_0_r, wrap_small. Qed.

Lemma interp_bind_fp : forall A B (p : prog A) (f : A -> prog B) vf s,
  interp footprinter (bind p f) vf s =
  match interp footprinter p vf s with
  | Ok (a, vf', s') => interp footprinter (f a) vf' s'
  | Err e => Err e
  end.
Proof.
  intros A B p f. induction p; intros vf s; cbn [bind interp]; auto.
  cbn. apply H.
Qed.

Lemma tallies_bind : forall A B (p : prog A) (f : A -> prog B) vf a vf1 n b vf2 m,
  tallies p vf a vf1 n -> tallies (f a) vf1 b vf2 m -> tallies (bind p f) vf b vf2 (n + m).
Proof.
  intros A B p f vf a vf1 n b vf2 m Hp Hf s Hs. rewrite interp_bind_fp, Hp by auto.
  cbn beta iota. rewrite Hf by apply wrap_lt. now rewrite wrap_add, N.add_assoc.
Qed.

Lemma tallies_eq : forall A (p : prog A) vf a vf' n m,
  tallies p vf a vf' n -> wrap64 n = wrap64 m -> tallies p vf a vf' m.
Proof.
  intros A p vf a vf' n m H He s Hs. rewrite H by auto.
  now rewrite <- (wrap_add_r s n), He, wrap_add_r.
Qed.

Lemma tallies_contig : forall A b (k : bytes -> prog A) vf a vf' n,
  tallies (k b) vf a vf' n -> tallies (Contig b k) vf a vf' (len b + n).
Proof.
  intros A b k vf a vf' n H s Hs. cbn [interp]. cbn [contig footprinter].
  rewrite H by apply wrap_lt. now rewrite wrap_add, N.add_assoc.
Qed.

Lemma tallies_count : forall A c (k : prog A) vf a vf' n,
  tallies k vf a vf' n -> tallies (Count c k) vf a vf' (c + n).
Proof.
  intros A c k vf a vf' n H s Hs. cbn [interp]. cbn [count footprinter].
  rewrite H by apply wrap_lt. now rewrite wrap_add, N.add_assoc.
Qed.

Lemma tallies_note : forall A e (k : prog A) vf a vf' n,
  tallies k vf a vf' n -> tallies (Note e k) vf a vf' n.
Proof. intros A e k vf a vf' n H s Hs. cbn. now apply H. Qed.
Lemma tallies_getv : forall A (k : bool -> prog A) vf a vf' n,
  tallies (k vf) vf a vf' n -> tallies (GetV k) vf a vf' n.
Proof. intros A k vf a vf' n H s Hs. cbn. now apply H. Qed.
Lemma tallies_setv : forall A f (k : prog A) vf a vf' n,
  tallies k f a vf' n -> tallies (SetV f k) vf a vf' n.
Proof. intros A f k vf a vf' n H s Hs. cbn. now apply H. Qed.

Lemma interp_catch_fp : forall A t (p : prog A) vf s,
  interp footprinter (catch t p) vf s =
  match interp footprinter p vf s with Ok x => Ok x | Err e => Err (bump t e) end.
Proof.
  intros A t p. induction p; intros vf s; cbn [catch interp]; auto. cbn. apply H.
Qed.
Lemma tallies_catch : forall A t (p : prog A) vf a vf' n,
  tallies p vf a vf' n -> tallies (catch t p) vf a vf' n.
Proof. intros A t p vf a vf' n H s Hs. now rewrite interp_catch_fp, H. Qed.

Lemma tallies_mapP : forall A (f : A -> prog A) vf l ns,
  Forall2 (fun x n => tallies (f x) vf x vf n) l ns -> tallies (mapP f l) vf l vf (total ns).
Proof.
  intros A f vf l ns H. induction H; cbn [mapP total fold_right]; [apply tallies_ret|].
  eapply tallies_eq; [eapply tallies_bind; [exact H|]; eapply tallies_bind; [exact IHForall2|];
    apply tallies_ret|]. unfold total. f_equal. lia.
Qed.

Lemma tallies_foldP : forall A B (f : B -> A -> prog B) vf acc l ns,
  Forall2 (fun x n => tallies (f acc x) vf acc vf n) l ns -> tallies (foldP f l acc) vf acc vf (total ns).
Proof.
  intros A B f vf acc l ns H. induction H; cbn [foldP total fold_right]; [apply tallies_ret|].
  eapply tallies_bind; [exact H|exact IHForall2].
Qed.

Lemma total_app : forall a b, total (a ++ b) = total a + total b.
Proof. induction a; intros; cbn [app total fold_right]; auto. unfold total in *. rewrite IHa. lia. Qed.

(** ** Footprinting follows the specification *)
Section Foot.
Variable F : N -> Prop.
Variable E : env.
Hypothesis wf : wf_env F E.
Notation m := MFootprinting.

Definition arr_takes (t : ty) (vs : list val) (n : N) : Prop :=
  exists ns, Forall2 (takes E t) (visited E t vs) ns /\ n = total ns /\ vs <> [].

Lemma tallies_framed : forall A (p : prog A) t k vf a vf' n,
  tallies p vf a vf' n ->
  tallies (if chk E
           then bind (with_type_idx E m t) (fun _ => bind (catch (tix E t) p) (fun a =>
                bind (with_mem_used E m t k) (fun _ => Ret a)))
           else p) vf a vf' n.
Proof.
  intros A p t k vf a vf' n H. destruct (chk E); auto. cbn [with_type_idx with_mem_used bind].
  eapply tallies_eq; [eapply tallies_bind; [apply tallies_catch, H|apply tallies_ret]|].
  f_equal. lia.
Qed.

Section Level.
Variable rec : ty -> list val -> prog (list val).
Variable f : nat.
Hypothesis Hrec : forall t vs n, arr_takes t vs n -> fits f t vs -> tallies (rec t vs) false vs false n.

Lemma f_ser : forall t v n, takes E t v n -> (depth v < f)%nat -> tallies (ser rec t v) false v false n.
Proof.
  intros t v n Ht Hd. unfold ser. eapply tallies_eq.
  - eapply tallies_bind; [apply Hrec with (n := total [n])|].
    + exists [n]. split; [|split; [reflexivity|discriminate]].
      unfold visited. destruct (is_virtual E t); cbn; auto.
    + left. now constructor.
    + cbn beta iota. apply tallies_ret.
  - cbn [total fold_right]. f_equal. lia.
Qed.

Lemma f_prim : forall id sz b, length b = sz -> (1 <= f)%nat ->
  tallies (ser rec (TPrim id sz) (VB b)) false (VB b) false (N.of_nat sz).
Proof.
  intros id sz b Hb Hf. unfold ser. eapply tallies_eq.
  - eapply tallies_bind; [apply Hrec with (n := total [N.of_nat sz])|].
    + exists [N.of_nat sz]. split; [|split; [reflexivity|discriminate]].
      unfold visited. cbn. constructor; [now constructor|constructor].
    + right. auto.
    + cbn beta iota. apply tallies_ret.
  - cbn [total fold_right]. f_equal. lia.
Qed.

Lemma f_size : forall x, x < two64 -> (1 <= f)%nat -> tallies (ser_size rec x) false x false 8.
Proof.
  intros x Hx Hf. unfold ser_size, ser_word. eapply tallies_eq.
  - eapply tallies_bind; [apply f_prim; [apply le_length|auto]|].
    cbn beta iota. rewrite unle_le by auto. apply tallies_ret.
  - reflexivity.
Qed.

Lemma f_array : forall t l ns, Forall2 (takes E t) (visited E t l) ns -> shallow f l ->
  tallies (ser_array rec t l) false l false (total ns).
Proof.
  intros t l ns H Hs. unfold ser_array. destruct l as [|x r].
  - assert (ns = []). { destruct (visited E t []) eqn:Ev; [inversion H; auto|].
      unfold visited in Ev. destruct (is_virtual E t); discriminate. }
    subst. apply tallies_ret.
  - apply Hrec; [|now left]. exists ns. split; [exact H|]. split; [reflexivity|discriminate].
Qed.

Lemma chars_take : forall bs, Forall2 (takes E CHAR) (visited E CHAR (chars bs)) (repeat 1 (length bs)).
Proof.
  unfold visited, chars. cbn [is_virtual CHAR]. induction bs; cbn; constructor; auto.
  apply (TkPrim E 4 1 [a]). reflexivity.
Qed.

Lemma total_ones : forall n, total (repeat 1 n) = N.of_nat n.
Proof. induction n; cbn [repeat total fold_right]; auto. unfold total in IHn. lia. Qed.

Lemma f_elems : forall t l ns, Forall2 (takes E t) l ns -> shallow f l ->
  tallies (mapP (ser rec t) l) false l false (total ns).
Proof.
  intros t l ns H Hs. apply tallies_mapP. clear - H Hs Hrec.
  induction H; constructor; inversion Hs; subst; auto. now apply f_ser.
Qed.

Lemma f_tuple : forall ts l ns, length ts = length l ->
  Forall2 (fun p n => takes E (fst p) (snd p) n) (combine ts l) ns -> shallow f l ->
  tallies (ser_tuple rec ts l) false l false (total ns).
Proof.
  induction ts; intros [|x l] ns Hl H Hs; try discriminate; cbn [combine] in H.
  - inversion H; subst. apply tallies_ret.
  - inversion H; subst. inversion Hs; subst. cbn [fst snd] in *. cbn [ser_tuple total fold_right].
    eapply tallies_eq; [eapply tallies_bind; [apply f_ser; eauto|]; eapply tallies_bind;
      [apply (IHts l); eauto|apply tallies_ret]|]. unfold total. f_equal. lia.
Qed.

Lemma f_members : forall k fs ms, shallow f fs ->
  Forall2 (fun i m => exists t x, nth_error (cfields k) i = Some t /\
             nth_error fs i = Some x /\ takes E t x m) (cser k m) ms ->
  tallies (ser_members rec (cfields k) (cser k m) fs) false fs false (total ms).
Proof.
  intros k fs ms Hs H. unfold ser_members. apply tallies_foldP.
  induction H; constructor; auto. destruct H as (t & v & Ht & Hv & Hk). rewrite Ht, Hv.
  eapply tallies_eq; [eapply tallies_bind; [apply f_ser; [exact Hk|]|]|].
  - eapply shallow_in; eauto. eapply nth_error_In; eauto.
  - rewrite upd_same by auto. apply tallies_ret.
  - f_equal. lia.
Qed.

Definition lvl_takes (c : nat) (fs : list val) (n : N) : Prop :=
  exists k ms, cls E c = Some k /\ cbyte k = false /\ n = total ms /\
    Forall2 (fun i m => exists t x, nth_error (cfields k) i = Some t /\
               nth_error fs i = Some x /\ takes E t x m) (cser k m) ms.

Lemma f_static : forall c d ls fs n, nth_error ls (level E c) = Some fs -> lvl_takes c fs n ->
  Forall (shallow f) ls ->
  tallies (apply_static E m rec c (VObj d ls)) false (VObj d ls) false n.
Proof.
  intros c d ls fs n Hn (k & ms & Hk & _ & -> & Hm) Hs. unfold apply_static. rewrite Hk, Hn.
  apply tallies_note. eapply tallies_eq.
  - eapply tallies_bind; [apply f_members; [|exact Hm]|].
    + rewrite Forall_forall in Hs. apply Hs. eapply nth_error_In; eauto.
    + rewrite upd_same by auto. apply tallies_note, tallies_ret.
  - f_equal. lia.
Qed.

Lemma f_elem : forall t v n, takes E t v n -> bytecopy E t = false -> is_virtual E t = false ->
  (depth v < S f)%nat -> tallies (apply_elem E m rec t v) false v false n.
Proof.
  intros t v n Ht Hb Hv Hd.
  inversion Ht; subst; cbn [bytecopy] in Hb; try discriminate; cbn [apply_elem].
  - unfold ser_underlying. apply f_prim; [reflexivity|cbn in Hd; lia].
  - unfold ser_underlying. apply f_prim; [reflexivity|cbn in Hd; lia].
  - (* string *)
    unfold ser_string. cbn [is_footprinting]. apply tallies_count. eapply tallies_eq.
    + eapply tallies_bind; [|apply tallies_ret].
      set (bs := b ++ repeat x00 (N.to_nat (cap - len b))).
      apply f_array with (ns := repeat 1 (length bs)).
      * apply chars_take.
      * cbn [depth] in Hd. unfold chars, shallow. apply Forall_forall. intros x Hx.
        apply in_map_iff in Hx. destruct Hx as (y & <- & _). cbn. lia.
    + f_equal. rewrite total_ones, app_length, repeat_length. unfold len in *. lia.
  - (* vector *)
    cbn [depth] in Hd. destruct (fold_depth l f) as (Hs & H1n); [lia|].
    unfold ser_vector. cbn [is_footprinting]. rewrite <- N.add_assoc. apply tallies_count.
    eapply tallies_eq; [eapply tallies_bind; [apply f_array; eauto|];
      apply tallies_count, tallies_ret|]. rewrite N.add_0_r. apply wrap_add_r.
  - (* vector<bool> *)
    unfold ser_vecbool. cbn [is_footprinting].
    eapply tallies_eq; [apply tallies_count, tallies_ret|]. f_equal. cbn [sizeof]. lia.
  - (* array *)
    cbn [depth] in Hd. destruct (fold_depth l f) as (Hs & H1n); [lia|].
    unfold ser_stdarray.
    eapply tallies_eq; [eapply tallies_bind; [apply f_array; eauto|apply tallies_ret]|]. f_equal. lia.
  - (* list *)
    cbn [depth] in Hd. destruct (fold_depth l f) as (Hs & H1n); [lia|].
    unfold ser_list, ser_container_size, ser_container_elems. cbn [is_footprinting is_unpacking bind].
    apply tallies_count.
    eapply tallies_eq; [eapply tallies_bind; [apply f_elems; eauto|apply tallies_ret]|]. f_equal. lia.
  - (* ordered *)
    cbn [depth] in Hd. destruct (fold_depth l f) as (Hs & H1n); [lia|].
    unfold ser_assoc, ser_container_size, ser_container_elems.
    cbn [is_footprinting is_unpacking elements of_opt bind]. apply tallies_count.
    eapply tallies_eq; [eapply tallies_bind; [apply f_elems; eauto|apply tallies_ret]|]. f_equal. lia.
  - (* unordered *)
    cbn [depth] in Hd. destruct (fold_depth l f) as (Hs & H1n); [lia|].
    unfold ser_assoc, ser_container_size, ser_container_elems.
    cbn [is_footprinting is_unpacking elements of_opt bind]. apply tallies_count.
    eapply tallies_eq; [eapply tallies_bind; [apply f_elems; eauto|apply tallies_ret]|]. f_equal. lia.
  - (* queue *)
    unfold ser_queue. cbn [is_footprinting]. apply tallies_count.
    eapply tallies_eq; [apply tallies_count, tallies_ret|]. rewrite N.add_0_r.
    unfold wrap64. apply N.mod_mod. discriminate.
  - (* stack, priority_queue *)
    unfold ser_adaptor. cbn [is_footprinting]. apply tallies_count.
    eapply tallies_eq; [apply tallies_count, tallies_ret|]. rewrite N.add_0_r.
    unfold wrap64. apply N.mod_mod. discriminate.
  - (* pair *)
    cbn [depth fold_right] in Hd. unfold ser_pair. rewrite <- N.add_assoc. apply tallies_count.
    eapply tallies_eq; [eapply tallies_bind; [apply f_ser; [eassumption|lia]|]; eapply tallies_bind;
      [apply f_ser; [eassumption|lia]|apply tallies_ret]|]. f_equal. lia.
  - (* tuple *)
    cbn [depth] in Hd. destruct (fold_depth l f) as (Hs & H1n); [lia|].
    eapply tallies_eq; [eapply tallies_bind; [apply f_tuple; eauto|apply tallies_ret]|]. f_equal. lia.
  - (* optional *)
    unfold ser_optional. cbn [is_footprinting].
    eapply tallies_eq; [apply tallies_count, tallies_ret|]. f_equal. cbn [sizeof]. lia.
  - unfold ser_optional. cbn [is_footprinting].
    eapply tallies_eq; [apply tallies_count, tallies_count, tallies_ret|]. f_equal. cbn [sizeof]. lia.
  - (* variant *)
    cbn [depth] in Hd. unfold ser_variant. cbn [variant_index of_opt bind].
    eapply tallies_bind; [apply f_size; lia|].
    assert (G : forall ts0 cur, nth_error ts0 (i - cur) = Some t0 -> (cur <= i)%nat ->
      tallies (ser_entry E m rec ts0 (VVar i v0) (N.of_nat i) cur) false (VVar i v0) false n0).
    { induction ts0; intros cur Hn Hc; cbn [ser_entry].
      - destruct (i - cur)%nat; discriminate.
      - destruct (N.of_nat i =? N.of_nat cur) eqn:Ec.
        + apply N.eqb_eq in Ec. assert (i = cur) by lia. subst cur.
          rewrite Nat.sub_diag in Hn. inversion Hn; subst.
          cbn [is_unpacking]. rewrite Nat.eqb_refl.
          eapply tallies_eq; [eapply tallies_bind; [apply f_ser; [eassumption|lia]|apply tallies_ret]|].
          f_equal. lia.
        + apply N.eqb_neq in Ec. apply IHts0; [|lia].
          replace (i - cur)%nat with (S (i - S cur)) in Hn by lia. exact Hn. }
    apply G; [now rewrite Nat.sub_0_r|lia].
  - (* valueless variant *)
    cbn [depth] in Hd. unfold ser_variant. cbn [variant_index of_opt bind].
    eapply tallies_eq; [eapply tallies_bind; [apply f_size; [reflexivity|lia]|]|rewrite N.add_0_r; reflexivity].
    assert (G : forall ts0 cur, N.of_nat cur + len ts0 < two64 ->
      tallies (ser_entry E m rec ts0 VVarNone (two64 - 1) cur) false VVarNone false 0).
    { induction ts0; intros cur Hn; cbn [ser_entry]; [apply tallies_ret|].
      replace (two64 - 1 =? N.of_nat cur) with false.
      - apply IHts0. unfold len in *. cbn [length] in Hn. lia.
      - symmetry. apply N.eqb_neq. unfold len in Hn. cbn [length] in Hn. lia. }
    apply G. cbn. assumption.
  - change (bytecopy E (TVariant ts) = false) in Hb. congruence.
  - (* unique_ptr *)
    unfold ser_unique. cbn [is_footprinting is_unpacking bind].
    eapply tallies_eq; [apply tallies_count, tallies_ret|]. f_equal. cbn [sizeof]. lia.
  - cbn [depth] in Hd. unfold ser_unique. cbn [is_footprinting is_unpacking bind].
    apply tallies_count.
    assert (Hr : reconstruct_pointed E m rec t0 (Some v0) = Ret (Some v0)).
    { unfold reconstruct_pointed. destruct t0; auto. now rewrite H. }
    rewrite Hr. cbn [bind].
    eapply tallies_eq; [eapply tallies_bind; [apply f_ser; [eassumption|lia]|apply tallies_ret]|].
    f_equal. lia.
  - assert (Hdd : (depth (VObj d ls) < f)%nat) by (change (depth (VOpt (Some (VObj d ls))))
      with (S (Nat.max 1 (depth (VObj d ls)))) in Hd; lia).
    unfold ser_unique. cbn [is_footprinting is_unpacking bind]. apply tallies_count.
    unfold reconstruct_pointed. rewrite H. unfold ser_virtual_type, dyn_type_idx.
    cbn [is_footprinting is_unpacking].
    destruct (obj_idx E d) as [i|]; [|congruence]. cbn [option_map of_opt bind].
    rewrite N.eqb_refl. cbn [bind orb].
    eapply tallies_eq; [eapply tallies_bind; [apply f_ser; [eassumption|lia]|apply tallies_ret]|].
    f_equal. lia.
  - (* shared_ptr *)
    unfold ser_followed. cbn [is_footprinting].
    eapply tallies_eq; [apply tallies_count, tallies_ret|]. f_equal. cbn [sizeof]. lia.
  - cbn [depth] in Hd. unfold ser_followed. cbn [is_footprinting]. apply tallies_count.
    eapply tallies_eq; [eapply tallies_bind; [apply f_ser; [eassumption|lia]|apply tallies_ret]|].
    f_equal. lia.
  - unfold ser_followed. cbn [is_footprinting].
    eapply tallies_eq; [apply tallies_count, tallies_ret|]. f_equal. cbn [sizeof]. lia.
  - cbn [depth] in Hd. unfold ser_followed. cbn [is_footprinting]. apply tallies_count.
    eapply tallies_eq; [eapply tallies_bind; [apply f_ser; [eassumption|lia]|apply tallies_ret]|].
    f_equal. lia.
  - destruct v; cbn [is_footprinting]; (eapply tallies_eq; [apply tallies_count, tallies_ret|]; f_equal; lia).
  - destruct v; cbn [is_footprinting]; apply tallies_note; (eapply tallies_eq; [apply tallies_count, tallies_ret|]; f_equal; lia).
  - rewrite H in Hb. congruence.
  - (* class *)
    assert (d = c) by auto. subst d.
    destruct (chain_in_cls _ _ wf _ _ H) as (k & Hk).
    assert (Hst : chain E c = [c]).
    { eapply chain_static; eauto. cbn [is_virtual] in Hv. now rewrite Hk in Hv. }
    rewrite Hst in *. destruct ls as [|fs [|? ?]]; try discriminate. cbn [combine] in *.
    match goal with X : Forall2 _ [(c, fs)] ns |- _ => inversion X; subst end.
    match goal with X : Forall2 _ [] _ |- _ => inversion X; subst end. cbn [fst snd] in *.
    cbn [depth fold_right] in Hd. destruct (fold_depth2 [fs] f) as (Hs & H1n); [cbn [fold_right]; lia|].
    eapply tallies_eq; [apply f_static with (fs := fs); [|eassumption|exact Hs]|].
    + unfold level. now rewrite Hst.
    + cbn [total fold_right]. f_equal. lia.
Qed.
End Level.

Definition foot_ok (f : nat) : Prop :=
  (forall t vs n, arr_takes t vs n -> fits f t vs -> tallies (with_ E m f t vs) false vs false n) /\
  (forall c d ls fs n, is_virtual E (TClass c) = true -> nth_error ls (level E c) = Some fs ->
     lvl_takes c fs n -> Forall (shallow (pred f)) ls -> (1 < f)%nat ->
     tallies (ser (with_ E m f) (TClass c) (VObj d ls)) true (VObj d ls) false n).

Lemma takes_bytes : forall t v n, takes E t v n -> bytecopy E t = true ->
  v = VB (vb v) /\ len (vb v) = n /\ is_virtual E t = false.
Proof.
  intros t v n Ht Hb. inversion Ht; subst; cbn [bytecopy] in Hb; try discriminate; cbn [vb is_virtual]; auto.
  - change (bytecopy E (TVariant ts) = true) in Hb. congruence.
  - change (bytecopy E (TVariant ts) = true) in Hb. congruence.
  - rewrite H. auto.
  - exfalso. destruct (In_nth_error _ _ H) as (i & Hi).
    assert (Hc : exists fs, nth_error (combine (chain E d) ls) i = Some (c, fs)).
    { clear - Hi H1. revert ls i Hi H1. induction (chain E d); intros [|fs ls] [|i] Hi Hl; cbn in *;
        try discriminate.
      - inversion Hi; subst. eauto.
      - apply IHl; auto. }
    destruct Hc as (fs & Hc).
    destruct (nth_error ns i) as [x|] eqn:Ex.
    + destruct (Forall2_nth _ _ _ _ _ _ _ _ H2 Hc Ex) as (k & ms & Hk & Hkb & _).
      cbn [fst] in Hk. rewrite Hk in Hb. congruence.
    + apply nth_error_None in Ex. apply Forall2_length in H2.
      assert (i < length (combine (chain E d) ls))%nat; [|lia].
      apply nth_error_Some. congruence.
Qed.

Lemma f_dyn : forall f c d ls ns,
  (forall c d ls fs n, is_virtual E (TClass c) = true -> nth_error ls (level E c) = Some fs ->
     lvl_takes c fs n -> Forall (shallow (pred f)) ls -> (1 < f)%nat ->
     tallies (ser (with_ E m f) (TClass c) (VObj d ls)) true (VObj d ls) false n) ->
  In c (chain E d) -> is_virtual E (TClass c) = true ->
  length (chain E d) = length ls ->
  Forall2 (fun p n => lvl_takes (fst p) (snd p) n) (combine (chain E d) ls) ns ->
  (depth (VObj d ls) < S f)%nat ->
  tallies (dyn_serialize E (with_ E m f) (VObj d ls)) false (VObj d ls) false (total ns).
Proof.
  intros f c d ls ns IH Hin Hv Hl HF Hd. unfold dyn_serialize.
  rewrite <- (chain_virtual _ _ wf d c Hin), Hv.
  cbn [depth] in Hd. destruct (fold_depth2 ls (pred f)) as (Hsl & H1n); [lia|].
  apply tallies_foldP.
  assert (G : forall i c' fs, nth_error (chain E d) i = Some c' -> nth_error ls i = Some fs ->
            is_virtual E (TClass c') = true /\ nth_error ls (level E c') = Some fs).
  { intros i c' fs Hc Hf. split.
    - rewrite (chain_virtual _ _ wf d c') by (eapply nth_error_In; eauto).
      now rewrite <- (chain_virtual _ _ wf d c Hin).
    - rewrite (chain_nth_level _ _ wf _ _ _ Hc). exact Hf. }
  assert (H1f : (1 < f)%nat) by lia.
  set (body := fun (v : val) (c : nat) => Note (EvRegistry c) (SetV true (ser (with_ E m f) (TClass c) v))).
  assert (K : forall cs l0 ns0, length cs = length l0 ->
     (forall i c' fs, nth_error cs i = Some c' -> nth_error l0 i = Some fs ->
            is_virtual E (TClass c') = true /\ nth_error ls (level E c') = Some fs) ->
     Forall2 (fun p n => lvl_takes (fst p) (snd p) n) (combine cs l0) ns0 ->
     Forall2 (fun x n => tallies (body (VObj d ls) x) false (VObj d ls) false n) cs ns0).
  { induction cs; intros [|fs l0] ns0 Hle Hg H; try discriminate; cbn [combine] in H;
      inversion H; subst; constructor.
    - destruct (Hg O a fs eq_refl eq_refl) as (Hva & Hna). apply tallies_note, tallies_setv.
      eapply IH; eauto.
    - apply (IHcs l0); auto. intros i c' fs' Hc Hf. apply (Hg (S i)); auto. }
  apply (K (chain E d) ls ns Hl G HF).
Qed.

Lemma foot_all : forall f, foot_ok f.
Proof.
  induction f as [|f (IH1 & IH2)].
  { split.
    - intros t vs n (ns & _ & _ & Hne) [Hs|(_ & Hs)]; exfalso; [|lia].
      destruct vs; [congruence|]. inversion Hs; subst. lia.
    - intros. lia. }
  split.
  - intros t vs n (ns & HF & -> & Hne) Hs. cbn [with_]. unfold traverse.
    apply tallies_framed. unfold ap.
    destruct (bytecopy E t) eqn:Hb.
    { assert (Hv : is_virtual E t = false).
      { destruct vs as [|v r]; [congruence|]. unfold visited in HF.
        destruct (is_virtual E t) eqn:Ev; auto. cbn in HF. inversion HF; subst.
        destruct (takes_bytes _ _ _ H1 Hb) as (_ & _ & ?). congruence. }
      unfold visited in HF. rewrite Hv in HF.
      assert (Hvb : forall v, In v vs -> v = VB (vb v)).
      { intros v Hin. destruct (In_nth_error _ _ Hin) as (i & Hi).
        destruct (nth_error ns i) as [x|] eqn:Ex.
        - pose proof (Forall2_nth _ _ _ _ _ _ _ _ HF Hi Ex) as Ht. now apply (takes_bytes _ _ _ Ht Hb).
        - apply nth_error_None in Ex. apply Forall2_length in HF.
          assert (i < length vs)%nat by (apply nth_error_Some; congruence). lia. }
      assert (Hob : opt_all (map (obj_bytes E t) vs) = Some (map vb vs)).
      { apply opt_all_map_some. intros v Hin. rewrite (Hvb _ Hin). destruct t; reflexivity. }
      rewrite Hob. eapply tallies_eq; [apply tallies_contig; rewrite unflatten_same by auto; apply tallies_ret|].
      f_equal. rewrite N.add_0_r. clear - HF Hb.
      induction HF; cbn [map concat total fold_right]; auto.
      destruct (takes_bytes _ _ _ H Hb) as (_ & Hl & _). unfold len in *. rewrite app_length.
      unfold total in IHHF. lia. }
    destruct Hs as [Hs|(Hs & _)]; [|destruct t; discriminate].
    destruct (is_virtual E t) eqn:Hv.
    + destruct vs as [|v r]; [congruence|]. unfold visited in HF. rewrite Hv in HF. cbn in HF.
      inversion HF as [|? n1 ? ? Ht HF0]; subst. inversion HF0; subst. inversion Hs as [|? ? Hd _]; subst.
      apply tallies_getv. cbn beta iota. cbn [total fold_right].
      destruct t; try discriminate. cbn [is_virtual] in Hv.
      inversion Ht; subst.
      * rewrite H0 in Hv. congruence.
      * eapply tallies_bind; [|apply tallies_ret]. eapply f_dyn; eauto.
    + unfold visited in HF. rewrite Hv in HF. apply tallies_mapP.
      clear Hne. induction HF; constructor; inversion Hs; subst; auto.
      eapply f_elem; eauto.
  - intros c d ls fs n Hv Hn Hl Hs Hf. pose proof Hl as (k & ms & Hk & Hkb & _).
    unfold ser. cbn [with_]. unfold traverse.
    eapply tallies_eq.
    { eapply tallies_bind with (a := [VObj d ls]) (vf1 := false); [|apply tallies_ret].
      apply tallies_framed. unfold ap. cbn [bytecopy]. rewrite Hk, Hkb, Hv.
      apply tallies_getv. cbn beta iota. apply tallies_setv. cbn [mapP apply_elem].
      eapply tallies_bind; [eapply (f_static (with_ E m f) f IH1); eauto|].
      cbn [bind]. apply tallies_ret. }
    f_equal. lia.
Qed.

Lemma foot_root : forall f t v n, takes E t v n -> (depth v < f)%nat ->
  tallies (with_root E m f t v) false v false n.
Proof.
  intros f t v n Ht Hd.
  pose proof (f_ser (with_ E m f) f (proj1 (foot_all f)) t v n Ht Hd) as H.
  unfold with_root. destruct (chk E); auto. cbn [with_type_idx with_mem_used bind].
  eapply tallies_eq; [eapply tallies_bind; [exact H|apply tallies_ret]|]. f_equal. lia.
Qed.

(** Every serializable value has a footprint. *)
Lemma has_takes : (forall c k i, cls E c = Some k -> In i (cser k m) -> (i < length (cfields k))%nat) ->
  forall v t, has_ty E t v -> exists n, takes E t v n.
Proof.
  intros Hcl.
  assert (L : forall t l, Forall (fun v => exists n, takes E t v n) l -> exists ns, Forall2 (takes E t) l ns).
  { intros t l H. induction H as [|x l (n & Hn) _ (ns & IH)]; eauto. }
  assert (D : forall f v, (depth v < f)%nat -> forall t, has_ty E t v -> exists n, takes E t v n).
  2: { intros v. apply (D (S (depth v))). lia. }
  induction f as [|f IH]; [intros; lia|]. intros v Hd t Ht.
  assert (A : forall t' l, Forall (has_ty E t') l -> shallow f l -> exists ns, Forall2 (takes E t') l ns).
  { intros t' l Hl Hs. apply L. rewrite Forall_forall in *. intros x Hx. apply IH; auto.
    eapply shallow_in; eauto. }
  assert (V : forall t' l, Forall (has_ty E t') l -> shallow f l ->
            exists ns, Forall2 (takes E t') (visited E t' l) ns).
  { intros t' l Hl Hs. unfold visited. destruct (is_virtual E t'); [|now apply A].
    destruct l; [exists []; constructor|]. cbn. inversion Hl; inversion Hs; subst.
    apply A; constructor; auto; constructor. }
  inversion Ht; subst; try (eexists; constructor; eassumption).
  - eexists. now constructor.
  - eexists. now constructor.
  - eexists. now constructor.
  - cbn [depth] in Hd. destruct (fold_depth l f) as (Hs & _); [lia|].
    destruct (V t0 l) as (ns & Hns); auto. eexists. econstructor; eauto.
  - cbn [depth] in Hd. destruct (fold_depth l f) as (Hs & _); [lia|].
    destruct (V t0 l) as (ns & Hns); auto. eexists. econstructor; eauto.
  - cbn [depth] in Hd. destruct (fold_depth l f) as (Hs & _); [lia|].
    destruct (A t0 l) as (ns & Hns); auto. eexists. econstructor; eauto.
  - cbn [depth] in Hd. destruct (fold_depth l f) as (Hs & _); [lia|].
    destruct (A t0 l) as (ns & Hns); auto. eexists. econstructor; eauto.
  - cbn [depth] in Hd. destruct (fold_depth l f) as (Hs & _); [lia|].
    destruct (A t0 l) as (ns & Hns); auto. eexists. econstructor; eauto.
  - cbn [depth fold_right] in Hd.
    destruct (IH x) with (t := a) as (nx & Hx); auto; [lia|].
    destruct (IH y) with (t := b) as (ny & Hy); auto; [lia|]. eexists. econstructor; eauto.
  - cbn [depth] in Hd. destruct (fold_depth l f) as (Hs & _); [lia|].
    assert (exists ns, length ts = length l /\ Forall2 (fun p n => takes E (fst p) (snd p) n) (combine ts l) ns)
      as (ns & Hl & Hns).
    { clear - H Hs IH. induction H; [exists []; split; auto; constructor|]. inversion Hs; subst.
      destruct (IHForall2) as (ns & Hl & Hns); auto. destruct (IH y) with (t := x) as (n & Hn); auto.
      exists (n :: ns). cbn [length combine]. split; [congruence|]. constructor; auto. }
    eexists. econstructor; eauto.
  - cbn [depth] in Hd. destruct (IH v0) with (t := t0) as (n & Hn); auto; [lia|].
    eexists. econstructor; eauto.
  - cbn [depth] in Hd. destruct (IH v0) with (t := t0) as (n & Hn); auto; [lia|].
    eexists. apply TkUnique; eauto.
  - assert (Hdd : (depth (VObj d ls) < f)%nat) by (change (depth (VOpt (Some (VObj d ls))))
      with (S (Nat.max 1 (depth (VObj d ls)))) in Hd; lia).
    destruct (IH (VObj d ls)) with (t := TClass d) as (n & Hn); auto.
    inversion Hn; subst. eexists. apply TkUniqueV; [auto|congruence|].
    eapply TkClass; eauto. congruence.
  - assert (G : exists ns, length (chain E c) = length ls /\
       Forall2 (fun p n => exists k ms, cls E (fst p) = Some k /\ cbyte k = false /\ n = total ms /\
               Forall2 (fun i m => exists t x, nth_error (cfields k) i = Some t /\
                          nth_error (snd p) i = Some x /\ takes E t x m)
                 (cser k MFootprinting) ms)
      (combine (chain E c) ls) ns).
    { cbn [depth] in Hd. destruct (fold_depth2 ls f) as (Hs & _); [lia|].
      clear - H0 Hs IH Hcl. induction H0; [exists []; split; auto; constructor|].
      inversion Hs; subst. destruct IHForall2 as (ns & Hl & Hns); auto.
      destruct H as (k & Hk & Hb & _ & Hf).
      assert (M : exists ms, Forall2 (fun i m => exists t v, nth_error (cfields k) i = Some t /\
                          nth_error y i = Some v /\ takes E t v m) (cser k MFootprinting) ms).
      { pose proof (fun i => Hcl x k i Hk) as Hi.
        induction (cser k MFootprinting); [exists []; constructor|].
        destruct IHl0 as (ms & Hms); [intros i Hin; apply Hi; now right|].
        assert (Ha : (a < length (cfields k))%nat) by (apply Hi; now left).
        destruct (nth_error (cfields k) a) as [t|] eqn:Et; [|apply nth_error_None in Et; lia].
        destruct (nth_error y a) as [v|] eqn:Ev.
        2: { apply nth_error_None in Ev. apply Forall2_length in Hf. lia. }
        pose proof (Forall2_nth _ _ _ _ _ _ _ _ Hf Et Ev) as Hty.
        destruct (IH v) with (t := t) as (n & Hn); auto.
        { eapply shallow_in; eauto. eapply nth_error_In; eauto. }
        exists (n :: ms). constructor; eauto. }
      destruct M as (ms & Hms). exists (total ms :: ns). cbn [combine length]. split; [congruence|].
      constructor; auto. exists k, ms. auto. }
    destruct G as (ns & Hl & Hns). eexists. eapply TkClass; eauto. eapply chain_self; eauto.
Qed.
End Foot.
