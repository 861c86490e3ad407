(** Reading data as a view that was not written as one: specification and proofs. *)
From Coq Require Import List NArith Arith Bool Lia.
From Coq.Strings Require Import Byte.
From Verif Require Import Base Syntax Prog Serializers Traverse Spec ProgFacts EnvFacts
  RegistryFacts Unpack ApiFacts Robust RobustFacts Views ViewSpec ViewFacts ViewRound.
From Verif Require Pack.
Import ListNotations.
Local Open Scope N_scope.

(** ** Specification *)

(** What stands before the elements of a view: the type, the label, the rank, the layout
    and the number of elements. *)
Definition start (E : env) (vt : vty) (label : bytes) (rank : N) (l : list N * list N) (n : N) : bytes :=
  le 4 (tix E (vt_name vt)) ++ wlabel E label ++ wint E rank ++ wlayout E vt l ++ wsize E n.

(** One byte that is read as a bool. *)
Definition flag (E : env) (c : byte) : bytes := framed E BOOL 1 [c].
Definition no_bool (c : byte) : Prop := c <> x00 /\ c <> x01.

(** The elements that a new view of the extents and strides found in the data has room for. *)
Definition room (span : list N -> list N -> N) (vt : vty) (l : list N * list N) : N :=
  let ext := firstn (vt_rank vt) (fst l) in
  match vt_kind vt with LStride => span ext (firstn (vt_rank vt) (snd l)) | _ => prod ext end.

(** Data that starts as a view would, but with a bool that is neither false nor true, or
    with contiguous elements that are more than the extents allow. *)
Definition damaged (E : env) (span : list N -> list N -> N) (vt : vty) (d : bytes) : Prop :=
  exists label rank l n c rest,
    len label < two64 /\ rank < 2 ^ 32 /\ layout64 LStride l /\ n < two64 /\
    d = start E vt label rank l n ++ flag E c ++ rest /\
    (no_bool c \/
     exists i rest', rest = flag E i ++ rest' /\
       (no_bool i \/ (c = x01 /\ i = x01 /\ room span vt l < n))).

(** A view that can be used: of the rank of its type, allocated, with memory for all of its
    elements, each of which is an object of the element type. *)
Record usable (E : env) (vt : vty) (v : view) : Prop := {
  us_rank : length (v_ext v) = vt_rank vt;
  us_live : v_live v = true;
  us_memory : has_memory v;
  us_elems : Forall (Robust.valid E (vt_elem vt)) (v_data v)
}.

(** ** Proofs *)
Section Damage.
Variable E : env.
Hypothesis wf : wf_env any E.
Variable T : ty -> Prop.
Hypothesis rd : Robust.readable E T.
Variable span : list N -> list N -> N.
Hypothesis wsp : wf_span span.
Variable U : Prop.
Hypothesis HU : forall t, T t -> by_flag t = true -> U.

Notation R := (fun f => with_ E MUnpacking f).
Notation runs := (runs U).

Lemma le_of : forall k b, length b = k -> le k (unle b) = b.
Proof. intros k b <-. apply le_unle. Qed.

Lemma x_idx : forall t vf s,
  runs (fun _ => with_type_idx E MUnpacking t) vf s (fun _ s' => s = le 4 (tix E t) ++ s').
Proof.
  intros t vf s. unfold with_type_idx. apply runs_contig. intros x s' -> Hx.
  rewrite le_length in Hx.
  destruct (negb (validate_index (unle x)) || negb (tix E t =? unle x)) eqn:Hb.
  - now apply runs_fail.
  - apply runs_ret. apply orb_false_iff in Hb. destruct Hb as (_ & Hb).
    apply negb_false_iff, N.eqb_eq in Hb. now rewrite Hb, le_of.
Qed.

Lemma x_used : forall t n vf s,
  runs (fun _ => with_mem_used E MUnpacking t n) vf s
    (fun _ s' => s = le 8 (wrap64 (sizeof E t * N.of_nat n)) ++ s').
Proof.
  intros t n vf s. unfold with_mem_used. apply runs_contig. intros x s' -> Hx.
  rewrite le_length in Hx.
  destruct (N.eqb_spec (unle x) (wrap64 (sizeof E t * N.of_nat n))) as [Hb|Hb].
  - apply runs_ret. now rewrite <- Hb, le_of.
  - now apply runs_fail.
Qed.

(** A frame around [p]. *)
Lemma x_framed : forall A (p : nat -> prog A) t n vf s (P : A -> bytes -> Prop),
  (forall vf s1, runs p vf s1 (fun a s2 => exists b, s1 = b ++ s2 /\ P a b)) ->
  runs (fun f => if chk E
    then bind (with_type_idx E MUnpacking t) (fun _ => bind (catch (tix E t) (p f)) (fun a =>
         bind (with_mem_used E MUnpacking t n) (fun _ => Ret a)))
    else p f) vf s (fun a s' => exists b, s = framed E t n b ++ s' /\ P a b).
Proof.
  intros A p t n vf s P H. unfold framed. destruct (chk E); [|apply H].
  eapply (runs_bind U _ _ (fun _ => with_type_idx E MUnpacking t)
    (fun f _ => bind (catch (tix E t) (p f)) (fun a =>
         bind (with_mem_used E MUnpacking t n) (fun _ => Ret a)))); [apply x_idx|].
  intros _ vf1 s1 _ ->.
  eapply (runs_bind U _ _ (fun f => catch (tix E t) (p f)) (fun f a =>
         bind (with_mem_used E MUnpacking t n) (fun _ => Ret a))); [apply runs_catch, H|].
  intros a vf2 s2 _ (b & -> & Hp).
  eapply (runs_bind U _ _ (fun _ => with_mem_used E MUnpacking t n) (fun _ _ => Ret a)); [apply x_used|].
  intros _ vf3 s3 _ ->. apply runs_ret. exists b. split; auto. now rewrite <- !app_assoc.
Qed.

Lemma x_object : forall A (p : nat -> prog A) t vf s (P : A -> bytes -> Prop),
  (forall vf s1, runs p vf s1 (fun a s2 => exists b, s1 = b ++ s2 /\ P a b)) ->
  runs (fun f => as_object E MUnpacking t (p f)) vf s
    (fun a s' => exists b, s = framed E t 1 b ++ s' /\ P a b).
Proof. intros. unfold as_object. now apply x_framed. Qed.

Lemma x_traverse : forall t vs vf s (P : list val -> bytes -> Prop),
  (forall vf s1, runs (fun f => ap E MUnpacking (R f) t vs) vf s1
     (fun vs' s2 => exists b, s1 = b ++ s2 /\ P vs' b)) ->
  runs (fun f => R f t vs) vf s
    (fun vs' s' => exists b, s = framed E t (length vs) b ++ s' /\ P vs' b).
Proof. intros. apply runs_shift. cbn [with_]. unfold traverse. now apply x_framed. Qed.

Lemma x_ser : forall t v vf s (P : val -> bytes -> Prop),
  (forall vf s1, runs (fun f => ap E MUnpacking (R f) t [v]) vf s1
     (fun vs' s2 => exists b, s1 = b ++ s2 /\ exists x, vs' = [x] /\ P x b)) ->
  runs (fun f => ser (R f) t v) vf s (fun x s' => exists b, s = framed E t 1 b ++ s' /\ P x b).
Proof.
  intros t v vf s P H. unfold ser.
  apply (runs_bind U _ _ (fun f => R f t [v])
    (fun f vs => match vs with [x] => Ret x | _ => Fail Stuck end) vf s
    (fun vs' s' => exists b, s = framed E t 1 b ++ s' /\ exists x, vs' = [x] /\ P x b)).
  { exact (x_traverse t [v] vf s (fun vs' b => exists x, vs' = [x] /\ P x b) H). }
  intros vs vf1 s1 _ (b & Hs & x & -> & Hp). apply runs_ret. eauto.
Qed.

Lemma x_word : forall id sz n vf s,
  runs (fun f => ser_word (R f) id sz n) vf s
    (fun x s' => exists b, length b = sz /\ x = unle b /\ s = framed E (TPrim id sz) 1 b ++ s').
Proof.
  intros id sz n vf s. unfold ser_word.
  apply (runs_bind U _ _ _ (fun f v => match v with VB b => Ret (unle b) | _ => Fail Stuck end) vf s
    (fun x s' => exists b, s = framed E (TPrim id sz) 1 b ++ s' /\ x = VB b /\ length b = sz)).
  { apply (x_ser (TPrim id sz) (VB (le sz n)) vf s (fun x b => x = VB b /\ length b = sz)).
    intros vf1 s1. unfold ap. cbn [bytecopy map obj_bytes opt_all option_map concat].
    rewrite app_nil_r. apply runs_contig. intros x s'' -> Hx. rewrite le_length in Hx.
    apply runs_ret. exists x. split; auto. exists (VB x). cbn [unflatten obj_bytes obj_setbytes].
    rewrite le_length. rewrite <- Hx at 1. rewrite firstn_all. auto. }
  intros v vf1 s1 _ (b & Hs & -> & Hb). apply runs_ret. eauto.
Qed.

Lemma x_size : forall n vf s,
  runs (fun f => ser_size (R f) n) vf s (fun x s' => x < two64 /\ s = wsize E x ++ s').
Proof.
  intros n vf s. eapply runs_impl; [apply x_word|]. cbn beta.
  intros x s' _ (b & Hb & -> & ->). split.
  - pose proof (unle_bound b) as H. unfold len in H. rewrite Hb in H. exact H.
  - unfold wsize. now rewrite le_of.
Qed.

Lemma x_int : forall n vf s,
  runs (fun f => ser_int (R f) n) vf s (fun x s' => x < 2 ^ 32 /\ s = wint E x ++ s').
Proof.
  intros n vf s. eapply runs_impl; [apply x_word|]. cbn beta.
  intros x s' _ (b & Hb & -> & ->). split.
  - pose proof (unle_bound b) as H. unfold len in H. rewrite Hb in H. exact H.
  - unfold wint. now rewrite le_of.
Qed.

Lemma unle_one : forall c, (unle [c] = 0 <-> c = x00) /\ (unle [c] = 1 <-> c = x01).
Proof. intros c. destruct c; cbn; split; split; intros H; try discriminate; auto. Qed.

Lemma x_bool : forall b vf s,
  (forall c s', s = flag E c ++ s' -> no_bool c -> U) ->
  runs (fun f => ser_bool (R f) b) vf s
    (fun x s' => s = flag E (if x then x01 else x00) ++ s').
Proof.
  intros b vf s HB. unfold ser_bool.
  eapply (runs_bind U _ _ _ (fun f n => if n =? 0 then Ret false else if n =? 1 then Ret true
     else Fail UB)); [apply x_word|].
  intros n vf1 s1 _ (c & Hc & -> & Hs). destruct c as [|c [|]]; try discriminate.
  destruct (unle_one c) as (H0 & H1).
  destruct (N.eqb_spec (unle [c]) 0) as [E0|E0]; [apply H0 in E0; subst; now apply runs_ret|].
  destruct (N.eqb_spec (unle [c]) 1) as [E1|E1]; [apply H1 in E1; subst; now apply runs_ret|].
  apply runs_fail. cbn [caught]. apply (HB c s1 Hs). split; intros ->; tauto.
Qed.

Lemma x_mapP : forall A B (g : nat -> A -> prog B) (h : B -> bytes) (P : B -> Prop) l vf s,
  (forall x vf' s', In x l -> runs (fun f => g f x) vf' s' (fun y s'' => P y /\ s' = h y ++ s'')) ->
  runs (fun f => mapP (g f) l) vf s
    (fun ys s' => length ys = length l /\ Forall P ys /\ s = concat (map h ys) ++ s').
Proof.
  intros A B g h P l. induction l as [|x l IH]; intros vf s H.
  - apply runs_ret. repeat split; auto.
  - apply runs_bind with (Q := fun y s' => P y /\ s = h y ++ s')
      (k := fun f y => bind (mapP (g f) l) (fun ys => Ret (y :: ys))).
    { apply H; auto. now left. }
    intros y vf1 s1 _ (Hp & ->).
    apply runs_bind with (k := fun f ys => Ret (y :: ys))
      (Q := fun ys s' => length ys = length l /\ Forall P ys /\ s1 = concat (map h ys) ++ s').
    { apply IH. intros z vf2 s2 Hz. apply H. now right. }
    intros ys vf2 s2 _ (H1 & H2 & ->). apply runs_ret. cbn [length map concat].
    repeat split; [congruence|now constructor|]. now rewrite <- app_assoc.
Qed.

(** Strings *)
Lemma x_chars : forall b vf s,
  runs (fun f => ser_array (R f) CHAR (chars b)) vf s
    (fun l s' => exists b', length b' = length b /\ l = chars b' /\
       s = warray E CHAR (map (fun c => [c]) b') ++ s').
Proof.
  intros b vf s. unfold ser_array. destruct (chars b) as [|x r] eqn:Ec.
  - apply runs_ret. exists []. destruct b; [auto|discriminate].
  - rewrite <- Ec. assert (Hne : b <> []) by (intros ->; discriminate). clear Ec x r.
    eapply runs_impl.
    { apply (x_traverse CHAR (chars b) vf s (fun l b' => length b' = length b /\ l = chars b')).
      intros vf1 s1. unfold ap. cbn [bytecopy CHAR].
      assert (Ho : opt_all (map (obj_bytes E CHAR) (chars b)) = Some (map (fun c => [c]) b)).
      { unfold chars. rewrite map_map. clear. induction b; cbn [map opt_all obj_bytes]; auto.
        unfold CHAR in *. rewrite IHb. reflexivity. }
      rewrite Ho. apply runs_contig. intros x s2 Hs2 Hx. apply runs_ret. exists x. split; auto.
      assert (Hc : concat (map (fun c : byte => [c]) b) = b)
        by (clear; induction b; cbn; f_equal; auto).
      rewrite Hc in Hx. split; auto. clear -Hx. unfold chars. revert x Hx.
      induction b; intros x Hx; destruct x; cbn [length] in Hx; try discriminate; [reflexivity|].
      cbn [map unflatten]. change (obj_bytes E CHAR (VB [a])) with (Some [a]).
      cbn [length firstn skipn]. change (obj_setbytes E CHAR (VB [a]) [b0]) with (VB [b0]).
      f_equal. apply IHb. lia. }
    cbn beta. intros l s' _ (b' & -> & Hl & ->). exists b'. repeat split; auto.
    f_equal. unfold warray. destruct b' as [|c b']; [destruct b; [contradiction|discriminate]|].
    cbn [map]. change ([c] :: map (fun c0 : byte => [c0]) b') with (map (fun c0 : byte => [c0]) (c :: b')).
    rewrite map_length. f_equal.
    + unfold chars. rewrite map_length. auto.
    + clear. induction (c :: b'); cbn; f_equal; auto.
Qed.

Lemma resize_length : forall A n (d : A) l, length (resize n d l) = n.
Proof. intros. unfold resize. rewrite app_length, firstn_length, repeat_length. lia. Qed.

Lemma x_label : forall b vf s,
  runs (fun f => ser_label (R f) b) vf s (fun b' s' => len b' < two64 /\ s = wlabel E b' ++ s').
Proof.
  intros b vf s. unfold ser_label.
  apply (runs_bind U _ _ _ (fun f v => match v with VStr _ b' => Ret b' | _ => Fail Stuck end) vf s
    (fun x s' => exists body, s = framed E TString 1 body ++ s' /\ exists cap b',
        x = VStr cap b' /\ len b' < two64 /\ body = encb E TString (VStr (len b') b'))).
  { apply (x_ser TString (VStr (len b) b) vf s (fun x body => exists cap b',
        x = VStr cap b' /\ len b' < two64 /\ body = encb E TString (VStr (len b') b'))).
    intros vf1 s1. unfold ap. cbn [bytecopy is_virtual].
    cbn [mapP apply_elem]. unfold ser_string. cbn [is_footprinting].
    apply (runs_bind U _ _ _ (fun f y => Ret [y]) vf1 s1
      (fun x s' => exists body, s1 = body ++ s' /\ exists cap b',
        x = VStr cap b' /\ len b' < two64 /\ body = encb E TString (VStr (len b') b'))).
    - eapply (runs_bind U _ _ _ (fun f n =>
          bind (ser_array (R f) CHAR (chars (resize (N.to_nat n) x00 b))) (fun l =>
          bind (of_opt (unchars l)) (fun b2 => Ret (VStr (N.max (len b) (len b2)) b2)))));
          [apply x_size|].
      intros n vf2 s2 _ (Hn & ->).
      eapply (runs_bind U _ _ _ (fun f l =>
          bind (of_opt (unchars l)) (fun b2 => Ret (VStr (N.max (len b) (len b2)) b2))));
          [apply x_chars|].
      intros l vf3 s3 _ (b' & Hl & -> & ->). rewrite resize_length in Hl.
      rewrite Pack.unchars_chars. cbn [of_opt bind]. apply runs_ret.
      assert (Hb : len b' = n) by (unfold len; rewrite Hl; lia).
      exists (encb E TString (VStr (len b') b')). split.
      + cbn [encb]. now rewrite Hb, <- app_assoc.
      + eexists _, b'. rewrite Hb. auto.
    - intros x vf2 s2 _ (body & Hs & H). apply runs_ret. exists body. split; auto. eauto. }
  intros x vf1 s1 _ (body & -> & cap & b' & -> & Hb & ->). apply runs_ret. auto.
Qed.

Lemma x_layout : forall vt vf s,
  runs (fun f => as_object E MUnpacking (vt_layout_name vt)
      (ser_layout (R f) (vt_kind vt) new_layout)) vf s
    (fun l s' => layout64 LStride l /\ s = wlayout E vt l ++ s').
Proof.
  intros vt vf s.
  eapply runs_impl.
  { apply (x_object _ (fun f => ser_layout (R f) (vt_kind vt) new_layout) (vt_layout_name vt) vf s
      (fun l b => layout64 LStride l /\ b = match vt_kind vt with
        | LStride => concat (map (fun p => wsize E (fst p) ++ wsize E (snd p)) (combine (fst l) (snd l)))
        | _ => concat (map (wsize E) (fst l)) end)).
    intros vf1 s1. unfold ser_layout, new_layout. cbn [fst snd].
    assert (HLR : runs (fun f => bind (mapP (ser_size (R f)) (repeat no_dim 8))
        (fun ds => Ret (ds, repeat 0 8))) vf1 s1
      (fun a s2 => exists b, s1 = b ++ s2 /\ layout64 LStride a /\ b = concat (map (wsize E) (fst a)))).
    { eapply (runs_bind U _ _ _ (fun f ds => Ret (ds, repeat 0 8))).
      { apply (x_mapP _ _ (fun f => ser_size (R f)) (wsize E) (fun x => x < two64)).
        intros x vf2 s2 _. apply x_size. }
      intros ds vf2 s2 _ (H1 & H2 & Hs). apply runs_ret. eexists. split; [exact Hs|].
      rewrite repeat_length in H1. split; auto. split; auto. split; [apply repeat_length|].
      split; auto. intros _. apply Forall_forall. intros x Hx. apply repeat_spec in Hx. now subst. }
    destruct (vt_kind vt); auto. clear HLR.
    eapply (runs_bind U _ _ _ (fun f ps => Ret (split ps))).
    { apply (x_mapP _ _ (fun f p => bind (ser_size (R f) (fst p)) (fun d =>
          bind (ser_size (R f) (snd p)) (fun s => Ret (d, s))))
        (fun p => wsize E (fst p) ++ wsize E (snd p)) (fun p => fst p < two64 /\ snd p < two64)).
      intros x vf2 s2 _.
      eapply (runs_bind U _ _ _ (fun f d => bind (ser_size (R f) (snd x)) (fun s => Ret (d, s))));
        [apply x_size|].
      intros d vf3 s3 _ (Hd & ->).
      eapply (runs_bind U _ _ _ (fun f s => Ret (d, s))); [apply x_size|].
      intros d' vf4 s4 _ (Hd' & ->). apply runs_ret. cbn [fst snd]. split; auto.
      now rewrite <- app_assoc. }
    intros ps vf2 s2 _ (H1 & H2 & Hs). apply runs_ret. eexists. split; [exact Hs|].
    rewrite combine_length, !repeat_length in H1.
    pose proof (split_combine ps) as Hc. destruct (split ps) as [l1 l2] eqn:Hsp. cbn [fst snd].
    pose proof (split_length_l ps) as L1. pose proof (split_length_r ps) as L2.
    rewrite Hsp in L1, L2. cbn [fst snd] in L1, L2.
    specialize (Hc _ _ eq_refl). split; [|now rewrite Hc].
    split; [cbn [fst]; cbn in H1; lia|]. split; [cbn [snd]; cbn in H1; lia|].
    rewrite <- Hc in H2. cbn [fst snd].
    assert (Hl : length l1 = length l2) by congruence. clear -H2 Hl.
    revert l2 H2 Hl. induction l1; intros [|b l2] H2 Hl; try discriminate; [split; auto|].
    cbn [combine] in H2. inversion H2 as [|? ? (Ha & Hb) H3]; subst. cbn [fst snd] in *.
    destruct (IHl1 l2 H3) as (H4 & H5); [now injection Hl|].
    split; [now constructor|]. intros _. constructor; auto. }
  cbn beta. intros l s' _ (b & -> & H1 & ->). split; auto.
Qed.

(** ** Elements *)
Lemma run_one : forall t v vf s, T t -> Robust.valid E t v ->
  runs (fun f => ser (R f) t v) vf s (fun v' _ => Robust.valid E t v').
Proof.
  intros t v vf s Ht Hv. pose proof (fits_of E T t v Ht Hv) as Hf. unfold ser.
  eapply (runs_bind U _ _ _ (fun f vs => match vs with [x] => Ret x | _ => Fail Stuck end)).
  { apply (run_all E wf T rd U HU (length s) (depth v)); auto. }
  intros vs' vf1 s1 Hl1 (H1 & _). inversion H1 as [|? x ? ? Hx Hnil]; subst.
  inversion Hnil; subst. rewrite (dty_valid E) in Hx by auto. now apply runs_ret.
Qed.

Lemma run_elems : forall t vs vf s, T t -> Forall (Robust.valid E t) vs ->
  runs (fun f => ser_array (R f) t vs) vf s
    (fun vs' _ => length vs' = length vs /\ Forall (Robust.valid E t) vs').
Proof.
  intros t vs vf s Ht Hv. unfold ser_array. destruct vs as [|v vs]; [now apply runs_ret|].
  remember (v :: vs) as l. clear v vs Heql.
  eapply runs_impl.
  { apply (run_all E wf T rd U HU (length s) (fold_right (fun v m => Nat.max (depth v) m) O l)); auto.
    - eapply Forall_impl; [|exact Hv]. intros v. now apply fits_of.
    - clear. induction l; constructor; cbn [fold_right]; [lia|].
      eapply Forall_impl; [|exact IHl]. cbn beta. intros. lia. }
  cbn beta. intros vs' s' _ (H & _). split; [symmetry; exact (Forall2_length _ _ _ _ _ H)|].
  clear -H Hv. induction H; constructor; inversion Hv; subst; auto.
  now rewrite (dty_valid E) in H.
Qed.

Lemma runs_peq : forall A (p q : nat -> prog A) vf s Q,
  (forall f, peq (p f) (q f)) -> runs q vf s Q -> runs p vf s Q.
Proof.
  intros A p q vf s Q H (f0 & r & Hr & Hq). exists f0, r. split; auto.
  intros f Hf. rewrite H. auto.
Qed.

Lemma Forall_upd : forall A (P : A -> Prop) l i x, P x -> Forall P l -> Forall P (upd l i x).
Proof.
  induction l; intros i x Hx Hl; destruct i; cbn [upd]; auto; inversion Hl; subst; constructor; auto.
Qed.

Section Fill.
Variables (t : ty) (d : val) (nv : view).
Hypothesis Ht : T t.
Hypothesis Hd : dflt E t = Some d.
Hypothesis Hm : has_memory nv.

Definition kept (v : view) : Prop := same_shape nv v /\ Forall (Robust.valid E t) (v_data v).

Lemma kept_memory : forall v, kept v -> has_memory v.
Proof.
  intros v ((_ & H2 & H3 & _ & H5) & _) idx Hi. rewrite H2 in Hi. rewrite H3.
  unfold len. rewrite H5. exact (Hm idx Hi).
Qed.

Lemma kept_upd : forall v i x, kept v -> Robust.valid E t x -> kept (with_data v (upd (v_data v) i x)).
Proof.
  intros v i x ((H1 & H2 & H3 & H4 & H5) & H6) Hx. split.
  - repeat split; auto. cbn [v_data with_data]. now rewrite upd_length.
  - cbn [v_data with_data]. now apply Forall_upd.
Qed.

Lemma run_visit : forall v idx vf s, kept v -> in_bounds idx (v_ext nv) ->
  runs (fun f => visit E MUnpacking (R f) t idx v) vf s (fun v' _ => kept v').
Proof.
  intros v idx vf s Hk Hi. unfold visit. cbn [is_unpacking]. rewrite Hd. cbn [of_opt bind].
  eapply (runs_bind U _ _ _ (fun f x => Views.valid (set_at v idx x))).
  { apply run_one; auto. eapply dflt_valid; eauto. }
  intros x vf1 s1 _ Hx. rewrite set_at_some.
  - cbn [Views.valid]. apply runs_ret. now apply kept_upd.
  - apply (kept_memory v Hk). destruct Hk as ((_ & He & _) & _). now rewrite He.
Qed.

Lemma run_manual : forall vf s, kept nv -> (length (v_ext nv) <= 8)%nat ->
  runs (fun f => traverse_manual E MUnpacking (R f) (length (v_ext nv)) t nv) vf s
    (fun v' _ => kept v').
Proof.
  intros vf s Hk Hr.
  destruct (Nat.eq_dec (length (v_ext nv)) 0) as [H0|H0].
  - rewrite H0. cbn [traverse_manual]. unfold trav0, visit0. cbn [is_unpacking].
    assert (Hin : in_bounds [] (v_ext nv)) by (destruct (v_ext nv); [constructor|discriminate]).
    destruct (at_some nv [] (Hm [] Hin)) as (x & Hx). rewrite Hx. cbn [Views.valid bind].
    eapply (runs_bind U _ _ _ (fun f y => Views.valid (set_at nv [] y))).
    { apply run_one; auto. destruct Hk as (_ & Hv). rewrite Forall_forall in Hv.
      apply Hv. eapply at_in; eauto. }
    intros y vf1 s1 _ Hy. rewrite set_at_some by now apply Hm.
    cbn [Views.valid]. apply runs_ret. now apply kept_upd.
  - eapply runs_peq.
    { intros f. rewrite traverse_nest by lia. apply nest_foldP. }
    apply (runs_foldP U _ _ (fun f s idx => visit E MUnpacking (R f) t idx s) (fun v _ => kept v)); auto.
    intros v idx vf1 s1 Hin _ Hv. apply run_visit; auto. now apply in_indices.
Qed.

Lemma run_data : forall n vf s, kept nv -> (len (v_data nv) < n -> U) ->
  runs (fun f => ser_data (R f) t n nv) vf s (fun v' _ => kept v').
Proof.
  intros n vf s (Hs & Hv) Hn. unfold ser_data. destruct (N.ltb_spec (len (v_data nv)) n) as [Hl|Hl].
  { apply runs_fail. cbn [caught]. auto. }
  eapply (runs_bind U _ _ _ (fun f l => Ret (with_data nv (l ++ skipn (N.to_nat n) (v_data nv))))).
  { apply run_elems; auto. now apply Forall_firstn'. }
  intros l vf1 s1 _ (Hll & Hlv). apply runs_ret. split.
  - repeat split; auto. cbn [v_data with_data]. rewrite app_length, Hll, <- app_length, firstn_skipn. auto.
  - cbn [v_data with_data]. apply Forall_app. split; auto.
    rewrite <- (firstn_skipn (N.to_nat n) (v_data nv)) in Hv. apply Forall_app in Hv. tauto.
Qed.
End Fill.

(** ** Views *)
Lemma run_view : forall vt d w vf s s0,
  vt_managed vt = true \/ asserts E = false -> (vt_rank vt <= 8)%nat -> T (vt_elem vt) ->
  dflt E (vt_elem vt) = Some d ->
  s0 = le 4 (tix E (vt_name vt)) ++ s -> (damaged E span vt s0 -> U) ->
  runs (fun f => ser_view E span MUnpacking (R f) vt w) vf s (fun v _ => usable E vt v).
Proof.
  intros vt d w vf s s0 Hman Hr Ht Hd Hs0 HD. unfold ser_view. cbn [is_unpacking].
  replace (asserts E && negb (vt_managed vt)) with false
    by (destruct (asserts E), (vt_managed vt), Hman; auto; discriminate).
  cbn [bind].
  match goal with |- runs (fun f => bind _ (@?k f)) _ _ _ => eapply (runs_bind U _ _ _ k) end;
    [apply x_label|].
  intros label vf1 s1 _ (H1 & Hs1). cbn beta.
  match goal with |- runs (fun f => bind _ (@?k f)) _ _ _ => eapply (runs_bind U _ _ _ k) end;
    [apply x_int|].
  intros rank vf2 s2 _ (H2 & Hs2). cbn beta.
  match goal with |- runs (fun f => bind _ (@?k f)) _ _ _ => eapply (runs_bind U _ _ _ k) end;
    [apply x_layout|].
  intros l vf3 s3 _ (H3 & Hs3). cbn beta. unfold new_view. rewrite Hd. cbn [of_opt bind].
  set (ext := firstn (vt_rank vt) (fst l)). set (str := firstn (vt_rank vt) (snd l)).
  set (nv := {| v_label := label |}).
  assert (Hn : len (v_data nv) = room span vt l).
  { unfold nv, len. cbn [v_data]. rewrite repeat_length, N2Nat.id. reflexivity. }
  assert (Hm : has_memory nv).
  { intros idx Hi. rewrite Hn. unfold room. fold ext str. cbn [v_ext v_str nv] in Hi |- *.
    unfold nv. cbn [v_str].
    destruct (vt_kind vt); try now apply natural_bound.
    apply wsp; auto. unfold ext, str. rewrite !firstn_length.
    destruct H3 as (L1 & L2 & _). lia. }
  assert (Hk : kept (vt_elem vt) nv nv).
  { split; [repeat split; auto|]. cbn [v_data nv]. apply Forall_forall. intros x Hx.
    apply repeat_spec in Hx. subst. eapply dflt_valid; eauto. }
  assert (Hext : length (v_ext nv) = vt_rank vt).
  { cbn [nv v_ext]. unfold ext. rewrite firstn_length. destruct H3 as (L1 & _). lia. }
  assert (Huse : forall v, kept (vt_elem vt) nv v -> usable E vt v).
  { intros v Hv. constructor.
    - destruct Hv as ((_ & -> & _) & _). auto.
    - destruct Hv as ((_ & _ & _ & -> & _) & _). auto.
    - eapply kept_memory; eauto.
    - apply Hv. }
  match goal with |- runs (fun f => bind _ (@?k f)) _ _ _ => eapply (runs_bind U _ _ _ k) end;
    [apply x_size|].
  intros n vf4 s4 _ (H4 & Hs4). cbn beta.
  assert (Hst : s0 = start E vt label rank l n ++ s4).
  { unfold start. rewrite Hs0, Hs1, Hs2, Hs3, Hs4. now rewrite <- !app_assoc. }
  match goal with |- runs (fun f => bind _ (@?k f)) _ _ _ => eapply (runs_bind U _ _ _ k) end.
  { apply x_bool. intros c s' Hc Hb. apply HD. exists label, rank, l, n, c, s'.
    repeat (split; [assumption|]). split; [now rewrite Hst, Hc|]. now left. }
  intros cg vf5 s5 _ Hs5. cbn beta.
  match goal with |- runs (fun f => bind _ (@?k f)) _ _ _ => eapply (runs_bind U _ _ _ k) end.
  { apply x_bool. intros c s' Hc Hb. apply HD.
    exists label, rank, l, n, (if cg then x01 else x00), s5.
    repeat (split; [assumption|]). split; [now rewrite Hst, Hs5|]. right. exists c, s'. auto. }
  intros ini vf6 s6 _ Hs6. cbn beta. destruct ini; [|apply runs_ret; auto].
  eapply runs_impl; [|intros v s' _; apply Huse].
  destruct cg.
  - apply run_data; auto. intros Hlt. apply HD.
    exists label, rank, l, n, x01, s5. repeat (split; [assumption|]).
    split; [now rewrite Hst, Hs5|]. right. exists x01, s6. split; auto. right.
    repeat split; auto. now rewrite <- Hn.
  - rewrite <- Hext. eapply run_manual; eauto. lia.
Qed.

Lemma run_root_view : forall vt d w s,
  vt_managed vt = true \/ asserts E = false -> (vt_rank vt <= 8)%nat -> T (vt_elem vt) ->
  dflt E (vt_elem vt) = Some d -> (damaged E span vt s -> U) ->
  runs (fun f => root_view E span f MUnpacking vt w) false s (fun v _ => usable E vt v).
Proof.
  intros vt d w s Hman Hr Ht Hd HD. unfold root_view, root_object.
  assert (Hb : forall vf s', s = le 4 (tix E (vt_name vt)) ++ s' ->
    runs (fun f => if vt_const vt then ser_const_view E span MUnpacking (R f) vt w
                   else ser_view E span MUnpacking (R f) vt w) vf s' (fun v _ => usable E vt v)).
  { intros vf s' Hs. destruct (vt_const vt); [|eapply run_view; eauto].
    unfold ser_const_view. cbn [is_packing is_unpacking]. unfold new_view at 1.
    rewrite Hd. cbn [of_opt bind].
    match goal with |- runs (fun f => bind _ (@?k f)) _ _ _ => eapply (runs_bind U _ _ _ k) end;
      [eapply run_view; eauto|].
    intros v vf1 s1 _ Hv. now apply runs_ret. }
  unfold as_object. destruct (chk E).
  - eapply (runs_bind U _ _ (fun _ => with_type_idx E MUnpacking (vt_name vt)) (fun f _ => _));
      [apply x_idx|].
    intros u vf1 s1 _ Hs.
    match goal with |- runs (fun f => bind _ (@?k f)) _ _ _ => eapply (runs_bind U _ _ _ k) end;
      [apply runs_catch; apply Hb; auto|].
    intros v vf2 s2 _ Hv. cbn beta.
    match goal with |- runs (fun f => bind _ (@?k f)) _ _ _ => eapply (runs_bind U _ _ _ k) end;
      [apply x_used|].
    intros u' vf3 s3 _ _. now apply runs_ret.
  - eapply (runs_bind U _ _ (fun _ => with_type_idx E MUnpacking (vt_name vt)) (fun f _ => _));
      [apply x_idx|].
    intros u vf1 s1 _ Hs.
    match goal with |- runs (fun f => bind _ (@?k f)) _ _ _ => eapply (runs_bind U _ _ _ k) end;
      [apply Hb; auto|].
    intros v vf2 s2 _ Hv. cbn beta.
    match goal with |- runs (fun f => bind _ (@?k f)) _ _ _ => eapply (runs_bind U _ _ _ k) end;
      [apply x_used|].
    intros u' vf3 s3 _ _. now apply runs_ret.
Qed.
End Damage.

(** ** The converse *)
Section Undefined.
Variable E : env.
Hypothesis wf : wf_env any E.
Variable span : list N -> list N -> N.
Variable f : nat.
Hypothesis Hf : (2 < f)%nat.
Notation m := MUnpacking.
Notation rec := (with_ E m f).
Notation rdr := (reader RtErr).
Let UA := proj1 (unpack_all any E wf Cany N.le Cany_any Cany_max f).
Let Hf1 : (1 <= f)%nat. Proof. lia. Qed.

Lemma after_reads : forall (A B : Type) (p : prog A) (k : A -> prog B) vf i a vf' rest,
  reads p vf i a vf' -> interp rdr (bind p k) vf (i ++ rest) = interp rdr (k a) vf' rest.
Proof. intros A B p k vf i a vf' rest H. rewrite interp_bind, (H RtErr rest). reflexivity. Qed.

Lemma r_idx : forall t, reads (with_type_idx E m t) false (le 4 (tix E t)) tt false.
Proof.
  intros t. destruct (tix_ok any E wf t) as (Hu & Hval).
  unfold with_type_idx. eapply reads_eq; [|apply app_nil_r].
  apply reads_contig; [now rewrite !le_length|].
  cbn zeta. rewrite Hu, Hval, N.eqb_refl. apply reads_ret.
Qed.

Lemma bool_or_not : forall c, no_bool c \/ exists b : bool, c = if b then x01 else x00.
Proof.
  intros c. destruct (Byte.byte_eq_dec c x00); [right; now exists false|].
  destruct (Byte.byte_eq_dec c x01); [right; now exists true|]. left. now split.
Qed.

Lemma wbool_flag : forall b, wbool E b = flag E (if b then x01 else x00).
Proof. now destruct b. Qed.

Lemma bad_bool : forall (A : Type) b c rest (k : bool -> prog A), no_bool c ->
  interp rdr (bind (ser_bool rec b) k) false (flag E c ++ rest) = Err UB.
Proof.
  intros A b c rest k (H0 & H1). unfold ser_bool.
  rewrite interp_bind. unfold flag.
  assert (Hc : [c] = le 1 (unle [c])) by (symmetry; exact (le_unle [c])). rewrite Hc.
  rewrite (after_reads _ _ _ _ _ _ (unle [c]) false);
    [|apply (u_word E Cany N.le rec f UA); auto; apply (unle_bound [c])].
  destruct (unle_one c) as (U0 & U1).
  destruct (N.eqb_spec (unle [c]) 0) as [X|X]; [apply U0 in X; contradiction|].
  destruct (N.eqb_spec (unle [c]) 1) as [Y|Y]; [apply U1 in Y; contradiction|].
  reflexivity.
Qed.

Lemma bad_view : forall vt d w rest label rank l n c,
  vt_managed vt = true \/ asserts E = false -> dflt E (vt_elem vt) = Some d ->
  len label < two64 -> rank < 2 ^ 32 -> layout64 LStride l -> n < two64 ->
  (no_bool c \/
     exists i rest', rest = flag E i ++ rest' /\
       (no_bool i \/ (c = x01 /\ i = x01 /\ room span vt l < n))) ->
  interp rdr (ser_view E span m rec vt w) false
    (wlabel E label ++ wint E rank ++ wlayout E vt l ++ wsize E n ++ flag E c ++ rest) = Err UB.
Proof.
  intros vt d w rest label rank l n c Hman Hd H1 H2 H3 H4 Hbad. unfold ser_view. cbn [is_unpacking].
  replace (asserts E && negb (vt_managed vt)) with false
    by (destruct (asserts E), (vt_managed vt), Hman; auto; discriminate).
  cbn [bind].
  rewrite (after_reads _ _ _ _ _ _ label false) by now apply r_label.
  rewrite (after_reads _ _ _ _ _ _ rank false) by (apply (u_int E Cany N.le rec f UA); auto).
  rewrite (after_reads _ _ _ _ _ _ (fst l, match vt_kind vt with LStride => snd l | _ => repeat 0 8 end) false).
  2:{ apply r_layout; auto. destruct H3 as (L1 & L2 & L3 & L4). repeat split; auto. }
  cbn [fst snd]. unfold new_view. rewrite Hd. cbn [of_opt bind].
  rewrite (after_reads _ _ _ _ _ _ n false) by (apply (u_size E Cany N.le rec f UA); auto).
  destruct (bool_or_not c) as [Hc|(cb & Hc)]; [now apply bad_bool|].
  destruct Hbad as [(B0 & B1)|(i & rest' & -> & Hbad)]; [destruct cb; contradiction|].
  rewrite Hc, <- wbool_flag.
  rewrite (after_reads _ _ _ _ _ _ cb false) by (apply (u_bool E Cany N.le rec f UA); auto).
  destruct (bool_or_not i) as [Hi|(ib & Hi)]; [now apply bad_bool|].
  destruct Hbad as [(B0 & B1)|(B0 & B1 & B2)]; [destruct ib; contradiction|].
  rewrite Hi, <- wbool_flag.
  rewrite (after_reads _ _ _ _ _ _ ib false) by (apply (u_bool E Cany N.le rec f UA); auto).
  destruct ib; [|congruence]. destruct cb; [|congruence].
  unfold ser_data. cbn [v_data]. unfold len. rewrite repeat_length, N2Nat.id.
  unfold room in B2. destruct (vt_kind vt);
    match goal with |- interp _ (if ?a <? ?b then _ else _) _ _ = _ => destruct (N.ltb_spec a b) end;
    try reflexivity; lia.
Qed.

Lemma root_undefined : forall vt d w s,
  vt_managed vt = true \/ asserts E = false -> dflt E (vt_elem vt) = Some d ->
  damaged E span vt s -> interp rdr (root_view E span f m vt w) false s = Err UB.
Proof.
  intros vt d w s Hman Hd (label & rank & l & n & c & rest & H1 & H2 & H3 & H4 & -> & Hbad).
  unfold start. rewrite <- !app_assoc.
  set (tail := wlabel E label ++ wint E rank ++ wlayout E vt l ++ wsize E n ++ flag E c ++ rest).
  assert (Hb : interp rdr (if vt_const vt then ser_const_view E span m rec vt w
      else ser_view E span m rec vt w) false tail = Err UB).
  { unfold tail. destruct (vt_const vt).
    - unfold ser_const_view. cbn [is_packing is_unpacking]. unfold new_view at 1. rewrite Hd.
      cbn [of_opt bind]. rewrite interp_bind. erewrite bad_view; eauto.
    - eapply bad_view; eauto. }
  unfold root_view, root_object, as_object. destruct (chk E).
  - rewrite (after_reads _ _ _ _ _ _ tt false) by apply r_idx.
    rewrite interp_bind. erewrite interp_catch_err; eauto; [reflexivity|].
    intros i b s0 e0 H. cbn [contig reader] in H.
    destruct (split_at (length b) s0) as [[? ?]|]; inversion H; subst. reflexivity.
  - rewrite (after_reads _ _ _ _ _ _ tt false) by apply r_idx.
    rewrite interp_bind, Hb. reflexivity.
Qed.
End Undefined.
