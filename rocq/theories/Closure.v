(** A proof principle: what holds of the basic operations and is preserved by
    sequencing holds of the whole traversal.

    [good b b' p]: started with the virtual-dispatch flag [b], [p] has the
    property of interest and leaves the flag [b']. *)
From Coq Require Import List NArith Arith Bool Lia.
From Verif Require Import Base Syntax Prog Serializers Traverse Message ProgFacts.
Import ListNotations.
Local Open Scope N_scope.

(** The error is a serialization_error. *)
Definition reports (e : fail) : bool := match e with SerErr _ _ => true | _ => false end.

Section Closure.
Variable good_ : bool -> bool -> forall A, prog A -> Prop.
Local Notation good b b' p := (good_ b b' _ p).
Hypothesis g_ret : forall b A (a : A), good b b (Ret a).
Hypothesis g_fail : forall b b' A e, reports e = false -> good_ b b' A (Fail e).
Local Ltac fl := apply g_fail; reflexivity.
Hypothesis g_bind : forall b b' b'' A B (p : prog A) (f : A -> prog B),
  good b b' p -> (forall a, good b' b'' (f a)) -> good b b'' (bind p f).
Hypothesis g_contig : forall b b' A x (k : bytes -> prog A),
  (forall y, length y = length x -> good b b' (k y)) -> good b b' (Contig x k).
Hypothesis g_count : forall b b' A n (k : prog A), good b b' k -> good b b' (Count n k).
Hypothesis g_getv : forall b b' A (k : bool -> prog A), good b b' (k b) -> good b b' (GetV k).
Hypothesis g_setv : forall b b' c A (k : prog A), good c b' k -> good b b' (SetV c k).
Hypothesis g_catch : forall b b' A t (p : prog A), good b b' p -> good b b' (catch t p).
Hypothesis g_construct : forall b b' A t (k : prog A),
  good b b' k -> good b b' (Note (EvConstruct t) k).
Hypothesis g_abandon : forall b b' A t v (k : prog A),
  good b b' k -> good b b' (Note (EvAbandon t v) k).
Hypothesis g_first : forall b b' A t (k : prog A),
  good b b' k -> good b b' (Note (EvFirst t) k).
Hypothesis g_report : forall b b' A d l, good_ b b' A (Fail (SerErr d l)).
(** A user's serialize function runs in between. *)
Hypothesis g_call : forall c A B (p : prog A) (g : A -> B),
  good false false p ->
  good false false (Note (EvSerialize c) (bind p (fun x => Note (EvReturn c) (Ret (g x))))).

Variable E : env.
Hypothesis nobv : forall c k, cls E c = Some k -> cbyte k = true -> cvirt k = false.
Hypothesis g_registry : forall b b' A c (k : prog A), is_virtual E (TClass c) = true ->
  good b b' k -> good b b' (Note (EvRegistry c) k).
Variable m : mode.

Lemma g_of_opt : forall b A (o : option A), good b b (of_opt o).
Proof. intros b A [a|]; [apply g_ret|fl]. Qed.

Lemma g_mapP : forall b A B (f : A -> prog B) l, (forall x, good b b (f x)) -> good b b (mapP f l).
Proof.
  intros b A B f l H. induction l; cbn [mapP]; [apply g_ret|].
  eapply g_bind; [apply H|]. intros y. eapply g_bind; [apply IHl|]. intros. apply g_ret.
Qed.
Lemma g_foldP : forall b A B (f : B -> A -> prog B) l acc, (forall y x, good b b (f y x)) ->
  good b b (foldP f l acc).
Proof.
  intros b A B f l. induction l; intros acc H; cbn [foldP]; [apply g_ret|].
  eapply g_bind; [apply H|]. intros. now apply IHl.
Qed.

Lemma g_type_idx : forall b t, good b b (with_type_idx E m t).
Proof.
  intros b t. unfold with_type_idx. destruct m; try apply g_ret; apply g_contig; intros;
    try apply g_ret. destruct (_ || _); [apply g_report|apply g_ret].
Qed.
Lemma g_mem_used : forall b t n, good b b (with_mem_used E m t n).
Proof.
  intros b t n. unfold with_mem_used. destruct m; try apply g_ret; apply g_contig; intros;
    try apply g_ret. destruct (_ =? _); [apply g_ret|apply g_report].
Qed.

Section Rec.
Variable rec : ty -> list val -> prog (list val).
(** The types at which the recursive call is known to be good. *)
Variable R : ty -> Prop.
Hypothesis Hrec : forall t vs, R t -> good false false (rec t vs).
Hypothesis HrecV : forall t vs, R t -> is_virtual E t = true -> good true false (rec t vs).

Lemma g_ser_gen : forall b t v, good b false (rec t [v]) -> good b false (ser rec t v).
Proof.
  intros b t v H. unfold ser. eapply g_bind; [exact H|]. intros [|x [|? ?]]; first [apply g_ret|fl].
Qed.
Lemma g_ser : forall t v, R t -> good false false (ser rec t v).
Proof. intros. apply g_ser_gen. now apply Hrec. Qed.
Lemma g_word : forall i s n, R (TPrim i s) -> good false false (ser_word rec i s n).
Proof.
  intros. unfold ser_word. eapply g_bind; [now apply g_ser|]. intros []; first [apply g_ret|fl].
Qed.
Lemma g_size : forall n, R SIZE -> good false false (ser_size rec n).
Proof. intros. now apply g_word. Qed.
Lemma g_bool : forall x, R BOOL -> good false false (ser_bool rec x).
Proof.
  intros. unfold ser_bool. eapply g_bind; [now apply g_word|]. intros n.
  destruct (n =? 0); [apply g_ret|]. destruct (n =? 1); [apply g_ret|fl].
Qed.
Lemma g_array : forall t vs, R t -> good false false (ser_array rec t vs).
Proof. intros t [] Ht; cbn [ser_array]; [apply g_ret|now apply Hrec]. Qed.
Lemma g_cons : forall t, good false false (construct E t).
Proof. intros t. unfold construct. apply g_construct, g_of_opt. Qed.
Lemma g_vmeta : forall c n, R SIZE -> good false false (ser_vector_meta rec c n).
Proof.
  intros. unfold ser_vector_meta. eapply g_bind; [now apply g_size|]. intros.
  eapply g_bind; [now apply g_size|]. intros. apply g_ret.
Qed.
Lemma g_leave : forall t x A (k : prog A), good false false k -> good false false (leave E t x k).
Proof. intros. unfold leave. destruct (movec E t); auto. Qed.
Lemma g_leave_elem : forall a t x A (k : prog A), good false false k ->
  good false false (leave_elem E a t x k).
Proof.
  intros. pose proof (fun t x => g_leave t x A k H) as Hl. unfold leave_elem.
  destruct a as [mu [|]|mu [|]]; try apply Hl; destruct t; try apply Hl; destruct x; try apply Hl;
    destruct l as [|ke [|ve [|]]]; try apply Hl; apply g_abandon, Hl.
Qed.
Lemma g_vdata : forall t n l, good false false (construct_vector_data E t n l).
Proof.
  intros t n l. unfold construct_vector_data. destruct (defc E t).
  - eapply g_bind; [apply g_of_opt|]. intros. apply g_ret.
  - destruct (copyc E t).
    + eapply g_bind; [apply g_cons|]. intros. apply g_abandon, g_ret.
    + apply g_foldP. intros. eapply g_bind; [apply g_cons|]. intros. apply g_leave, g_ret.
Qed.
Lemma g_vector : forall t c l, R SIZE -> R t -> good false false (ser_vector E m rec t c l).
Proof.
  intros t c l Hs Ht. unfold ser_vector. destruct (is_footprinting m).
  - apply g_count. eapply g_bind; [now apply g_array|]. intros. apply g_count, g_ret.
  - eapply g_bind; [now apply g_vmeta|]. intros [c' n]. eapply g_bind.
    + destruct (is_unpacking m); [apply g_vdata|apply g_ret].
    + intros. eapply g_bind; [now apply g_array|]. intros. apply g_ret.
Qed.
Lemma g_vecbool : forall c l, R SIZE -> R BOOL -> good false false (ser_vecbool E m rec c l).
Proof.
  intros c l Hs Ht. unfold ser_vecbool. destruct (is_footprinting m).
  - apply g_count, g_ret.
  - eapply g_bind; [now apply g_vmeta|]. intros [c' n]. destruct (is_unpacking m).
    + eapply g_bind; [|intros; apply g_ret]. apply g_mapP. intros.
      eapply g_bind; [now apply g_bool|]. intros. apply g_ret.
    + eapply g_bind; [|intros; apply g_ret]. apply g_mapP. intros. now apply g_ser.
Qed.
Lemma g_string : forall c b, R SIZE -> R CHAR -> good false false (ser_string E m rec c b).
Proof.
  intros c b Hs Ht. unfold ser_string. destruct (is_footprinting m).
  - apply g_count. eapply g_bind; [now apply g_array|]. intros. apply g_ret.
  - eapply g_bind; [now apply g_size|]. intros. eapply g_bind; [now apply g_array|]. intros.
    eapply g_bind; [apply g_of_opt|]. intros. apply g_ret.
Qed.
Lemma g_stdarray : forall t l, R t -> good false false (ser_stdarray rec t l).
Proof. intros. unfold ser_stdarray. eapply g_bind; [now apply g_array|]. intros. apply g_ret. Qed.
Lemma g_csize : forall ct n, R SIZE -> good false false (ser_container_size E m rec ct n).
Proof.
  intros. unfold ser_container_size. destruct (is_footprinting m); [apply g_count, g_ret|now apply g_size].
Qed.
Lemma g_elems : forall t l, R t -> good false false (ser_container_elems rec t l).
Proof. intros. apply g_mapP. intros. now apply g_ser. Qed.
Lemma g_push : forall A t l (acc : list val), R t ->
  good false false (foldP (fun acc (_ : A) => bind (construct E t) (fun d => bind (ser rec t d) (fun x => leave E t x (Ret (acc ++ [x]))))) l acc).
Proof.
  intros. apply g_foldP. intros. eapply g_bind; [apply g_cons|]. intros.
  eapply g_bind; [now apply g_ser|]. intros. apply g_leave, g_ret.
Qed.
Lemma g_ordered : forall t n l, R t -> good false false (deser_ordered E rec t n l).
Proof.
  intros. unfold deser_ordered. destruct (copyc E t); [|now apply g_push].
  eapply g_bind; [apply g_cons|]. intros. apply g_abandon. now apply g_elems.
Qed.
Lemma g_list : forall ct t l, R SIZE -> R t -> good false false (ser_list E m rec ct t l).
Proof.
  intros. unfold ser_list. eapply g_bind; [now apply g_csize|]. intros. eapply g_bind; [|intros; apply g_ret].
  destruct (is_unpacking m); [now apply g_ordered|now apply g_elems].
Qed.
Lemma g_assoc : forall k t c, R SIZE -> R t -> good false false (ser_assoc E m rec k t c).
Proof.
  intros. unfold ser_assoc. eapply g_bind; [apply g_of_opt|]. intros.
  eapply g_bind; [now apply g_csize|]. intros. destruct (is_unpacking m).
  - unfold deser_emplace. apply g_foldP. intros. eapply g_bind; [apply g_cons|]. intros.
    eapply g_bind; [now apply g_ser|]. intros. apply g_leave_elem, g_of_opt.
  - eapply g_bind; [now apply g_elems|]. intros. apply g_ret.
Qed.
Lemma g_queue : forall t l, R SIZE -> R t -> good false false (ser_queue E m rec t l).
Proof.
  intros. unfold ser_queue. destruct (is_footprinting m).
  - apply g_count, g_count, g_ret.
  - eapply g_bind; [now apply g_csize|]. intros. destruct (is_unpacking m).
    + eapply g_bind; [now apply g_push|]. intros. apply g_ret.
    + eapply g_bind; [|intros; apply g_ret]. apply g_mapP. intros. now apply g_ser.
Qed.
Lemma g_adaptor : forall t l, good false false (ser_adaptor E m t l).
Proof.
  intros. unfold ser_adaptor. destruct (is_footprinting m); [|fl]. apply g_count, g_count, g_ret.
Qed.
Lemma g_pair : forall a b x y, R a -> R b -> good false false (ser_pair E rec a b x y).
Proof.
  intros. unfold ser_pair. apply g_count. eapply g_bind; [now apply g_ser|]. intros.
  eapply g_bind; [now apply g_ser|]. intros. apply g_ret.
Qed.
Lemma g_tuple : forall ts l, Forall R ts -> good false false (ser_tuple rec ts l).
Proof.
  induction ts as [|t ts IH]; intros [|v l] Hts; cbn [ser_tuple]; try apply g_ret; try fl.
  inversion Hts; subst. eapply g_bind; [now apply g_ser|]. intros. eapply g_bind; [now apply IH|]. intros. apply g_ret.
Qed.
Lemma g_optional : forall t o, R BOOL -> R t -> good false false (ser_optional E m rec t o).
Proof.
  intros. unfold ser_optional. destruct (is_footprinting m).
  - apply g_count. destruct o; [apply g_count|]; apply g_ret.
  - destruct (is_unpacking m).
    + eapply g_bind; [now apply g_bool|]. intros []; [|apply g_ret].
      eapply g_bind; [apply g_cons|]. intros. eapply g_bind; [now apply g_ser|]. intros.
      apply g_abandon, g_ret.
    + eapply g_bind; [now apply g_bool|]. intros _. destruct o; [|apply g_ret].
      eapply g_bind; [now apply g_ser|]. intros. apply g_ret.
Qed.
Lemma g_entry : forall ts v e c, Forall R ts -> good false false (ser_entry E m rec ts v e c).
Proof.
  induction ts as [|t ts IH]; intros v e c Hts; cbn [ser_entry]; [apply g_ret|].
  inversion Hts; subst. destruct (e =? N.of_nat c); [|now apply IH]. destruct (is_unpacking m).
  - eapply g_bind; [apply g_cons|]. intros. eapply g_bind; [now apply g_ser|]. intros. apply g_leave, g_ret.
  - destruct v; try fl. destruct (Nat.eqb i c); [|fl].
    eapply g_bind; [now apply g_ser|]. intros. apply g_ret.
Qed.
Lemma g_variant : forall ts v, R SIZE -> Forall R ts -> good false false (ser_variant E m rec ts v).
Proof.
  intros. unfold ser_variant. eapply g_bind; [apply g_of_opt|]. intros.
  eapply g_bind; [now apply g_size|]. intros. now apply g_entry.
Qed.
Lemma g_dti : forall v, good false false (dyn_type_idx E v).
Proof. intros []; cbn [dyn_type_idx]; try fl.
  destruct (obj_idx E c), (cls E c); first [apply g_ret|fl].
Qed.
Lemma g_vtype : forall o, R INT -> good false false (ser_virtual_type E m rec o).
Proof.
  intros o Hi. unfold ser_virtual_type. eapply g_bind.
  - destruct (is_unpacking m); [apply g_ret|]. destruct o; [apply g_dti|fl].
  - intros. eapply g_bind.
    + destruct (is_footprinting m); [apply g_ret|now apply g_word].
    + intros. destruct o; [|apply g_ret]. eapply g_bind; [apply g_dti|]. intros.
      destruct (_ || _); [apply g_ret|fl].
Qed.
Lemma g_concrete : forall c e, good false false (construct_concrete E c e).
Proof.
  intros. unfold construct_concrete. destruct (nth_error _ _); [|fl].
  apply g_construct. destruct (recon E _); [|destruct (asserts E); fl]. destruct (existsb _ _); [apply g_ret|fl].
Qed.
Lemma g_plain : forall t o, good false false
  (match o with
   | Some v => Ret (Some v)
   | None => if is_unpacking m then bind (construct E t) (fun o => Ret (Some o)) else Ret None
   end).
Proof.
  intros t [v|]; [apply g_ret|]. destruct (is_unpacking m); [|apply g_ret].
  eapply g_bind; [apply g_cons|]. intros. apply g_ret.
Qed.
Lemma g_pointed : forall t o, R INT -> good false false (reconstruct_pointed E m rec t o).
Proof.
  intros t o Hi. unfold reconstruct_pointed. destruct t; try apply g_plain.
  destruct (is_virtual E (TClass c)); [|apply g_plain].
  eapply g_bind; [now apply g_vtype|]. intros. destruct o; [apply g_ret|].
  destruct (is_unpacking m); [|apply g_ret]. eapply g_bind; [apply g_concrete|]. intros. apply g_ret.
Qed.
Lemma g_unique : forall t o, R BOOL -> R INT -> R t -> good false false (ser_unique E m rec t o).
Proof.
  intros t o Hb Hi Ht. unfold ser_unique. eapply g_bind.
  - destruct (is_footprinting m); [apply g_count, g_ret|now apply g_bool].
  - intros []; [apply g_ret|]. eapply g_bind; [now apply g_pointed|]. intros [v|]; [|fl].
    eapply g_bind; [now apply g_ser|]. intros. apply g_ret.
Qed.
Lemma g_followed : forall ct t o, R t -> good false false (ser_followed E m rec ct t o).
Proof.
  intros. unfold ser_followed. destruct (is_footprinting m); [|fl]. apply g_count.
  destruct o; [|apply g_ret]. eapply g_bind; [now apply g_ser|]. intros. apply g_ret.
Qed.
Lemma g_members : forall ts is_ fs, Forall R ts -> good false false (ser_members rec ts is_ fs).
Proof.
  intros. unfold ser_members. apply g_foldP. intros fs' i.
  destruct (nth_error ts i) eqn:Hn; [|fl]. destruct (nth_error fs' i); [|fl].
  eapply g_bind; [apply g_ser; rewrite Forall_forall in *; eauto using nth_error_In|]. intros. apply g_ret.
Qed.
Lemma g_static : forall c v, (forall k, cls E c = Some k -> Forall R (cfields k)) -> good false false (apply_static E m rec c v).
Proof.
  intros c v Hc. unfold apply_static. destruct v; try fl.
  destruct (cls E c); [|fl]. destruct (nth_error ls (level E c)); [|fl].
  apply (g_call c). apply g_members. now apply Hc.
Qed.
Local Ltac part Hd := apply Hd; first [apply DPart; now left|apply DWord; cbn; tauto].
Lemma g_elem : forall t v, (forall u, direct E t u -> R u) -> good false false (apply_elem E m rec t v).
Proof.
  intros t v Hd.
  assert (Hts : Forall R (components t)) by (apply Forall_forall; intros; apply Hd; now constructor).
  destruct t; destruct v; cbn [apply_elem]; try fl;
    try (apply g_static; intros k Hk; apply Forall_forall; intros; apply Hd; eapply DMember; now eauto);
    try (apply g_assoc; part Hd); try (apply g_variant; [part Hd|exact Hts]);
    try (apply g_ser; part Hd); try (apply g_string; part Hd); try (apply g_vector; part Hd);
    try (apply g_vecbool; part Hd); try (apply g_stdarray; part Hd); try (apply g_list; part Hd);
    try (apply g_queue; part Hd); try (apply g_optional; part Hd); try (apply g_unique; part Hd);
    try (apply g_followed; part Hd); try (apply g_adaptor);
    try (destruct (is_footprinting m); [try apply g_first; apply g_count, g_ret|fl]).
  - destruct l as [|x [|y [|]]]; try fl. inversion Hts as [|? ? Ha Hr]; subst. inversion Hr; subst.
    now apply g_pair.
  - eapply g_bind; [now apply g_tuple|]. intros. apply g_ret.
Qed.

Hypothesis chain_v : forall c c', is_virtual E (TClass c) = true -> In c' (chain E c) ->
  is_virtual E (TClass c') = true.

Lemma g_dyn_gen : forall cs v,
  (forall c, In c cs -> is_virtual E (TClass c) = true /\ R (TClass c)) ->
  good false false (foldP (fun v c => Note (EvRegistry c) (SetV true (ser rec (TClass c) v))) cs v).
Proof.
  intros cs. induction cs as [|c cs IH]; intros v H; cbn [foldP]; [apply g_ret|].
  destruct (H c (or_introl eq_refl)) as (Hv & HR). eapply g_bind.
  - apply g_registry; [exact Hv|]. apply g_setv. apply g_ser_gen. now apply HrecV.
  - intros. apply IH. intros. apply H. now right.
Qed.
Lemma g_dyn : forall v, (forall c, is_virtual E (TClass c) = true -> R (TClass c)) ->
  good false false (dyn_serialize E rec v).
Proof.
  intros v HR. unfold dyn_serialize. destruct v; try fl.
  destruct (is_virtual E (TClass c)) eqn:Hv; [|fl].
  apply g_dyn_gen. intros c' Hc. assert (is_virtual E (TClass c') = true) by (eapply chain_v; eauto). auto.
Qed.

Lemma g_bytes : forall t vs, (forall u, direct E t u -> R u) ->
  is_virtual E t = false \/ bytecopy E t = false -> good false false (ap E m rec t vs).
Proof.
  intros t vs Hd H. unfold ap. destruct (bytecopy E t).
  - destruct (opt_all _); [|fl]. apply g_contig. intros. apply g_ret.
  - destruct (is_virtual E t) eqn:Hv.
    + apply g_getv. cbn beta iota. destruct vs; [apply g_ret|].
      eapply g_bind; [|intros; apply g_ret]. apply g_dyn. intros c Hc. apply Hd.
      destruct t; try discriminate. now apply DClass.
    + apply g_mapP. intros. now apply g_elem.
Qed.

Lemma bytes_not_virtual : forall t, bytecopy E t = true -> is_virtual E t = false.
Proof.
  intros t H. destruct t; cbn [bytecopy is_virtual] in *; auto.
  destruct (cls E c) eqn:Ec; [|discriminate]. eapply nobv; eauto.
Qed.

Lemma g_ap : forall t vs, (forall u, direct E t u -> R u) -> good false false (ap E m rec t vs).
Proof.
  intros t vs Hd. apply g_bytes; [exact Hd|]. destruct (bytecopy E t) eqn:Hb; [left|now right].
  now apply bytes_not_virtual.
Qed.
Lemma g_apV : forall t vs, (forall u, direct E t u -> R u) ->
  is_virtual E t = true -> good true false (ap E m rec t vs).
Proof.
  intros t vs Hd Hv. unfold ap. destruct (bytecopy E t) eqn:Hb.
  - apply bytes_not_virtual in Hb. congruence.
  - rewrite Hv. apply g_getv. cbn beta iota. apply g_setv. apply g_mapP. intros. now apply g_elem.
Qed.
Lemma g_traverse : forall b t vs, good b false (ap E m rec t vs) -> good b false (traverse E m rec t vs).
Proof.
  intros b t vs H. unfold traverse. destruct (chk E); auto.
  eapply g_bind; [apply g_type_idx|]. intros _. eapply g_bind; [apply g_catch, H|]. intros.
  eapply g_bind; [apply g_mem_used|]. intros. apply g_ret.
Qed.
End Rec.

Hypothesis chain_v : forall c c', is_virtual E (TClass c) = true -> In c' (chain E c) ->
  is_virtual E (TClass c') = true.

Lemma g_with : forall f t vs, good false false (with_ E m f t vs) /\
  (is_virtual E t = true -> good true false (with_ E m f t vs)).
Proof.
  induction f as [|f IH]; intros t vs; cbn [with_]; [split; intros; fl|].
  assert (H1 : forall t vs, good false false (with_ E m f t vs)) by (intros; apply IH).
  assert (H2 : forall t vs, is_virtual E t = true -> good true false (with_ E m f t vs))
    by (intros; now apply IH).
  split; intros; apply g_traverse; [apply g_ap with (R := fun _ => True)|apply g_apV with (R := fun _ => True)]; auto.
Qed.

Lemma g_with_root : forall f t v, good false false (with_root E m f t v).
Proof.
  intros f t v. unfold with_root.
  assert (H : good false false (ser (with_ E m f) t v)) by (apply g_ser_gen; apply g_with).
  destruct (chk E); auto.
  eapply g_bind; [apply g_type_idx|]. intros _. eapply g_bind; [exact H|]. intros.
  eapply g_bind; [apply g_mem_used|]. intros. apply g_ret.
Qed.
End Closure.
