(** Two programs, one of which has all the classes and types of the other and registers
    those it adds after them: what they do is the same where the smaller one does not refuse. *)
From Coq Require Import List NArith Arith Bool Lia.
From Coq.Strings Require Import Byte.
From Verif Require Import Base Syntax Prog Serializers Traverse RegistryFacts.
Import ListNotations.
Local Open Scope N_scope.

(** The types a type is made of. *)
Definition parts (t : ty) : list ty :=
  match t with
  | TEnum _ u n | TChrono _ u n => [TPrim u n]
  | TString => [CHAR]
  | TVecBool => [BOOL]
  | TVector u | TArray _ u | TList _ u | TQueue u | TAssoc _ u | TOptional u | TUnique u
  | TShared u | TRaw u | TAdaptor u => [u]
  | TPair a b => [a; b]
  | TTuple ts | TVariant ts => ts
  | _ => []
  end.

(** [U]: the types that occur in the smaller program. *)
Record grows (U : ty -> Prop) (E E' : env) : Prop := {
  g_words : U SIZE /\ U BOOL /\ U INT /\ U CHAR;
  g_parts : forall t, U t -> Forall U (parts t);
  g_defined : forall c, U (TClass c) -> cls E c <> None;
  g_class : forall c k, cls E c = Some k ->
    cls E' c = Some k /\ U (TClass c) /\ Forall U (cfields k) /\
    (forall p, cparent k = Some p -> cls E p <> None);
  g_tix : forall t, U t -> tix E' t = tix E t;
  g_szof : forall t, U t -> szof E' t = szof E t;
  g_defc : forall t, U t -> defc E' t = defc E t;
  g_copyc : forall t, U t -> copyc E' t = copyc E t;
  g_movec : forall t, U t -> movec E' t = movec E t;
  g_less : forall t x y, U t -> less E' t x y = less E t x y;
  g_keq : forall t x y, U t -> keq E' t x y = keq E t x y;
  g_hplace : forall t l x, U t -> hplace E' t l x = hplace E t l x;
  g_chk : chk E' = chk E;
  g_asserts : asserts E' = asserts E;
  g_oreg : forall r, (forall d, In d (oreg E r) -> cls E d <> None) /\
    exists l, oreg E' r = oreg E r ++ l /\ forall d, In d l -> cls E d = None
}.

(** [Stuck]: no such call compiles in the smaller program. *)
Inductive within {A} : prog A -> prog A -> Prop :=
| WRange q : within (Fail RangeErr) q
| WStuck q : within (Fail Stuck) q
| WErr e : within (Fail e) (Fail e)
| WRet a : within (Ret a) (Ret a)
| WContig b k k' : (forall x, within (k x) (k' x)) -> within (Contig b k) (Contig b k')
| WCount n k k' : within k k' -> within (Count n k) (Count n k')
| WGetV k k' : (forall x, within (k x) (k' x)) -> within (GetV k) (GetV k')
| WSetV v k k' : within k k' -> within (SetV v k) (SetV v k')
| WNote e k k' : within k k' -> within (Note e k) (Note e k').

Lemma within_interp : forall H A (p q : prog A), within p q -> forall vf s,
  interp H p vf s = Err RangeErr \/ interp H p vf s = Err Stuck \/
  interp H q vf s = interp H p vf s.
Proof.
  intros H A p q Hu. induction Hu; intros vf s; cbn [interp]; auto.
  destruct (contig H b s) as [[b' s']|e]; auto.
Qed.

Lemma within_refl : forall A (p : prog A), within p p.
Proof. induction p; constructor; auto. Qed.

Lemma within_bind : forall A B (p q : prog A) (f g : A -> prog B), within p q ->
  (forall a, within (f a) (g a)) -> within (bind p f) (bind q g).
Proof. intros A B p q f g Hu Hf. induction Hu; cbn [bind]; try constructor; auto. Qed.

Lemma within_catch : forall A t (p q : prog A), within p q -> within (catch t p) (catch t q).
Proof.
  intros A t p q Hu. induction Hu; cbn [catch]; constructor; auto.
Qed.

Lemma within_map : forall A B (f g : A -> prog B) l, (forall a, within (f a) (g a)) ->
  within (mapP f l) (mapP g l).
Proof.
  intros A B f g l H. induction l; cbn [mapP]; [constructor|].
  apply within_bind; auto. intros y. apply within_bind; auto. intros ys. constructor.
Qed.

Lemma within_fold : forall A B (f g : B -> A -> prog B) l acc,
  (forall b a, In a l -> within (f b a) (g b a)) -> within (foldP f l acc) (foldP g l acc).
Proof.
  intros A B f g l. induction l; intros acc H; cbn [foldP]; [constructor|].
  apply within_bind; [apply H; now left|]. intros y. apply IHl. intros b a' Ha. apply H. now right.
Qed.

Section Grow.
Variable U : ty -> Prop.
Variables E E' : env.
Hypothesis G : grows U E E'.

Lemma part1 : forall t u, U t -> In u (parts t) -> U u.
Proof. intros t u H. pose proof (g_parts _ _ _ G t H) as Hf. rewrite Forall_forall in Hf. auto. Qed.

Lemma cls_up : forall c, U (TClass c) -> cls E' c = cls E c.
Proof.
  intros c H. pose proof (g_defined _ _ _ G c H) as Hd. destruct (cls E c) as [k|] eqn:Hk; [|congruence].
  now destruct (g_class _ _ _ G c k Hk).
Qed.
Lemma defined_up : forall c, cls E c <> None -> U (TClass c).
Proof.
  intros c H. destruct (cls E c) as [k|] eqn:Hk; [|congruence]. apply (g_class _ _ _ G c k Hk).
Qed.

Lemma bytecopy_up : forall t, U t -> bytecopy E' t = bytecopy E t.
Proof.
  induction t using ty_ind'; intros Ht; cbn [bytecopy]; auto.
  - pose proof (g_parts _ _ _ G _ Ht) as Hp. cbn [parts] in Hp. clear Ht.
    induction H; cbn [forallb]; auto. inversion Hp; subst. now rewrite H, IHForall.
  - now rewrite cls_up.
Qed.

Lemma chain_n_up : forall n c, cls E c <> None -> chain_n n E' c = chain_n n E c.
Proof.
  induction n; intros c Hc; cbn [chain_n]; auto.
  destruct (cls E c) as [k|] eqn:Hk; [|congruence].
  destruct (g_class _ _ _ G c k Hk) as (-> & _ & _ & Hp).
  destruct (cparent k) as [p|]; auto. rewrite IHn; auto.
Qed.
Lemma chain_up : forall c, cls E c <> None -> chain E' c = chain E c.
Proof. intros c. apply chain_n_up. Qed.
Lemma root_up : forall c, cls E c <> None -> root E' c = root E c.
Proof. intros c H. unfold root. now rewrite chain_up. Qed.
Lemma level_up : forall c, cls E c <> None -> level E' c = level E c.
Proof. intros c H. unfold level. now rewrite chain_up. Qed.
Lemma in_chain_n : forall n c d, cls E c <> None -> In d (chain_n n E c) -> cls E d <> None.
Proof.
  induction n; intros c d Hc; cbn [chain_n]; [easy|].
  destruct (cls E c) as [k|] eqn:Hk; [|congruence].
  destruct (g_class _ _ _ G c k Hk) as (_ & _ & _ & Hp).
  destruct (cparent k) as [p|].
  - rewrite in_app_iff. intros [Hd|[<-|[]]]; [|congruence]. eapply IHn; eauto.
  - intros [<-|[]]. congruence.
Qed.
Lemma sizeof_up : forall t, U t -> sizeof E' t = sizeof E t.
Proof.
  intros t H. destruct t; cbn [sizeof]; auto; try (apply (g_szof _ _ _ G); exact H).
  now rewrite cls_up.
Qed.
Lemma is_virtual_up : forall t, U t -> is_virtual E' t = is_virtual E t.
Proof. intros t H. destruct t; auto. cbn [is_virtual]. now rewrite cls_up. Qed.

Lemma map_up : forall A (f g : ty -> A) l, Forall (fun a => U a -> f a = g a) l -> Forall U l ->
  map f l = map g l.
Proof. intros A f g l H Hl. induction H; cbn [map]; auto. inversion Hl; subst. f_equal; auto. Qed.

Lemma dflt_up : forall t, U t -> dflt E' t = dflt E t.
Proof.
  induction t using ty_ind'; intros Ht; pose proof (g_parts _ _ _ G _ Ht) as Hp; cbn [parts] in Hp;
    cbn [dflt]; auto.
  - inversion Hp; subst. now rewrite IHt.
  - inversion Hp as [|? ? Ha Hb]; subst. inversion Hb; subst. now rewrite IHt1, IHt2.
  - now rewrite (map_up _ _ _ _ H Hp).
  - rewrite (bytecopy_up _ Ht), (g_szof _ _ _ G _ Ht). destruct (bytecopy E (TVariant l)); auto.
    destruct l as [|t0 r]; auto. inversion H; inversion Hp; subst. now rewrite H2.
  - now rewrite cls_up.
Qed.

Lemma recon_up : forall t, U t -> recon E' t = recon E t.
Proof.
  induction t using ty_ind'; intros Ht; pose proof (g_parts _ _ _ G _ Ht) as Hp; cbn [parts] in Hp;
    cbn [recon]; auto using dflt_up.
  - now rewrite (map_up _ _ _ _ H Hp).
  - now rewrite cls_up.
Qed.

Lemma obj_bytes_up : forall t v, U t -> obj_bytes E' t v = obj_bytes E t v.
Proof.
  intros t v H. destruct t; try reflexivity. cbn [obj_bytes].
  now rewrite level_up by (apply (g_defined _ _ _ G); exact H).
Qed.
Lemma obj_setbytes_up : forall t v b, U t -> obj_setbytes E' t v b = obj_setbytes E t v b.
Proof.
  intros t v b H. destruct t; try reflexivity. cbn [obj_setbytes].
  now rewrite level_up by (apply (g_defined _ _ _ G); exact H).
Qed.
Lemma unflatten_up : forall t vs b, U t -> unflatten E' t vs b = unflatten E t vs b.
Proof.
  intros t vs b H. revert b. induction vs as [|v vs IH]; intros b; cbn [unflatten]; auto.
  rewrite obj_bytes_up by exact H. destruct (obj_bytes E t v); rewrite IH; auto.
  now rewrite obj_setbytes_up.
Qed.

Lemma insert_ext : forall lt lt' x l, (forall a b, lt a b = lt' a b) ->
  insert_sorted lt x l = insert_sorted lt' x l.
Proof. intros lt lt' x l H. induction l; cbn [insert_sorted]; auto. rewrite H, IHl. reflexivity. Qed.
Lemma existsb_ext : forall A (f g : A -> bool) l, (forall a, f a = g a) -> existsb f l = existsb g l.
Proof. intros A f g l H. induction l; cbn [existsb]; auto. now rewrite H, IHl. Qed.

Lemma emplace_up : forall k t c x, U (TAssoc k t) -> emplace E' k t c x = emplace E k t c x.
Proof.
  intros k t c x H. unfold emplace. destruct k, c; auto.
  - rewrite (existsb_ext _ _ (fun y => negb (less E (TAssoc (AOrd multi map) t) x y)
      && negb (less E (TAssoc (AOrd multi map) t) y x)))
      by (intros a; now rewrite !(g_less _ _ _ G)).
    rewrite (insert_ext (less E' _) (less E (TAssoc (AOrd multi map) t)))
      by (intros a b; now rewrite (g_less _ _ _ G)). reflexivity.
  - rewrite (existsb_ext _ _ (keq E (TAssoc (AHash multi map) t) x))
      by (intros a; now rewrite (g_keq _ _ _ G)).
    now rewrite (g_hplace _ _ _ G).
Qed.

Lemma index_app : forall c l l' i, index_of c l = Some i -> index_of c (l ++ l') = Some i.
Proof.
  intros c l l'. induction l as [|x l IH]; intros i; cbn [index_of app]; [discriminate|].
  destruct (Nat.eqb x c); auto. destruct (index_of c l) as [j|] eqn:Hj; [|discriminate].
  now rewrite (IH j eq_refl).
Qed.
Lemma index_in : forall c l i, index_of c l = Some i -> In c l.
Proof. intros c l i H. apply index_of_nth in H. eapply nth_error_In, H. Qed.

Lemma index_app_none : forall c l l', index_of c l = None -> ~ In c l' -> index_of c (l ++ l') = None.
Proof.
  intros c l l' Hl Hn. induction l as [|x l IH]; cbn [index_of app] in *.
  - destruct (index_of c l') eqn:Hi; auto. apply index_in in Hi. contradiction.
  - destruct (Nat.eqb x c); [discriminate|]. destruct (index_of c l); [discriminate|]. now rewrite IH.
Qed.

Lemma obj_idx_up : forall c i, cls E c <> None -> obj_idx E c = Some i -> obj_idx E' c = Some i.
Proof.
  intros c i Hc. unfold obj_idx. rewrite root_up by exact Hc.
  destruct (g_oreg _ _ _ G (root E c)) as (_ & l & -> & _). apply index_app.
Qed.

Ltac u := solve [ assumption | apply G | eapply part1; [eassumption|cbn [parts In]; auto]
  | match goal with H : U (TAssoc _ (TPair _ _)) |- _ =>
      eapply part1; [eapply (part1 _ _ H); now left|cbn [parts In]; auto] end ].
Ltac up := rewrite ?(g_chk _ _ _ G), ?(g_asserts _ _ _ G);
  repeat first [ rewrite bytecopy_up by u | rewrite is_virtual_up by u | rewrite dflt_up by u
    | rewrite recon_up by u | rewrite unflatten_up by u | rewrite emplace_up by u
    | rewrite sizeof_up by u | rewrite (g_defc _ _ _ G) by u | rewrite (g_copyc _ _ _ G) by u
    | rewrite (g_movec _ _ _ G) by u | rewrite (g_tix _ _ _ G) by u ].
Ltac go1 :=
  match goal with
  | |- within (Fail RangeErr) _ => constructor
  | |- within (Fail Stuck) _ => constructor
  | |- within ?p ?p => apply within_refl
  | |- within (bind _ _) (bind _ _) => apply within_bind; [|intros ?]
  | |- within (catch _ _) (catch _ _) => apply within_catch
  | |- within (mapP _ _) (mapP _ _) => apply within_map; intros ?
  | |- within (foldP _ _ _) (foldP _ _ _) => apply within_fold; intros ? ? ?
  | |- within (Contig _ _) (Contig _ _) => constructor; intros ?
  | |- within (GetV _) (GetV _) => constructor; intros ?
  | |- within (Count _ _) (Count _ _) => constructor
  | |- within (SetV _ _) (SetV _ _) => constructor
  | |- within (Note _ _) (Note _ _) => constructor
  | |- within (match ?x with _ => _ end) (match ?x with _ => _ end) => destruct x
  end.

Section Functions.
Variable m : mode.
Lemma w_type_idx : forall t, U t -> within (with_type_idx E m t) (with_type_idx E' m t).
Proof. intros t H. unfold with_type_idx. up. apply within_refl. Qed.
Lemma w_mem_used : forall t n, U t -> within (with_mem_used E m t n) (with_mem_used E' m t n).
Proof. intros t n H. unfold with_mem_used. up. apply within_refl. Qed.

Section Rec.
Variables rec rec' : ty -> list val -> prog (list val).
Hypothesis Hrec : forall t vs, U t -> within (rec t vs) (rec' t vs).

Lemma w_ser : forall t v, U t -> within (ser rec t v) (ser rec' t v).
Proof. intros t v H. unfold ser. repeat go1. now apply Hrec. Qed.
Lemma w_word : forall i sz n, U (TPrim i sz) -> within (ser_word rec i sz n) (ser_word rec' i sz n).
Proof. intros i sz n H. unfold ser_word. repeat go1. now apply w_ser. Qed.
Lemma w_size : forall n, within (ser_size rec n) (ser_size rec' n).
Proof. intros n. apply w_word. apply G. Qed.
Lemma w_int : forall n, within (ser_int rec n) (ser_int rec' n).
Proof. intros n. apply w_word. apply G. Qed.
Lemma w_bool : forall b, within (ser_bool rec b) (ser_bool rec' b).
Proof. intros b. unfold ser_bool. repeat go1. apply w_word. apply G. Qed.
Lemma w_array : forall t vs, U t -> within (ser_array rec t vs) (ser_array rec' t vs).
Proof. intros t [|v vs] H; cbn [ser_array]; [apply within_refl|now apply Hrec]. Qed.
Lemma w_construct : forall t, U t -> within (construct E t) (construct E' t).
Proof. intros t H. unfold construct. up. apply within_refl. Qed.
Lemma w_leave : forall t x A (k k' : prog A), U t -> within k k' ->
  within (leave E t x k) (leave E' t x k').
Proof. intros t x A k k' Ht H. unfold leave. up. repeat go1; exact H. Qed.
Lemma w_leave_elem : forall a t x A (k k' : prog A), U (TAssoc a t) -> within k k' ->
  within (leave_elem E a t x k) (leave_elem E' a t x k').
Proof.
  intros a t x A k k' Ht H. assert (Hu : U t) by u. unfold leave_elem.
  destruct a as [? []|? []]; try (apply w_leave; [u|exact H]);
    destruct t; try (apply w_leave; [u|exact H]); destruct x; try (apply w_leave; [u|exact H]);
    repeat (match goal with |- within (match ?l with _ => _ end) _ => destruct l end;
            try (apply w_leave; [u|exact H])).
  all: try constructor; apply w_leave; [u|exact H].
Qed.
Ltac go := repeat (up; first [ go1 | apply w_ser; u | apply w_word; u | apply w_size | apply w_int
  | apply w_bool | apply w_array; u | apply w_construct; u | apply w_leave; [u|]
  | apply w_leave_elem; [u|] | apply w_type_idx; u | apply w_mem_used; u | apply Hrec; u ]).

Lemma w_vector : forall t c l, U (TVector t) -> within (ser_vector E m rec t c l) (ser_vector E' m rec' t c l).
Proof. intros t c l H. unfold ser_vector, ser_vector_meta, construct_vector_data. go. Qed.
Lemma w_vecbool : forall c l, U TVecBool -> within (ser_vecbool E m rec c l) (ser_vecbool E' m rec' c l).
Proof. intros c l H. unfold ser_vecbool, ser_vector_meta. go. Qed.
Lemma w_string : forall c b, U TString -> within (ser_string E m rec c b) (ser_string E' m rec' c b).
Proof. intros c b H. unfold ser_string. go. Qed.
Lemma w_stdarray : forall t l, U t -> within (ser_stdarray rec t l) (ser_stdarray rec' t l).
Proof. intros t l H. unfold ser_stdarray. go. Qed.
Lemma w_list : forall dq t l, U (TList dq t) ->
  within (ser_list E m rec (TList dq t) t l) (ser_list E' m rec' (TList dq t) t l).
Proof. intros dq t l H. unfold ser_list, ser_container_size, deser_ordered, ser_container_elems. go. Qed.
Lemma w_queue : forall t l, U (TQueue t) -> within (ser_queue E m rec t l) (ser_queue E' m rec' t l).
Proof. intros t l H. unfold ser_queue, ser_container_size. go. Qed.
Lemma w_assoc : forall k t c, U (TAssoc k t) -> within (ser_assoc E m rec k t c) (ser_assoc E' m rec' k t c).
Proof.
  intros k t c H. unfold ser_assoc, ser_container_size, deser_emplace, ser_container_elems. go.
Qed.
Lemma w_pair : forall a b x y, U (TPair a b) -> within (ser_pair E rec a b x y) (ser_pair E' rec' a b x y).
Proof. intros a b x y H. unfold ser_pair. go. Qed.
Lemma w_tuple : forall ts l, Forall U ts -> within (ser_tuple rec ts l) (ser_tuple rec' ts l).
Proof.
  induction ts as [|t ts IH]; intros [|v l] H; cbn [ser_tuple]; try (inversion H; subst); go.
  now apply IH.
Qed.
Lemma w_optional : forall t o, U (TOptional t) -> within (ser_optional E m rec t o) (ser_optional E' m rec' t o).
Proof. intros t o H. unfold ser_optional. go. Qed.
Lemma w_entry : forall ts v e c, Forall U ts ->
  within (ser_entry E m rec ts v e c) (ser_entry E' m rec' ts v e c).
Proof.
  induction ts as [|t ts IH]; intros v e c H; cbn [ser_entry]; try (inversion H; subst); go.
  now apply IH.
Qed.
Lemma w_variant : forall ts v, U (TVariant ts) -> within (ser_variant E m rec ts v) (ser_variant E' m rec' ts v).
Proof. intros ts v H. unfold ser_variant. go. apply w_entry. exact (g_parts _ _ _ G _ H). Qed.
Lemma w_dyn_type : forall v, within (dyn_type_idx E v) (dyn_type_idx E' v).
Proof.
  intros v. unfold dyn_type_idx. destruct v; try apply within_refl.
  destruct (cls E c) as [k|] eqn:Hk.
  - assert (Hc : cls E c <> None) by congruence.
    destruct (obj_idx E c) as [i|] eqn:Hi.
    + rewrite (obj_idx_up c i Hc Hi). apply within_refl.
    + replace (obj_idx E' c) with (@None nat).
      * rewrite (cls_up c (defined_up c Hc)), Hk. apply within_refl.
      * symmetry. unfold obj_idx in *. rewrite (root_up c Hc).
        destruct (g_oreg _ _ _ G (root E c)) as (_ & l & -> & Hl).
        apply index_app_none; [exact Hi|]. intros Hin. specialize (Hl c Hin). congruence.
  - destruct (obj_idx E c) as [i|] eqn:Hi; [|constructor]. exfalso. unfold obj_idx in Hi.
    apply index_in in Hi. destruct (g_oreg _ _ _ G (root E c)) as (Hd & _). exact (Hd c Hi Hk).
Qed.
Lemma w_virtual_type : forall o, within (ser_virtual_type E m rec o) (ser_virtual_type E' m rec' o).
Proof.
  intros o. unfold ser_virtual_type. destruct o; go; try apply w_dyn_type.
Qed.
Lemma w_concrete : forall c e, U (TClass c) -> within (construct_concrete E c e) (construct_concrete E' c e).
Proof.
  intros c e H. unfold construct_concrete.
  pose proof (g_defined _ _ _ G c H) as Hc. rewrite (root_up c Hc).
  destruct (g_oreg _ _ _ G (root E c)) as (Hd & l & -> & _).
  destruct (nth_error (oreg E (root E c)) (N.to_nat e)) as [d|] eqn:Hn; [|constructor].
  assert (Hdd : cls E d <> None) by (eapply Hd, nth_error_In, Hn).
  rewrite nth_error_app1 by (apply nth_error_Some; congruence). rewrite Hn.
  pose proof (defined_up d Hdd) as Hu. up. rewrite (chain_up d Hdd). apply within_refl.
Qed.
Lemma w_pointed : forall t o, U t -> within (reconstruct_pointed E m rec t o) (reconstruct_pointed E' m rec' t o).
Proof.
  intros t o H. unfold reconstruct_pointed. destruct t; go; try apply w_virtual_type; apply w_concrete; u.
Qed.
Lemma w_unique : forall t o, U (TUnique t) -> within (ser_unique E m rec t o) (ser_unique E' m rec' t o).
Proof. intros t o H. unfold ser_unique. go. apply w_pointed. u. Qed.
Lemma w_followed : forall ct t o, U ct -> U t -> within (ser_followed E m rec ct t o) (ser_followed E' m rec' ct t o).
Proof. intros ct t o H Ht. unfold ser_followed. go. Qed.
Lemma w_members : forall ts is_ fs, Forall U ts -> within (ser_members rec ts is_ fs) (ser_members rec' ts is_ fs).
Proof.
  intros ts is_ fs H. unfold ser_members. apply within_fold. intros b i _.
  destruct (nth_error ts i) as [t|] eqn:Ht; [|go].
  assert (U t) by (rewrite Forall_forall in H; eapply H, nth_error_In, Ht). go.
Qed.
Lemma w_static : forall c v, U (TClass c) -> within (apply_static E m rec c v) (apply_static E' m rec' c v).
Proof.
  intros c v H. unfold apply_static. destruct v; try apply within_refl. rewrite (cls_up c H).
  destruct (cls E c) as [k|] eqn:Hk; [|apply within_refl].
  rewrite level_up by congruence. destruct (nth_error ls (level E c)); [|apply within_refl].
  destruct (g_class _ _ _ G c k Hk) as (_ & _ & Hf & _). go. now apply w_members.
Qed.
Lemma w_dyn : forall v, within (dyn_serialize E rec v) (dyn_serialize E' rec' v).
Proof.
  intros v. unfold dyn_serialize. destruct v; try apply within_refl.
  destruct (cls E c) as [k|] eqn:Hk; [|cbn [is_virtual]; rewrite Hk; constructor].
  assert (Hc : cls E c <> None) by congruence. pose proof (defined_up c Hc). up.
  destruct (is_virtual E (TClass c)); [|constructor]. rewrite (chain_up c Hc).
  apply within_fold. intros b d Hd. constructor. constructor. apply w_ser. apply defined_up.
  exact (in_chain_n _ _ _ Hc Hd).
Qed.
Lemma w_elem : forall t v, U t -> within (apply_elem E m rec t v) (apply_elem E' m rec' t v).
Proof.
  intros t v H. unfold apply_elem, ser_underlying, ser_adaptor.
  destruct t; try (apply w_assoc; exact H); try (apply w_variant; exact H); try (apply w_static; exact H);
    destruct v; go;
    try solve [apply w_string; u|apply w_vector; u|apply w_vecbool; u|apply w_stdarray; u
      |apply w_list; u|apply w_queue; u|apply w_pair; u|apply w_optional; u|apply w_unique; u
      |apply w_followed; u|apply w_tuple; exact (g_parts _ _ _ G _ H)].
Qed.
Lemma w_ap : forall t vs, U t -> within (ap E m rec t vs) (ap E' m rec' t vs).
Proof.
  intros t vs H. unfold ap. up.
  replace (map (obj_bytes E' t) vs) with (map (obj_bytes E t) vs)
    by (apply map_ext; intros v; symmetry; now apply obj_bytes_up).
  go; auto using w_elem, w_dyn.
Qed.
Lemma w_traverse : forall t vs, U t -> within (traverse E m rec t vs) (traverse E' m rec' t vs).
Proof. intros t vs H. unfold traverse. go; now apply w_ap. Qed.
End Rec.

Lemma w_with : forall f t vs, U t -> within (with_ E m f t vs) (with_ E' m f t vs).
Proof. induction f; intros t vs H; cbn [with_]; [apply within_refl|]. now apply w_traverse. Qed.
Lemma w_root : forall f t v, U t -> within (with_root E m f t v) (with_root E' m f t v).
Proof.
  intros f t v H. unfold with_root. up.
  destruct (chk E); repeat go1; try apply w_ser; try apply w_type_idx; try apply w_mem_used;
    auto using w_with.
Qed.
End Functions.
End Grow.
