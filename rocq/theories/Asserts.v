(** Programs of a build with assertions and of one without: they are the same up to the
    first assertion that fails. *)
From Coq Require Import List NArith Arith Bool Lia.
From Coq.Strings Require Import Byte.
From Verif Require Import Base Syntax Prog Serializers Traverse RegistryFacts.
Import ListNotations.
Local Open Scope N_scope.

(** The same program compiled with NDEBUG. *)
Definition without_asserts (E : env) : env := {|
  cls := cls E; szof := szof E; tix := tix E; chk := chk E; asserts := false;
  defc := defc E; copyc := copyc E; movec := movec E; less := less E; keq := keq E;
  hplace := hplace E; oreg := oreg E
|}.

Inductive upto {A} : prog A -> prog A -> Prop :=
| UFail q : upto (Fail AssertErr) q
| UErr e : upto (Fail e) (Fail e)
| URet a : upto (Ret a) (Ret a)
| UContig b k k' : (forall x, upto (k x) (k' x)) -> upto (Contig b k) (Contig b k')
| UCount n k k' : upto k k' -> upto (Count n k) (Count n k')
| UGetV k k' : (forall x, upto (k x) (k' x)) -> upto (GetV k) (GetV k')
| USetV v k k' : upto k k' -> upto (SetV v k) (SetV v k')
| UNote e k k' : upto k k' -> upto (Note e k) (Note e k').

Lemma upto_interp : forall H A (p q : prog A), upto p q -> forall vf s,
  interp H p vf s = Err AssertErr \/ interp H q vf s = interp H p vf s.
Proof.
  intros H A p q Hu. induction Hu; intros vf s; cbn [interp]; auto.
  destruct (contig H b s) as [[b' s']|e]; auto.
Qed.

Lemma upto_refl : forall A (p : prog A), upto p p.
Proof. induction p; constructor; auto. Qed.

Lemma upto_bind : forall A B (p q : prog A) (f g : A -> prog B), upto p q ->
  (forall a, upto (f a) (g a)) -> upto (bind p f) (bind q g).
Proof. intros A B p q f g Hu Hf. induction Hu; cbn [bind]; try constructor; auto. Qed.

Lemma upto_catch : forall A t (p q : prog A), upto p q -> upto (catch t p) (catch t q).
Proof.
  intros A t p q Hu. induction Hu; cbn [catch]; constructor; auto.
Qed.

Lemma upto_map : forall A B (f g : A -> prog B) l, (forall a, upto (f a) (g a)) ->
  upto (mapP f l) (mapP g l).
Proof.
  intros A B f g l H. induction l; cbn [mapP]; [constructor|].
  apply upto_bind; auto. intros y. apply upto_bind; auto. intros ys. constructor.
Qed.

Lemma upto_fold : forall A B (f g : B -> A -> prog B) l acc, (forall b a, upto (f b a) (g b a)) ->
  upto (foldP f l acc) (foldP g l acc).
Proof.
  intros A B f g l acc H. revert acc. induction l; intros acc; cbn [foldP]; [constructor|].
  apply upto_bind; auto.
Qed.

Section Asserts.
Variable E : env.
Local Notation E' := (without_asserts E).

Lemma bytecopy_off : forall t, bytecopy E' t = bytecopy E t.
Proof.
  induction t using ty_ind'; cbn [bytecopy]; auto.
  induction H; cbn [forallb]; auto. now rewrite H, IHForall.
Qed.

Lemma chain_n_off : forall n c, chain_n n E' c = chain_n n E c.
Proof.
  induction n; intros c; cbn [chain_n]; auto. cbn [cls without_asserts].
  destruct (cls E c) as [k|]; auto. destruct (cparent k); auto. now rewrite IHn.
Qed.
Lemma chain_off : forall c, chain E' c = chain E c.
Proof. intros c. apply chain_n_off. Qed.
Lemma root_off : forall c, root E' c = root E c.
Proof. intros c. unfold root. now rewrite chain_off. Qed.
Lemma level_off : forall c, level E' c = level E c.
Proof. intros c. unfold level. now rewrite chain_off. Qed.
Lemma obj_idx_off : forall c, obj_idx E' c = obj_idx E c.
Proof. intros c. unfold obj_idx. now rewrite root_off. Qed.
Lemma sizeof_off : forall t, sizeof E' t = sizeof E t.
Proof. reflexivity. Qed.
Lemma is_virtual_off : forall t, is_virtual E' t = is_virtual E t.
Proof. reflexivity. Qed.

Lemma map_same : forall A B (f g : A -> B) l, Forall (fun a => f a = g a) l -> map f l = map g l.
Proof. intros A B f g l H. induction H; cbn [map]; congruence. Qed.

Lemma dflt_off : forall t, dflt E' t = dflt E t.
Proof.
  induction t using ty_ind'; cbn [dflt]; auto.
  - now rewrite IHt.
  - now rewrite IHt1, IHt2.
  - now rewrite (map_same _ _ _ _ _ H).
  - rewrite bytecopy_off. destruct (bytecopy E (TVariant l)); auto.
    destruct l as [|t0 r]; auto. inversion H; subst. now rewrite H2.
Qed.

Lemma recon_off : forall t, recon E' t = recon E t.
Proof.
  induction t using ty_ind'; cbn [recon]; auto using dflt_off.
  now rewrite (map_same _ _ _ _ _ H).
Qed.

Lemma obj_bytes_off : forall t v, obj_bytes E' t v = obj_bytes E t v.
Proof. intros t v. destruct t; try reflexivity. cbn [obj_bytes]. now rewrite level_off. Qed.
Lemma obj_setbytes_off : forall t v b, obj_setbytes E' t v b = obj_setbytes E t v b.
Proof. intros t v b. destruct t; try reflexivity. cbn [obj_setbytes]. now rewrite level_off. Qed.
Lemma unflatten_off : forall t vs b, unflatten E' t vs b = unflatten E t vs b.
Proof.
  intros t. induction vs as [|v vs IH]; intros b; cbn [unflatten]; auto.
  rewrite obj_bytes_off. destruct (obj_bytes E t v); rewrite IH; auto. now rewrite obj_setbytes_off.
Qed.
Lemma emplace_off : forall k t c x, emplace E' k t c x = emplace E k t c x.
Proof. reflexivity. Qed.

Ltac off := cbn [chk asserts defc copyc movec less keq hplace oreg cls szof tix without_asserts];
  rewrite ?bytecopy_off, ?chain_off, ?root_off, ?level_off, ?obj_idx_off, ?is_virtual_off,
    ?dflt_off, ?recon_off, ?obj_bytes_off, ?unflatten_off, ?emplace_off, ?sizeof_off.
Ltac go1 :=
  match goal with
  | |- upto (Fail AssertErr) _ => constructor
  | |- upto ?p ?p => apply upto_refl
  | |- upto (bind _ _) (bind _ _) => apply upto_bind; [|intros ?]
  | |- upto (catch _ _) (catch _ _) => apply upto_catch
  | |- upto (mapP _ _) (mapP _ _) => apply upto_map; intros ?
  | |- upto (foldP _ _ _) (foldP _ _ _) => apply upto_fold; intros ? ?
  | |- upto (Contig _ _) (Contig _ _) => constructor; intros ?
  | |- upto (GetV _) (GetV _) => constructor; intros ?
  | |- upto (Count _ _) (Count _ _) => constructor
  | |- upto (SetV _ _) (SetV _ _) => constructor
  | |- upto (Note _ _) (Note _ _) => constructor
  | |- upto (match ?x with _ => _ end) (match ?x with _ => _ end) => destruct x
  | |- context [asserts E] => destruct (asserts E); cbn [negb]; rewrite ?orb_true_r, ?orb_false_r, ?andb_false_r; cbn [orb andb]
  end.

Section Functions.
Variable m : mode.
Lemma u_type_idx : forall t, upto (with_type_idx E m t) (with_type_idx E' m t).
Proof. intros t. exact (upto_refl _ _). Qed.
Lemma u_mem_used : forall t n, upto (with_mem_used E m t n) (with_mem_used E' m t n).
Proof. intros t n. exact (upto_refl _ _). Qed.

Section Rec.
Variables rec rec' : ty -> list val -> prog (list val).
Hypothesis Hrec : forall t vs, upto (rec t vs) (rec' t vs).

Lemma u_ser : forall t v, upto (ser rec t v) (ser rec' t v).
Proof. intros t v. unfold ser. repeat go1. apply Hrec. Qed.
Lemma u_word : forall i sz n, upto (ser_word rec i sz n) (ser_word rec' i sz n).
Proof. intros i sz n. unfold ser_word. repeat go1. apply u_ser. Qed.
Lemma u_size : forall n, upto (ser_size rec n) (ser_size rec' n).
Proof. intros n. apply u_word. Qed.
Lemma u_int : forall n, upto (ser_int rec n) (ser_int rec' n).
Proof. intros n. apply u_word. Qed.
Lemma u_bool : forall b, upto (ser_bool rec b) (ser_bool rec' b).
Proof. intros b. unfold ser_bool. repeat go1. apply u_word. Qed.
Lemma u_array : forall t vs, upto (ser_array rec t vs) (ser_array rec' t vs).
Proof. intros t [|v vs]; cbn [ser_array]; [apply upto_refl|apply Hrec]. Qed.
Lemma u_construct : forall t, upto (construct E t) (construct E' t).
Proof. intros t. unfold construct. off. apply upto_refl. Qed.
Lemma u_leave : forall t x A (k k' : prog A), upto k k' -> upto (leave E t x k) (leave E' t x k').
Proof. intros t x A k k' H. unfold leave. off. repeat go1; exact H. Qed.
Lemma u_leave_elem : forall a t x A (k k' : prog A), upto k k' ->
  upto (leave_elem E a t x k) (leave_elem E' a t x k').
Proof.
  intros a t x A k k' H. unfold leave_elem.
  destruct a as [? []|? []]; try (apply u_leave; exact H);
    destruct t; try (apply u_leave; exact H); destruct x; try (apply u_leave; exact H);
    repeat (match goal with |- upto (match ?l with _ => _ end) _ => destruct l end;
            try (apply u_leave; exact H)).
  all: try constructor; apply u_leave; exact H.
Qed.
Ltac go := repeat (off; first [ go1 | apply u_ser | apply u_word | apply u_size | apply u_int
  | apply u_bool | apply u_array | apply u_construct | apply u_leave | apply u_leave_elem
  | apply u_type_idx | apply u_mem_used | apply Hrec ]).

Lemma u_vector : forall t c l, upto (ser_vector E m rec t c l) (ser_vector E' m rec' t c l).
Proof. intros t c l. unfold ser_vector, ser_vector_meta, construct_vector_data. go. Qed.
Lemma u_vecbool : forall c l, upto (ser_vecbool E m rec c l) (ser_vecbool E' m rec' c l).
Proof. intros c l. unfold ser_vecbool, ser_vector_meta. go. Qed.
Lemma u_string : forall c b, upto (ser_string E m rec c b) (ser_string E' m rec' c b).
Proof. intros c b. unfold ser_string. go. Qed.
Lemma u_stdarray : forall t l, upto (ser_stdarray rec t l) (ser_stdarray rec' t l).
Proof. intros t l. unfold ser_stdarray. go. Qed.
Lemma u_list : forall ct t l, upto (ser_list E m rec ct t l) (ser_list E' m rec' ct t l).
Proof. intros ct t l. unfold ser_list, ser_container_size, deser_ordered, ser_container_elems. go. Qed.
Lemma u_queue : forall t l, upto (ser_queue E m rec t l) (ser_queue E' m rec' t l).
Proof. intros t l. unfold ser_queue, ser_container_size. go. Qed.
Lemma u_assoc : forall k t c, upto (ser_assoc E m rec k t c) (ser_assoc E' m rec' k t c).
Proof.
  intros k t c. unfold ser_assoc, ser_container_size, deser_emplace, ser_container_elems. go.
Qed.
Lemma u_pair : forall a b x y, upto (ser_pair E rec a b x y) (ser_pair E' rec' a b x y).
Proof. intros a b x y. unfold ser_pair. go. Qed.
Lemma u_tuple : forall ts l, upto (ser_tuple rec ts l) (ser_tuple rec' ts l).
Proof. induction ts as [|t ts IH]; intros [|v l]; cbn [ser_tuple]; go. apply IH. Qed.
Lemma u_optional : forall t o, upto (ser_optional E m rec t o) (ser_optional E' m rec' t o).
Proof. intros t o. unfold ser_optional. go. Qed.
Lemma u_entry : forall ts v e c, upto (ser_entry E m rec ts v e c) (ser_entry E' m rec' ts v e c).
Proof. induction ts as [|t ts IH]; intros v e c; cbn [ser_entry]; go. apply IH. Qed.
Lemma u_variant : forall ts v, upto (ser_variant E m rec ts v) (ser_variant E' m rec' ts v).
Proof. intros ts v. unfold ser_variant. go. apply u_entry. Qed.
Lemma u_dyn_type : forall v, upto (dyn_type_idx E v) (dyn_type_idx E' v).
Proof. intros v. unfold dyn_type_idx. destruct v; go. Qed.
Lemma u_virtual_type : forall o, upto (ser_virtual_type E m rec o) (ser_virtual_type E' m rec' o).
Proof.
  intros o. unfold ser_virtual_type. destruct o; go; try apply u_dyn_type.
  destruct (_ =? _); constructor.
Qed.
Lemma u_concrete : forall c e, upto (construct_concrete E c e) (construct_concrete E' c e).
Proof. intros c e. unfold construct_concrete. go. Qed.
Lemma u_pointed : forall t o, upto (reconstruct_pointed E m rec t o) (reconstruct_pointed E' m rec' t o).
Proof.
  intros t o. unfold reconstruct_pointed. destruct t; go; try apply u_virtual_type; apply u_concrete.
Qed.
Lemma u_unique : forall t o, upto (ser_unique E m rec t o) (ser_unique E' m rec' t o).
Proof. intros t o. unfold ser_unique. go. apply u_pointed. Qed.
Lemma u_followed : forall ct t o, upto (ser_followed E m rec ct t o) (ser_followed E' m rec' ct t o).
Proof. intros ct t o. unfold ser_followed. go. Qed.
Lemma u_members : forall ts is_ fs, upto (ser_members rec ts is_ fs) (ser_members rec' ts is_ fs).
Proof. intros ts is_ fs. unfold ser_members. go. Qed.
Lemma u_static : forall c v, upto (apply_static E m rec c v) (apply_static E' m rec' c v).
Proof. intros c v. unfold apply_static. destruct v; go. apply u_members. Qed.
Lemma u_dyn : forall v, upto (dyn_serialize E rec v) (dyn_serialize E' rec' v).
Proof. intros v. unfold dyn_serialize. destruct v; go. Qed.
Lemma u_elem : forall t v, upto (apply_elem E m rec t v) (apply_elem E' m rec' t v).
Proof.
  intros t v. unfold apply_elem, ser_underlying, ser_adaptor.
  destruct t; try (apply u_assoc); try (apply u_variant); try (apply u_static);
    destruct v; go; auto using u_string, u_vector, u_vecbool, u_stdarray, u_list, u_queue,
      u_pair, u_tuple, u_optional, u_unique, u_followed.
Qed.
Lemma u_ap : forall t vs, upto (ap E m rec t vs) (ap E' m rec' t vs).
Proof.
  intros t vs. unfold ap. off.
  replace (map (obj_bytes E' t) vs) with (map (obj_bytes E t) vs)
    by (apply map_ext; intros v; symmetry; apply obj_bytes_off).
  go; auto using u_elem, u_dyn.
Qed.
Lemma u_traverse : forall t vs, upto (traverse E m rec t vs) (traverse E' m rec' t vs).
Proof. intros t vs. unfold traverse. go; apply u_ap. Qed.
End Rec.

Lemma u_with : forall f t vs, upto (with_ E m f t vs) (with_ E' m f t vs).
Proof. induction f; intros t vs; cbn [with_]; [apply upto_refl|]. now apply u_traverse. Qed.
Lemma u_root : forall f t v, upto (with_root E m f t v) (with_root E' m f t v).
Proof.
  intros f t v. unfold with_root. off. repeat go1; try apply u_ser; try apply u_with;
  try apply u_type_idx; apply u_mem_used.
Qed.
End Functions.
End Asserts.
