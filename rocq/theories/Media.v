(** Reading the same bytes from memory and from a stream: the traversal itself never throws
    what a stream throws at its end. *)
From Coq Require Import List NArith Arith Bool Lia.
From Coq.Strings Require Import Byte.
From Verif Require Import Base Syntax Prog Serializers Traverse ProgFacts.
Import ListNotations.
Local Open Scope N_scope.

(** No step of the program throws std::runtime_error by itself. *)
Inductive quiet {A} : prog A -> Prop :=
| QFail e : e <> RtErr -> quiet (Fail e)
| QRet a : quiet (Ret a)
| QContig b k : (forall x, quiet (k x)) -> quiet (Contig b k)
| QCount n k : quiet k -> quiet (Count n k)
| QGetV k : (forall x, quiet (k x)) -> quiet (GetV k)
| QSetV v k : quiet k -> quiet (SetV v k)
| QNote e k : quiet k -> quiet (Note e k).

Lemma quiet_bind : forall A B (p : prog A) (f : A -> prog B), quiet p ->
  (forall a, quiet (f a)) -> quiet (bind p f).
Proof. intros A B p f Hp Hf. induction Hp; cbn [bind]; try constructor; auto. Qed.

Lemma quiet_catch : forall A t (p : prog A), quiet p -> quiet (catch t p).
Proof.
  intros A t p Hp. induction Hp; cbn [catch]; try (constructor; auto; fail).
  destruct e; cbn [bump]; constructor; congruence.
Qed.

Lemma quiet_map : forall A B (f : A -> prog B) l, (forall a, quiet (f a)) -> quiet (mapP f l).
Proof.
  intros A B f l H. induction l; cbn [mapP]; [constructor|].
  apply quiet_bind; auto. intros y. apply quiet_bind; auto. intros ys. constructor.
Qed.

Lemma quiet_fold : forall A B (f : B -> A -> prog B) l acc, (forall b a, quiet (f b a)) ->
  quiet (foldP f l acc).
Proof.
  intros A B f l acc H. revert acc. induction l; intros acc; cbn [foldP]; [constructor|].
  apply quiet_bind; auto.
Qed.

Section Quiet.
Variable E : env.

Ltac go1 :=
  match goal with
  | |- quiet (Fail _) => constructor; discriminate
  | |- quiet (Ret _) => constructor
  | |- quiet (bind _ _) => apply quiet_bind; [|intros ?]
  | |- quiet (catch _ _) => apply quiet_catch
  | |- quiet (mapP _ _) => apply quiet_map; intros ?
  | |- quiet (foldP _ _ _) => apply quiet_fold; intros ? ?
  | |- quiet (Contig _ _) => constructor; intros ?
  | |- quiet (GetV _) => constructor; intros ?
  | |- quiet (Count _ _) => constructor
  | |- quiet (SetV _ _) => constructor
  | |- quiet (Note _ _) => constructor
  | |- quiet (of_opt _) => unfold of_opt
  | |- quiet (match ?x with _ => _ end) => destruct x
  end.

Section Functions.
Variable m : mode.
Lemma q_type_idx : forall t, quiet (with_type_idx E m t).
Proof. intros t. unfold with_type_idx. repeat go1. Qed.
Lemma q_mem_used : forall t n, quiet (with_mem_used E m t n).
Proof. intros t n. unfold with_mem_used. repeat go1. Qed.

Section Rec.
Variable rec : ty -> list val -> prog (list val).
Hypothesis Hrec : forall t vs, quiet (rec t vs).

Lemma q_ser : forall t v, quiet (ser rec t v).
Proof. intros t v. unfold ser. repeat go1. apply Hrec. Qed.
Lemma q_word : forall i sz n, quiet (ser_word rec i sz n).
Proof. intros i sz n. unfold ser_word. repeat go1. apply q_ser. Qed.
Lemma q_size : forall n, quiet (ser_size rec n).
Proof. intros n. apply q_word. Qed.
Lemma q_int : forall n, quiet (ser_int rec n).
Proof. intros n. apply q_word. Qed.
Lemma q_bool : forall b, quiet (ser_bool rec b).
Proof. intros b. unfold ser_bool. go1; [apply q_word|]. repeat go1. Qed.
Lemma q_array : forall t vs, quiet (ser_array rec t vs).
Proof. intros t [|v vs]; cbn [ser_array]; [constructor|apply Hrec]. Qed.
Lemma q_construct : forall t, quiet (construct E t).
Proof. intros t. unfold construct. repeat go1. Qed.
Lemma q_leave : forall t x A (k : prog A), quiet k -> quiet (leave E t x k).
Proof. intros t x A k H. unfold leave. repeat go1; exact H. Qed.
Lemma q_leave_elem : forall a t x A (k : prog A), quiet k -> quiet (leave_elem E a t x k).
Proof.
  intros a t x A k H. unfold leave_elem. 
  repeat match goal with |- quiet (match ?l with _ => _ end) => destruct l end;
    repeat constructor; try (apply q_leave; exact H); exact H.
Qed.
Ltac go := repeat first [ apply q_ser | apply q_word | apply q_size | apply q_int
  | apply q_bool | apply q_array | apply q_construct | apply q_leave | apply q_leave_elem
  | apply q_type_idx | apply q_mem_used | apply Hrec | go1 ].

Lemma q_vector : forall t c l, quiet (ser_vector E m rec t c l).
Proof. intros t c l. unfold ser_vector, ser_vector_meta, construct_vector_data. go. Qed.
Lemma q_vecbool : forall c l, quiet (ser_vecbool E m rec c l).
Proof. intros c l. unfold ser_vecbool, ser_vector_meta. go. Qed.
Lemma q_string : forall c b, quiet (ser_string E m rec c b).
Proof. intros c b. unfold ser_string. go. Qed.
Lemma q_stdarray : forall t l, quiet (ser_stdarray rec t l).
Proof. intros t l. unfold ser_stdarray. go. Qed.
Lemma q_list : forall ct t l, quiet (ser_list E m rec ct t l).
Proof. intros ct t l. unfold ser_list, ser_container_size, deser_ordered, ser_container_elems. go. Qed.
Lemma q_queue : forall t l, quiet (ser_queue E m rec t l).
Proof. intros t l. unfold ser_queue, ser_container_size. go. Qed.
Lemma q_assoc : forall k t c, quiet (ser_assoc E m rec k t c).
Proof.
  intros k t c. unfold ser_assoc, ser_container_size, deser_emplace, ser_container_elems. go.
Qed.
Lemma q_pair : forall a b x y, quiet (ser_pair E rec a b x y).
Proof. intros a b x y. unfold ser_pair. go. Qed.
Lemma q_tuple : forall ts l, quiet (ser_tuple rec ts l).
Proof. induction ts as [|t ts IH]; intros [|v l]; cbn [ser_tuple]; go. apply IH. Qed.
Lemma q_optional : forall t o, quiet (ser_optional E m rec t o).
Proof. intros t o. unfold ser_optional. go. Qed.
Lemma q_entry : forall ts v e c, quiet (ser_entry E m rec ts v e c).
Proof. induction ts as [|t ts IH]; intros v e c; cbn [ser_entry]; go. apply IH. Qed.
Lemma q_variant : forall ts v, quiet (ser_variant E m rec ts v).
Proof. intros ts v. unfold ser_variant. go; apply q_entry. Qed.
Lemma q_dyn_type : forall v, quiet (dyn_type_idx E v).
Proof. intros v. unfold dyn_type_idx. destruct v; go. Qed.
Lemma q_virtual_type : forall o, quiet (ser_virtual_type E m rec o).
Proof.
  intros o. unfold ser_virtual_type. destruct o; go; try apply q_dyn_type.
Qed.
Lemma q_concrete : forall c e, quiet (construct_concrete E c e).
Proof. intros c e. unfold construct_concrete. go. Qed.
Lemma q_pointed : forall t o, quiet (reconstruct_pointed E m rec t o).
Proof.
  intros t o. unfold reconstruct_pointed.
  destruct t; go; try apply q_virtual_type; apply q_concrete.
Qed.
Lemma q_unique : forall t o, quiet (ser_unique E m rec t o).
Proof. intros t o. unfold ser_unique. go; apply q_pointed. Qed.
Lemma q_followed : forall ct t o, quiet (ser_followed E m rec ct t o).
Proof. intros ct t o. unfold ser_followed. go. Qed.
Lemma q_members : forall ts is_ fs, quiet (ser_members rec ts is_ fs).
Proof. intros ts is_ fs. unfold ser_members. go. Qed.
Lemma q_static : forall c v, quiet (apply_static E m rec c v).
Proof. intros c v. unfold apply_static. destruct v; go; apply q_members. Qed.
Lemma q_dyn : forall v, quiet (dyn_serialize E rec v).
Proof. intros v. unfold dyn_serialize. destruct v; go. Qed.
Lemma q_elem : forall t v, quiet (apply_elem E m rec t v).
Proof.
  intros t v. unfold apply_elem, ser_underlying, ser_adaptor.
  destruct t; try (apply q_assoc); try (apply q_variant); try (apply q_static);
    destruct v; go; auto using q_string, q_vector, q_vecbool, q_stdarray, q_list, q_queue,
      q_pair, q_tuple, q_optional, q_unique, q_followed.
Qed.
Lemma q_ap : forall t vs, quiet (ap E m rec t vs).
Proof. intros t vs. unfold ap. go; auto using q_elem, q_dyn. Qed.
Lemma q_traverse : forall t vs, quiet (traverse E m rec t vs).
Proof. intros t vs. unfold traverse. go; apply q_ap. Qed.
End Rec.

Lemma q_with : forall f t vs, quiet (with_ E m f t vs).
Proof. induction f; intros t vs; cbn [with_]; [constructor; discriminate|]. now apply q_traverse. Qed.
Lemma q_root : forall f t v, quiet (with_root E m f t v).
Proof.
  intros f t v. unfold with_root. repeat go1; try (apply q_ser; apply q_with);
  try apply q_type_idx; apply q_mem_used.
Qed.
End Functions.
End Quiet.

(** A program that fails for a reason of its own fails in the same way when more bytes
    follow. *)
Lemma own_failure : forall A (p : prog A) vf d e after, e <> RtErr ->
  interp (reader RtErr) p vf d = Err e -> interp (reader UB) p vf (d ++ after) = Err e.
Proof.
  intros A p vf d e after He. revert vf d. induction p; intros vf d; cbn [interp].
  - discriminate.
  - cbn [contig reader]. destruct (split_at (length b) d) as [[x r]|] eqn:Es; [|congruence].
    apply split_at_inv in Es. destruct Es as (-> & Hl).
    rewrite <- app_assoc, (split_at_app _ x (r ++ after) _ Hl). apply H.
  - apply IHp.
  - apply H.
  - apply IHp.
  - apply IHp.
  - intros Hi. inversion Hi. reflexivity.
Qed.

(** One that comes to the end of the bytes reads outside the memory. *)
Lemma ran_out : forall A (p : prog A) vf d, quiet p ->
  interp (reader RtErr) p vf d = Err RtErr -> interp (reader UB) p vf d = Err UB.
Proof.
  intros A p vf d Hp. revert vf d. induction Hp; intros vf d; cbn [interp]; try discriminate; auto.
  - congruence.
  - cbn [contig reader]. destruct (split_at (length b) d) as [[x r]|]; auto.
Qed.
