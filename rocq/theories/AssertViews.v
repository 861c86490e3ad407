(** The same for the functions on views, maps, graphs, pointers and for the serialize
    functions of users. *)
From Coq Require Import List NArith Arith Bool Lia.
From Coq.Strings Require Import Byte.
From Verif Require Import Base Syntax Prog Serializers Traverse Api Registry RegistryFacts Views
  Device Crs Pointers User Streams Asserts.
Import ListNotations.
Local Open Scope N_scope.

Ltac off := cbn [chk asserts defc copyc movec less keq hplace oreg cls szof tix without_asserts];
  rewrite ?bytecopy_off, ?chain_off, ?root_off, ?level_off, ?obj_idx_off, ?is_virtual_off,
    ?dflt_off, ?recon_off, ?obj_bytes_off, ?unflatten_off, ?emplace_off, ?sizeof_off.
Ltac go1 :=
  match goal with
  | |- upto (Fail AssertErr) _ => constructor
  | |- upto ?p ?p => apply upto_refl
  | |- upto (bind _ _) (bind _ _) => apply upto_bind; [|intros ?]
  | |- upto (catch _ _) (catch _ _) => apply upto_catch
  | |- upto (mapP _ _) (mapP _ _) => apply upto_map; intros ?
  | |- upto (foldP _ _ _) (foldP _ _ _) => apply upto_fold; intros ? ?
  | |- upto (Contig _ _) (Contig _ _) => constructor; intros ?
  | |- upto (GetV _) (GetV _) => constructor; intros ?
  | |- upto (Count _ _) (Count _ _) => constructor
  | |- upto (SetV _ _) (SetV _ _) => constructor
  | |- upto (Note _ _) (Note _ _) => constructor
  | |- upto (match ?x with _ => _ end) (match ?x with _ => _ end) => destruct x
  | |- context [asserts ?E] => destruct (asserts E); cbn [negb];
      rewrite ?orb_true_r, ?orb_false_r, ?andb_false_r; cbn [orb andb]
  | |- upto (if ?b then Fail AssertErr else _) _ => destruct b
  end.

Section Views.
Variable E : env.
Local Notation E' := (without_asserts E).
Variable span : list N -> list N -> N.
Variable m : mode.

Lemma u_object : forall A t (p q : prog A), upto p q ->
  upto (as_object E m t p) (as_object E' m t q).
Proof.
  intros A t p q H. unfold as_object. off. repeat go1; auto using u_type_idx, u_mem_used.
Qed.
Lemma u_root_object : forall A t (p q : prog A), upto p q ->
  upto (root_object E m t p) (root_object E' m t q).
Proof.
  intros A t p q H. unfold root_object. off.
  repeat go1; auto using u_type_idx, u_mem_used, u_object.
Qed.
Lemma u_new_view : forall vt l e s, upto (new_view E span vt l e s) (new_view E' span vt l e s).
Proof. intros vt l e s. unfold new_view. off. apply upto_refl. Qed.

Section Rec.
Variables rec rec' : ty -> list val -> prog (list val).
Hypothesis Hrec : forall t vs, upto (rec t vs) (rec' t vs).

Ltac go := repeat (off; first [ go1 | match goal with |- upto (as_object _ _ _ _) _ => apply u_object end | apply u_new_view
  | apply u_construct | apply u_leave
  | apply u_ser; exact Hrec | apply u_word; exact Hrec | apply u_size; exact Hrec
  | apply u_int; exact Hrec | apply u_bool; exact Hrec | apply u_array; exact Hrec ]).

Lemma u_layout : forall k l, upto (ser_layout rec k l) (ser_layout rec' k l).
Proof. intros k l. unfold ser_layout. go. Qed.
Lemma u_label : forall b, upto (ser_label rec b) (ser_label rec' b).
Proof. intros b. unfold ser_label. go. Qed.
Lemma u_visit : forall t i v, upto (visit E m rec t i v) (visit E' m rec' t i v).
Proof. intros t i v. unfold visit. go. Qed.
Lemma u_manual : forall d t v, upto (traverse_manual E m rec d t v) (traverse_manual E' m rec' d t v).
Proof.
  intros d t v. unfold traverse_manual, trav0, visit0.
  destruct d as [|[|[|[|[|[|[|[|[|d]]]]]]]]]; [go|..|apply upto_refl];
    unfold trav1, trav2, trav3, trav4, trav5, trav6, trav7, trav8, for_;
    repeat (apply upto_fold; intros ? ?); apply u_visit.
Qed.
Lemma u_data : forall t n v, upto (ser_data rec t n v) (ser_data rec' t n v).
Proof. intros t n v. unfold ser_data. go. Qed.
Lemma u_view : forall vt v, upto (ser_view E span m rec vt v) (ser_view E' span m rec' vt v).
Proof.
  intros vt v. unfold ser_view.
  go; auto using u_layout, u_label, u_data, u_manual.
Qed.
Lemma u_const_view : forall vt v,
  upto (ser_const_view E span m rec vt v) (ser_const_view E' span m rec' vt v).
Proof. intros vt v. unfold ser_const_view. go. apply u_view. Qed.
Lemma u_any_view : forall vt v,
  upto (ser_any_view E span m rec vt v) (ser_any_view E' span m rec' vt v).
Proof. intros vt v. unfold ser_any_view. go; [apply u_const_view|apply u_view]. Qed.
Lemma u_dyn_view : forall vt v,
  upto (ser_dyn_view E span m rec vt v) (ser_dyn_view E' span m rec' vt v).
Proof.
  intros vt v. unfold ser_dyn_view. go; auto using u_layout, u_label, u_data, u_manual.
Qed.
Lemma u_dynamic_view : forall t v,
  upto (ser_dynamic_view E m rec t v) (ser_dynamic_view E' m rec' t v).
Proof.
  intros t v. unfold ser_dynamic_view. go; auto using u_label.
  unfold trav1, for_. apply upto_fold. intros ? ?. apply u_visit.
Qed.
Lemma u_kmap : forall K kt vt mp, upto (ser_kmap E K m rec kt vt mp) (ser_kmap E' K m rec' kt vt mp).
Proof. intros K kt vt mp. unfold ser_kmap, deser_kmap_elems, ser_kmap_elems. go. Qed.

Lemma u_mirrored : forall t d c n h v,
  upto (ser_mirrored E m rec t d c n h v) (ser_mirrored E' m rec' t d c n h v).
Proof. intros t d c n h v. unfold ser_mirrored. go; auto using u_data, u_manual. Qed.
Lemma u_device_view : forall vt v,
  upto (ser_device_view E span m rec vt v) (ser_device_view E' span m rec' vt v).
Proof.
  intros vt v. unfold ser_device_view, mirror.
  go; auto using u_layout, u_label, u_mirrored.
Qed.
Lemma u_device_const_view : forall vt v,
  upto (ser_device_const_view E span m rec vt v) (ser_device_const_view E' span m rec' vt v).
Proof. intros vt v. unfold ser_device_const_view. go. apply u_device_view. Qed.
Lemma u_device_dyn_view : forall junk vt v,
  upto (ser_device_dyn_view E span m rec junk vt v) (ser_device_dyn_view E' span m rec' junk vt v).
Proof.
  intros junk vt v. unfold ser_device_dyn_view, raw_mirror.
  go; auto using u_layout, u_label, u_mirrored.
Qed.

Lemma u_extent_only : forall vt v l,
  upto (ser_extent_only E span m rec vt v l) (ser_extent_only E' span m rec' vt v l).
Proof.
  intros vt v l. unfold ser_extent_only, extent_only1, extent_only2, extent_only3, extent_only4,
    from_extents. go.
Qed.
Lemma u_contents_only : forall vt v,
  upto (ser_contents_only E span m rec vt v) (ser_contents_only E' span m rec' vt v).
Proof. intros vt v. unfold ser_contents_only. go. apply u_any_view. Qed.
Lemma u_graph : forall ct g, upto (ser_graph E span m rec ct g) (ser_graph E' span m rec' ct g).
Proof. intros ct g. unfold ser_graph. go; apply u_any_view. Qed.
Lemma u_matrix : forall mb ct a,
  upto (ser_matrix E span mb m rec ct a) (ser_matrix E' span mb m rec' ct a).
Proof. intros mb ct a. unfold ser_matrix. go; auto using u_any_view, u_graph. Qed.

Lemma u_follow : forall t p, upto (follow rec t p) (follow rec' t p).
Proof. intros t p. unfold follow. go. Qed.
Lemma u_raw : forall t p, upto (ser_raw E m rec t p) (ser_raw E' m rec' t p).
Proof. intros t p. unfold ser_raw. go; auto using u_pointed, u_follow. Qed.
Lemma u_shared : forall t p, upto (ser_shared E m rec t p) (ser_shared E' m rec' t p).
Proof. intros t p. unfold ser_shared. go; auto using u_pointed, u_follow. Qed.
Lemma u_pointers : forall ms ps,
  upto (Pointers.ser_members E m rec ms ps) (Pointers.ser_members E' m rec' ms ps).
Proof.
  induction ms as [|k ms IH]; intros [|p ps]; cbn [Pointers.ser_members]; go;
    auto using u_raw, u_shared.
Qed.

Lemma u_how : forall k v, upto (ser_how E m rec k v) (ser_how E' m rec' k v).
Proof. intros k v. unfold ser_how. go; auto using u_raw, u_shared. Qed.
Lemma u_first : forall k n l, upto (ser_first E m rec k n l) (ser_first E' m rec' k n l).
Proof. intros k. induction n as [|n IH]; intros [|x l]; cbn [ser_first]; go; auto using u_how. Qed.
Lemma u_block : forall b fs, upto (ser_block E m rec b fs) (ser_block E' m rec' b fs).
Proof.
  induction b as [|s b IH|c b1 IH1 b2 IH2 b IH]; intros fs; cbn [ser_block]; go; auto.
  unfold ser_stmt. go; auto using u_how, u_first.
Qed.
End Rec.
End Views.

Lemma u_unlisted : forall E A (p q : prog A), upto p q ->
  upto (unlisted E p) (unlisted (without_asserts E) q).
Proof.
  intros E A p q H. induction H; cbn [unlisted]; try constructor; auto.
  destruct e; try (constructor; auto; fail). constructor. unfold derived, missing.
  cbn [cls asserts without_asserts].
  destruct (cls E c) as [x|]; [|auto]. destruct (cparent x); [|auto].
  destruct (asserts E); constructor.
Qed.
