(** The traversal of Traverse.v uses the mechanism that Select.v selects. *)
From Coq Require Import List NArith Arith Bool Lia.
From Verif Require Import Base Syntax Prog Serializers Traverse ProgFacts.
From Verif Require Select.
Import Select (traits, call, Copy, Member, Parent, This, Free, Enum, Sizeof, Dynamic, dispatch, for_each).
Import ListNotations.
Local Open Scope N_scope.

Section Refine.
Variable E : env.
Variable m : mode.
Variable rec : ty -> list val -> prog (list val).

(** What is detected about a type of the model: user classes have a member
    function, containers a free one; the free functions of the footprint-only types
    are restricted to the footprinter (e.g. raw_ptr_serialize.h:60-66), and opaque
    types have none (serializable_traits.h:77-159, virtual_serialize_traits.h:55-103). *)
Definition traits_of (t : ty) : traits := {|
  Select.q_marker := match t with TClass _ => bytecopy E t | _ => false end;
  Select.q_arith := match t with TPrim _ _ => true | _ => false end;
  Select.q_special := match t with TVariant _ => bytecopy E t | _ => false end;
  Select.q_enum := match t with TEnum _ _ _ => true | _ => false end;
  Select.q_member := fun _ => match t with TClass _ => true | _ => false end;
  Select.q_free := fun m =>
    match t with
    | TPrim _ _ | TEnum _ _ _ | TClass _ | TOpaque _ _ => false
    | TShared _ | TRaw _ | TCounted _ _ => is_footprinting m
    | _ => true
    end;
  Select.q_parent := fun _ => false;
  Select.q_this := fun _ => false;
  Select.q_base := is_virtual E t;
  Select.q_dynser := is_virtual E t;
  Select.q_dynidx := is_virtual E t
|}.

(** One of the selected calls on the array [vs], in terms of Traverse.v
    (dispatch_serializer_byte.h:71, dispatch_serializer_nonbyte.h:62, 66, 138, 171,
    225). *)
Definition exec (t : ty) (vs : list val) (c : call) : prog (list val) :=
  match c with
  | Copy _ =>
    match opt_all (map (obj_bytes E t) vs) with
    | Some bs => Contig (concat bs) (fun b => Ret (unflatten E t vs b))
    | None => Fail Stuck
    end
  | Member i | Free i | Enum i =>
    match nth_error vs i with
    | Some v => bind (apply_elem E m rec t v) (fun x => Ret (upd vs i x))
    | None => Fail Stuck
    end
  | Sizeof num => Note (EvFirst t) (Count (sizeof E t * N.of_nat num) (Ret vs))
  | Dynamic i =>
    match nth_error vs i with
    | Some v => bind (dyn_serialize E rec v) (fun x => Ret (upd vs i x))
    | None => Fail Stuck
    end
  | Parent _ | This _ => Fail Stuck
  end.

(** Running what is selected for [vs]; what does not compile has no behaviour
    (dispatch_serializer_byte.h:67-80). *)
Definition selected (t : ty) (vs : list val) : prog (list val) :=
  match dispatch (traits_of t) m with
  | None => Fail Stuck
  | Some f =>
    GetV (fun disabled =>
      let (calls, flag) := f (length vs) disabled in
      SetV flag (foldP (exec t) calls vs))
  end.

(** Two programs no serializer can tell apart. *)
Definition same {A} (p q : prog A) : Prop :=
  forall H vf s, interp H p vf s = interp H q vf s.

Lemma same_bind : forall A B (p : prog A) (f g : A -> prog B),
  (forall a, same (f a) (g a)) -> same (bind p f) (bind p g).
Proof.
  intros A B p f g Hf H vf s. rewrite !interp_bind.
  destruct (interp H p vf s) as [[[a vf'] s']|e]; auto. apply Hf.
Qed.

Lemma nth_mid : forall A (pre : list A) v r, nth_error (pre ++ v :: r) (length pre) = Some v.
Proof. intros. rewrite nth_error_app2, Nat.sub_diag; auto. Qed.

Lemma upd_mid : forall A (pre : list A) v x r, upd (pre ++ v :: r) (length pre) x = pre ++ x :: r.
Proof. intros A pre v x r. induction pre; cbn; auto. now rewrite IHpre. Qed.

Lemma foldP_app_same : forall A B (f : B -> A -> prog B) a b acc,
  same (foldP f (a ++ b) acc) (bind (foldP f a acc) (fun acc => foldP f b acc)).
Proof.
  intros A B f a b. induction a; intros acc; cbn [app foldP]; intros H vf s; [reflexivity|].
  rewrite !interp_bind.
  destruct (interp H (f acc a) vf s) as [[[x vf'] s']|e]; auto.
  rewrite (IHa x H vf' s'), interp_bind. reflexivity.
Qed.

(** A loop over the positions is a loop over the objects. *)
Lemma loop_same : forall t (g : nat -> call) vs pre,
  (forall i vs, exec t vs (g i) =
     match nth_error vs i with
     | Some v => bind (apply_elem E m rec t v) (fun x => Ret (upd vs i x))
     | None => Fail Stuck
     end) ->
  same (foldP (exec t) (for_each (fun i => [g i]) (length pre) (length vs)) (pre ++ vs))
       (bind (mapP (apply_elem E m rec t) vs) (fun vs' => Ret (pre ++ vs'))).
Proof.
  intros t g vs. induction vs as [|v r IH]; intros pre Hg H vf s; cbn [length for_each foldP mapP].
  - reflexivity.
  - cbn [app foldP]. rewrite Hg, nth_mid. rewrite !interp_bind.
    destruct (interp H (apply_elem E m rec t v) vf s) as [[[x vf'] s']|e] eqn:Ei; auto.
    cbn [interp]. rewrite upd_mid.
    replace (pre ++ x :: r) with ((pre ++ [x]) ++ r) by (now rewrite <- app_assoc).
    replace (S (length pre)) with (length (pre ++ [x])) by (rewrite app_length; cbn; lia).
    rewrite (IH (pre ++ [x]) Hg H vf' s'). rewrite !interp_bind.
    destruct (interp H (mapP (apply_elem E m rec t) r) vf' s') as [[[ys vf2] s2]|e]; auto.
    cbn [interp]. now rewrite <- app_assoc.
Qed.

Lemma loop0 : forall t (g : nat -> call) vs,
  (forall i vs, exec t vs (g i) =
     match nth_error vs i with
     | Some v => bind (apply_elem E m rec t v) (fun x => Ret (upd vs i x))
     | None => Fail Stuck
     end) ->
  same (foldP (exec t) (for_each (fun i => [g i]) 0 (length vs)) vs)
       (mapP (apply_elem E m rec t) vs).
Proof.
  intros t g vs Hg H vf s. pose proof (loop_same t g vs [] Hg H vf s) as Hl. cbn [app length] in Hl. rewrite Hl.
  rewrite interp_bind. destruct (interp H (mapP (apply_elem E m rec t) vs) vf s) as [[[x a] b]|e]; auto.
Qed.

(** A run of equal counts is one count of the sum. *)
Lemma counts_same : forall t H vs vf s a,
  (forall a b s, count H b (count H a s) = count H (a + b) s) ->
  (forall s, note H (EvFirst t) s = s) ->
  (forall v, apply_elem E m rec t v = Note (EvFirst t) (Count a (Ret v))) -> vs <> [] ->
  interp H (mapP (apply_elem E m rec t) vs) vf s =
  Ok (vs, vf, count H (a * N.of_nat (length vs)) s).
Proof.
  intros t H vs vf s a Hc Ht Ha. revert s. induction vs as [|v r IH]; intros s Hn; [congruence|].
  cbn [mapP length]. rewrite Ha. cbn [bind interp]. rewrite Ht, interp_bind.
  destruct r as [|w r].
  - cbn [mapP interp length]. now rewrite N.mul_1_r.
  - rewrite IH by discriminate. cbn [interp]. rewrite Hc.
    replace (a * N.of_nat (S (length (w :: r)))) with (a + a * N.of_nat (length (w :: r))) by lia.
    reflexivity.
Qed.

Local Ltac sel :=
  unfold dispatch, Select.q_bytes, Select.apply, Select.apply_static, Select.apply_elm,
    Select.q_virtual, Select.q_traversable, Select.q_split, Select.q_bytes, Select.resolve;
  cbn [traits_of Select.q_marker Select.q_arith Select.q_special Select.q_enum Select.q_member
       Select.q_free Select.q_parent Select.q_this Select.q_base Select.q_dynser Select.q_dynidx
       is_virtual bytecopy orb andb negb filter fst].

(** For arrays of at least one object (serializeArray, dispatch.impl.h:229-234). *)
Lemma select_ap : forall H t vs vf s,
  (forall a b s, count H b (count H a s) = count H (a + b) s) ->
  (forall u s, note H (EvFirst u) s = s) -> vs <> [] ->
  interp H (selected t vs) vf s = interp H (ap E m rec t vs) vf s.
Proof.
  intros H t vs vf s Hc Hf Hn.
  assert (Hloop : forall g,
    (forall i vs, exec t vs (g i) =
     match nth_error vs i with
     | Some v => bind (apply_elem E m rec t v) (fun x => Ret (upd vs i x))
     | None => Fail Stuck
     end) -> forall vf s,
    interp H (foldP (exec t) (for_each (fun i => [g i]) 0 (length vs)) vs) vf s =
    interp H (mapP (apply_elem E m rec t) vs) vf s) by (intros; now apply loop0).
  unfold selected, ap.
  destruct (bytecopy E t) eqn:Eb.
  - assert (Hd : dispatch (traits_of t) m = Some (fun num disabled => ([Copy num], disabled))).
    { unfold dispatch, Select.q_bytes. destruct t; try discriminate; cbn [traits_of Select.q_marker Select.q_arith Select.q_special];
        try rewrite Eb; reflexivity. }
    rewrite Hd. cbn [interp foldP exec bind].
    destruct (opt_all (map (obj_bytes E t) vs)) as [bs|]; [|reflexivity].
    cbn [bind interp]. destruct (contig H (concat bs) s) as [[b s']|e]; reflexivity.
  - destruct t; try discriminate; cbn [is_virtual];
    try (sel; cbn [bytecopy] in Eb;
         try rewrite Eb; rewrite ?Bool.andb_false_r; cbn [negb andb orb filter fst];
         cbn [interp]; rewrite (Hloop Free) by reflexivity; reflexivity).
    + (* enum *)
      sel.
      rewrite Bool.andb_false_r. cbn [filter fst interp].
      now rewrite (Hloop Enum) by reflexivity.
    + (* class *)
      cbn [bytecopy] in Eb.
      sel.
      rewrite Eb. cbn [negb andb orb filter fst]. rewrite Bool.andb_false_r. cbn [negb andb orb filter fst].
      destruct (match cls E c with Some k => cvirt k | None => false end) eqn:Ev.
      * cbn [andb negb filter fst interp]. destruct vf.
        -- cbn [interp]. now rewrite (Hloop Member) by reflexivity.
        -- cbn [interp foldP exec]. destruct vs as [|v r]; [congruence|]. cbn [nth_error].
           rewrite !interp_bind.
           destruct (interp H (dyn_serialize E rec v) false s) as [[[x vf'] s']|e]; reflexivity.
      * cbn [andb negb filter fst interp]. now rewrite (Hloop Member) by reflexivity.
    + (* shared *)
      sel. rewrite ?Bool.andb_false_r, ?Bool.orb_false_r.
      destruct (is_footprinting m) eqn:Em; cbn [negb andb orb filter fst interp].
      * now rewrite (Hloop Free) by reflexivity.
      * destruct vs as [|v r]; [congruence|]. cbn [mapP]. rewrite interp_bind.
        destruct v; cbn [apply_elem]; unfold ser_followed; rewrite ?Em; reflexivity.
    + (* raw *)
      sel. rewrite ?Bool.andb_false_r, ?Bool.orb_false_r.
      destruct (is_footprinting m) eqn:Em; cbn [negb andb orb filter fst interp].
      * now rewrite (Hloop Free) by reflexivity.
      * destruct vs as [|v r]; [congruence|]. cbn [mapP]. rewrite interp_bind.
        destruct v; cbn [apply_elem]; unfold ser_followed; rewrite ?Em; reflexivity.
    + (* counted *)
      sel. rewrite ?Bool.andb_false_r, ?Bool.orb_false_r.
      destruct (is_footprinting m) eqn:Em; cbn [negb andb orb filter fst interp].
      * now rewrite (Hloop Free) by reflexivity.
      * destruct vs as [|v r]; [congruence|]. cbn [mapP]. rewrite interp_bind.
        destruct v; cbn [apply_elem]; rewrite ?Em; reflexivity.
    + (* opaque *)
      sel. rewrite ?Bool.andb_false_r, ?Bool.orb_false_r.
      destruct (is_footprinting m) eqn:Em; cbn [negb andb orb filter fst interp].
      * rewrite (counts_same (TOpaque id sz) H vs vf s (N.of_nat sz) Hc (Hf (TOpaque id sz)));
          [cbn [foldP exec bind interp sizeof]; now rewrite Hf| |exact Hn].
        intros v. destruct v; cbn [apply_elem]; now rewrite Em.
      * destruct vs as [|v r]; [congruence|]. cbn [mapP]. rewrite interp_bind.
        destruct v; cbn [apply_elem]; rewrite ?Em; reflexivity.
Qed.
End Refine.
