(** The same for Kokkos views and maps, and for objects that contain them. *)
From Coq Require Import List NArith Arith Bool Lia.
From Coq.Strings Require Import Byte.
From Verif Require Import Base Syntax Prog Serializers Traverse RegistryFacts Views Crs Members
  MembersFacts Grow.
Import ListNotations.
Local Open Scope N_scope.

(** The types that the serialize function of an object uses. *)
Definition view_uses (U : ty -> Prop) (vt : vty) : Prop :=
  U (vt_name vt) /\ U (vt_layout_name vt) /\ U (vt_elem vt) /\ U TString.
Fixpoint uses (U : ty -> Prop) (k : kty) : Prop :=
  match k with
  | KVal t => U t
  | KView vt => view_uses U vt
  | KDynRank vt => view_uses U vt /\ U (TPrim 2 4)
  | KDynamic n t => U n /\ U t /\ U TString
  | KMap n kt vt => U n /\ U kt /\ U vt /\ U (TPrim 2 4)
  | KClass n ms =>
      U n /\ (fix all (l : list kty) : Prop := match l with [] => True | k :: r => uses U k /\ all r end) ms
  | KVec n k | KOpt n k | KPtr n k => U n /\ uses U k
  end.

Section Members.
Variable U : ty -> Prop.
Variables E E' : env.
Hypothesis G : grows U E E'.
Variable span : list N -> list N -> N.
Variable K : kokkos_map.
Variable m : mode.

Ltac u := solve [ assumption | apply G ].
Ltac up := rewrite ?(g_chk _ _ _ G), ?(g_asserts _ _ _ G);
  repeat first [ rewrite (dflt_up U E E' G) by u | rewrite (sizeof_up U E E' G) by u
    | rewrite (g_tix _ _ _ G) by u ].
Ltac go1 :=
  match goal with
  | |- within (Fail RangeErr) _ => constructor
  | |- within (Fail Stuck) _ => constructor
  | |- within ?p ?p => apply within_refl
  | |- within (bind _ _) (bind _ _) => apply within_bind; [|intros ?]
  | |- within (catch _ _) (catch _ _) => apply within_catch
  | |- within (mapP _ _) (mapP _ _) => apply within_map; intros ?
  | |- within (foldP _ _ _) (foldP _ _ _) => apply within_fold; intros ? ? ?
  | |- within (Count _ _) (Count _ _) => constructor
  | |- within (match ?x with _ => _ end) (match ?x with _ => _ end) => destruct x
  end.

Lemma w_object : forall A t (p q : prog A), U t -> within p q ->
  within (as_object E m t p) (as_object E' m t q).
Proof.
  intros A t p q Ht H. unfold as_object. up.
  repeat go1; auto using (w_type_idx U E E' G), (w_mem_used U E E' G).
Qed.
Lemma w_root_object : forall A t (p q : prog A), U t -> within p q ->
  within (root_object E m t p) (root_object E' m t q).
Proof.
  intros A t p q Ht H. unfold root_object. up.
  repeat go1; auto using (w_type_idx U E E' G), (w_mem_used U E E' G), w_object.
Qed.
Lemma w_new_view : forall vt l e s, U (vt_elem vt) ->
  within (new_view E span vt l e s) (new_view E' span vt l e s).
Proof. intros vt l e s H. unfold new_view. up. apply within_refl. Qed.

Lemma blank_up : forall k, uses U k -> blank E' k = blank E k.
Proof.
  induction k as [t|vt|vt|n t|n kt vt|n ms IH|n k IH|n k IH|n k IH] using kty_rec'; intros Hu;
    cbn [blank uses] in *; try reflexivity.
  - now up.
  - destruct Hu as (_ & Hu).
    induction IH as [|k ms Hk _ IHms]; [reflexivity|]. destruct Hu as (Hu & Hr). rewrite (Hk Hu).
    specialize (IHms Hr). destruct (blank E k); [|reflexivity].
    destruct ((fix all (ks : list kty) : option (list kval) := _) ms) as [l|] in IHms |- *;
      destruct ((fix all (ks : list kty) : option (list kval) := _) ms) as [l'|] in IHms |- *;
      congruence.
Qed.

Section Rec.
Variables rec rec' : ty -> list val -> prog (list val).
Hypothesis Hrec : forall t vs, U t -> within (rec t vs) (rec' t vs).

Ltac go := repeat (up; first [ go1
  | match goal with |- within (as_object _ _ _ _) _ => apply w_object; [u|] end
  | apply w_new_view; u
  | apply (w_ser U); [exact Hrec|u] | apply (w_size U E E' G); exact Hrec
  | apply (w_int U E E' G); exact Hrec | apply (w_bool U E E' G); exact Hrec
  | apply (w_word U); [exact Hrec|u] | apply (w_array U); [exact Hrec|u]
  | apply (w_construct U E E' G); u | apply (w_leave U E E' G); [u|]
  | apply (w_type_idx U E E' G); u | apply (w_mem_used U E E' G); u ]).

Lemma w_layout : forall k l, within (ser_layout rec k l) (ser_layout rec' k l).
Proof. intros k l. unfold ser_layout. go. Qed.
Lemma w_label : forall b, U TString -> within (ser_label rec b) (ser_label rec' b).
Proof. intros b H. unfold ser_label. go. Qed.
Lemma w_visit : forall t i v, U t -> within (visit E m rec t i v) (visit E' m rec' t i v).
Proof. intros t i v H. unfold visit. go. Qed.
Lemma w_manual : forall d t v, U t ->
  within (traverse_manual E m rec d t v) (traverse_manual E' m rec' d t v).
Proof.
  intros d t v H. unfold traverse_manual, trav0, visit0.
  destruct d as [|[|[|[|[|[|[|[|[|d]]]]]]]]]; [go|..|apply within_refl];
    unfold trav1, trav2, trav3, trav4, trav5, trav6, trav7, trav8, for_;
    repeat (apply within_fold; intros ? ? _); now apply w_visit.
Qed.
Lemma w_data : forall t n v, U t -> within (ser_data rec t n v) (ser_data rec' t n v).
Proof. intros t n v H. unfold ser_data. go. Qed.
Lemma w_view : forall vt v, view_uses U vt ->
  within (ser_view E span m rec vt v) (ser_view E' span m rec' vt v).
Proof.
  intros vt v (Hn & Hl & He & Hs). unfold ser_view.
  go; auto using w_layout, w_label, w_data, w_manual.
Qed.
Lemma w_const_view : forall vt v, view_uses U vt ->
  within (ser_const_view E span m rec vt v) (ser_const_view E' span m rec' vt v).
Proof.
  intros vt v H. pose proof H as (Hn & Hl & He & Hs). unfold ser_const_view. go. now apply w_view.
Qed.
Lemma w_dyn_view : forall vt v, view_uses U vt -> U (TPrim 2 4) ->
  within (ser_dyn_view E span m rec vt v) (ser_dyn_view E' span m rec' vt v).
Proof.
  intros vt v (Hn & Hl & He & Hs) Hw. unfold ser_dyn_view.
  go; auto using w_layout, w_label, w_data, w_manual.
Qed.
Lemma w_dynamic_view : forall t v, U t -> U TString ->
  within (ser_dynamic_view E m rec t v) (ser_dynamic_view E' m rec' t v).
Proof.
  intros t v H Hs. unfold ser_dynamic_view. go; auto using w_label.
  unfold trav1, for_. apply within_fold. intros ? ? _. now apply w_visit.
Qed.
Lemma w_kmap : forall kt vt mp, U kt -> U vt -> U (TPrim 2 4) ->
  within (ser_kmap E K m rec kt vt mp) (ser_kmap E' K m rec' kt vt mp).
Proof. intros kt vt mp Hk Hv Hw. unfold ser_kmap, deser_kmap_elems, ser_kmap_elems. go. Qed.
Lemma w_foot_kmap : forall n kt vt mp, U n -> U kt -> U vt ->
  within (foot_kmap E n kt vt mp) (foot_kmap E' n kt vt mp).
Proof. intros n kt vt mp Hn Hk Hv. unfold foot_kmap. go. Qed.

Lemma uses_name : forall k, uses U k -> U (name_of k).
Proof. intros k. destruct k; cbn [uses name_of]; unfold view_uses; tauto. Qed.
Lemma w_member : forall k v p q, uses U k -> within p q ->
  within (member E m rec k v p) (member E' m rec' k v q).
Proof.
  intros k v p q Hu H. pose proof (uses_name k Hu) as Hn. unfold member.
  destruct k, v; cbn [uses] in Hu; go; exact H.
Qed.
Lemma w_array_of : forall k p q l, uses U k -> (forall v, within (p v) (q v)) ->
  within (array_of E m k p l) (array_of E' m k q l).
Proof. intros k p q l Hu H. pose proof (uses_name k Hu) as Hn. unfold array_of. go; auto. Qed.

Lemma w_own : forall k v, uses U k -> within (own E span K m rec k v) (own E' span K m rec' k v).
Proof.
  induction k as [t|vt|vt|n t|n kt vt|n ms IH|n k IH|n k IH|n k IH] using kty_rec'; intros [] Hu;
    cbn [own]; try apply within_refl; cbn [uses] in Hu.
  - go; [apply w_const_view|apply w_view]; exact Hu.
  - destruct Hu as (Hu & Hw). go. now apply w_dyn_view.
  - destruct Hu as (Hn & Ht & Hs). go. now apply w_dynamic_view.
  - destruct Hu as (Hn & Hk & Hv & Hw). go; [now apply w_foot_kmap|now apply w_kmap].
  - destruct Hu as (_ & Hu). apply within_bind; [|intros; apply within_refl].
    revert members. induction IH as [|k ms Hk _ IHms]; intros [|v vs]; try apply within_refl.
    destruct Hu as (Hu & Hr). go; [apply w_member; [exact Hu|now apply Hk]|]. now apply IHms.
  - destruct Hu as (Hn & Hu). pose proof (uses_name k Hu) as Hk. rewrite (blank_up k Hu).
    unfold ser_vector_meta. go; apply w_array_of; auto.
  - destruct Hu as (Hn & Hu). pose proof (uses_name k Hu) as Hk. rewrite (blank_up k Hu).
    go; apply w_member; auto.
  - destruct Hu as (Hn & Hu). pose proof (uses_name k Hu) as Hk. rewrite (blank_up k Hu).
    go; apply w_member; auto.
Qed.
End Rec.
End Members.
