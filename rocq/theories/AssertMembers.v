(** The same for objects that contain Kokkos views and maps. *)
From Coq Require Import List NArith Arith Bool Lia.
From Verif Require Import Base Syntax Prog Serializers Traverse Views Crs Members MembersFacts
  Asserts AssertViews.
Import ListNotations.
Local Open Scope N_scope.

Section Members.
Variable E : env.
Local Notation E' := (without_asserts E).
Variable span : list N -> list N -> N.
Variable K : kokkos_map.
Variable m : mode.

Lemma blank_off : forall k, blank E' k = blank E k.
Proof.
  induction k as [t|vt|vt|n t|n kt vt|n ms IH|n k IH|n k IH|n k IH] using kty_rec';
    cbn [blank]; try reflexivity.
  - now rewrite dflt_off.
  - induction IH as [|k ms Hk _ IHms]; [reflexivity|]. rewrite Hk.
    destruct (blank E k); [|reflexivity].
    destruct ((fix all (ks : list kty) : option (list kval) := _) ms) as [l|] in IHms |- *;
      destruct ((fix all (ks : list kty) : option (list kval) := _) ms) as [l'|] in IHms |- *;
      congruence.
Qed.

Variables rec rec' : ty -> list val -> prog (list val).
Hypothesis Hrec : forall t vs, upto (rec t vs) (rec' t vs).

Ltac go := repeat (off; first [ go1
  | match goal with |- upto (as_object _ _ _ _) _ => apply u_object end
  | apply u_ser; exact Hrec | apply u_size; exact Hrec | apply u_bool; exact Hrec
  | apply u_type_idx | apply u_mem_used ]).

Lemma u_member : forall k v p q, upto p q -> upto (member E m rec k v p) (member E' m rec' k v q).
Proof. intros k v p q H. unfold member. destruct k, v; go; auto. Qed.
Lemma u_array_of : forall k p q l, (forall v, upto (p v) (q v)) ->
  upto (array_of E m k p l) (array_of E' m k q l).
Proof. intros k p q l H. unfold array_of. go; auto. Qed.
Lemma u_foot_kmap : forall n kt vt mp, upto (foot_kmap E n kt vt mp) (foot_kmap E' n kt vt mp).
Proof. intros n kt vt mp. unfold foot_kmap. go. Qed.

Lemma u_own : forall k v, upto (own E span K m rec k v) (own E' span K m rec' k v).
Proof.
  induction k as [t|vt|vt|n t|n kt vt|n ms IH|n k IH|n k IH|n k IH] using kty_rec'; intros [];
    cbn [own]; try apply upto_refl; rewrite ?blank_off.
  - go; [apply u_const_view|apply u_view]; exact Hrec.
  - go. apply u_dyn_view. exact Hrec.
  - go. apply u_dynamic_view. exact Hrec.
  - go; [apply u_foot_kmap|apply u_kmap; exact Hrec].
  - apply upto_bind; [|intros; apply upto_refl].
    revert members. induction IH as [|k ms Hk _ IHms]; intros [|v vs]; try apply upto_refl.
    go; [apply u_member; apply Hk|]. apply IHms.
  - unfold ser_vector_meta. go; try (apply u_array_of; exact IH).
  - go; apply u_member; apply IH.
  - go; apply u_member; apply IH.
Qed.
End Members.
