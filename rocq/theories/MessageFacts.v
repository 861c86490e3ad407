(** Every serialization_error that leaves a traversal carries a message of the form that
    Message.v asks for. *)
From Coq Require Import List NArith Arith Bool Lia.
From Verif Require Import Base Syntax Prog Serializers Traverse Spec Message ProgFacts Closure
  Unpack PropVirtual.
Import ListNotations.
Local Open Scope N_scope.

(** A serializer whose basic operation throws other things than serialization errors. *)
Definition silent (H : serializer) : Prop :=
  forall b s d l, contig H b s <> Err (SerErr d l).

Lemma silent_all : silent sizer /\ silent packer /\ silent unpacker /\ silent footprinter /\
  silent stream_packer /\ silent stream_unpacker.
Proof.
  repeat apply conj; intros b s d l; cbn; try discriminate.
  - destruct (write_at _ _ _); discriminate.
  - destruct (split_at _ _) as [[x r]|]; discriminate.
  - destruct (split_at _ _) as [[x r]|]; discriminate.
Qed.

(** [p] takes the flag from [b] to [b'], and the errors it throws satisfy [Q]. *)
Definition speaks (Q : nat -> list line -> Prop) (b b' : bool) A (p : prog A) : Prop :=
  forall H, honest H -> silent H -> forall s,
    match interp H p b s with
    | Ok (_, vf, _) => vf = b'
    | Err (SerErr d l) => Q d l
    | Err _ => True
    end.

Lemma s_weaken : forall (Q Q' : nat -> list line -> Prop) b b' A p,
  (forall d l, Q d l -> Q' d l) -> speaks Q b b' A p -> speaks Q' b b' A p.
Proof.
  intros Q Q' b b' A p Hq Hp H Hh Hs s. specialize (Hp H Hh Hs s).
  destruct (interp H p b s) as [[[? ?] ?]|[]]; auto.
Qed.

Section Speaks.
Variable Q : nat -> list line -> Prop.

Lemma s_ret : forall b A (a : A), speaks Q b b A (Ret a).
Proof. intros b A a H Hh Hs s. reflexivity. Qed.
Lemma s_fail : forall b b' A e, reports e = false -> speaks Q b b' A (Fail e).
Proof. intros b b' A e He H Hh Hs s. cbn [interp]. destruct e; auto; discriminate. Qed.
Lemma s_bind : forall b b' b'' A B (p : prog A) (f : A -> prog B),
  speaks Q b b' A p -> (forall a, speaks Q b' b'' B (f a)) -> speaks Q b b'' B (bind p f).
Proof.
  intros b b' b'' A B p f Hp Hf H Hh Hs s. rewrite interp_bind. specialize (Hp H Hh Hs s).
  destruct (interp H p b s) as [[[a vf] s']|e]; auto. subst vf. now apply Hf.
Qed.
Lemma s_contig : forall b b' A x (k : bytes -> prog A),
  (forall y, length y = length x -> speaks Q b b' A (k y)) -> speaks Q b b' A (Contig x k).
Proof.
  intros b b' A x k Hk H Hh Hs s. cbn [interp]. destruct (contig H x s) as [[y s']|e] eqn:Ec.
  - apply Hk; auto. eapply Hh; eauto.
  - destruct e; auto. now apply Hs in Ec.
Qed.
Lemma s_count : forall b b' A n (k : prog A), speaks Q b b' A k -> speaks Q b b' A (Count n k).
Proof. intros b b' A n k Hk H Hh Hs s. exact (Hk H Hh Hs (count H n s)). Qed.
Lemma s_note : forall e b b' A (k : prog A), speaks Q b b' A k -> speaks Q b b' A (Note e k).
Proof. intros e b b' A k Hk H Hh Hs s. now apply Hk. Qed.
Lemma s_call : forall c A B (p : prog A) (g : A -> B), speaks Q false false A p ->
  speaks Q false false B (Note (EvSerialize c) (bind p (fun x => Note (EvReturn c) (Ret (g x))))).
Proof.
  intros c A B p g Hp. apply s_note. eapply s_bind; [exact Hp|]. intros. apply s_note, s_ret.
Qed.
Lemma s_catch : forall (Q0 : nat -> list line -> Prop) i b b' A (p : prog A),
  (forall d l, Q0 d l -> Q (S d) (l ++ [Frame (S d) i])) ->
  speaks Q0 b b' A p -> speaks Q b b' A (catch i p).
Proof.
  intros Q0 i b b' A p Hq Hp H Hh Hs s. specialize (Hp H Hh Hs s). revert b s Hp.
  induction p as [a|x k IH|n k IH|k IH|c k IH|ev k IH|e]; intros vf s Hp; cbn [catch interp] in *.
  - exact Hp.
  - destruct (contig H x s) as [[y s']|e] eqn:Ec; [now apply IH|].
    destruct e; auto. now apply Hs in Ec.
  - now apply IH.
  - now apply IH.
  - now apply IH.
  - now apply IH.
  - destruct e; cbn [bump]; auto.
Qed.
End Speaks.

Lemma frames_snoc : forall E us k u, frames E k (us ++ [u]) = frames E k us ++ [Frame (k + length us) (tix E u)].
Proof.
  intros E us. induction us as [|x us IH]; intros k u; cbn [app frames length].
  - now rewrite Nat.add_0_r.
  - rewrite IH. now rewrite Nat.add_succ_r.
Qed.

(** The shape of messages from the outside in, as they come about. *)
Inductive message (E : env) : ty -> nat -> list line -> Prop :=
| MHere t l : complaint E t l -> message E t 0 [l]
| MFrame t u d ls : direct E t u -> message E u d ls -> message E t (S d) (ls ++ [Frame (S d) (tix E t)]).

Lemma nested_snoc : forall E u us w t, nested E u us w -> direct E t w -> nested E u (us ++ [t]) t.
Proof.
  intros E u us w t H Hd. induction H as [w|u x us w Hx H IH]; cbn [app].
  - apply NeIn; [exact Hd|apply NeRoot].
  - apply NeIn; [exact Hx|now apply IH].
Qed.

Lemma message_explained : forall E t d ls, message E t d ls -> explained E t d ls.
Proof.
  intros E t d ls H. induction H as [t l Hl|t u d ls Hd H (w & us & l & -> & <- & Hn & Hl)].
  - exists t, [], l. repeat split; auto. apply NeRoot.
  - exists w, (us ++ [t]), l. split; [|split; [|split]].
    + cbn [app]. f_equal. rewrite frames_snoc. reflexivity.
    + rewrite app_length. cbn [length]. lia.
    + eapply nested_snoc; eauto.
    + exact Hl.
Qed.

Section Messages.
Variable E : env.
Variable F : N -> Prop.
Variable wf : wf_env F E.
Variable nobv : no_bytewise_virtual E.
Variable m : mode.

(** Errors are thrown while reading only. *)
Definition told (t : ty) (d : nat) (l : list line) : Prop := m = MUnpacking /\ message E t d l.

(** About the object itself. *)
Definition told_here (t : ty) (d : nat) (l : list line) : Prop := told t d l /\ d = 0%nat.

Lemma s_type_idx : forall b t, speaks (told_here t) b b _ (with_type_idx E m t).
Proof.
  intros b t. unfold with_type_idx.
  assert (Hs : forall x, speaks (told_here t) b b _ (Contig x (fun _ => Ret tt)))
    by (intros; apply s_contig; intros; apply s_ret).
  destruct m eqn:Em; try apply Hs; try apply s_ret.
  apply s_contig. intros y _. cbv zeta. destruct (_ || _) eqn:Ev; [|apply s_ret].
  intros H Hh Hsi s. cbn [interp]. split; [split; [exact Em|]|reflexivity]. apply MHere, CoType. intros He.
  rewrite He, N.eqb_refl, (proj2 (tix_ok F E wf t)) in Ev. discriminate.
Qed.
Lemma s_mem_used : forall b t n, speaks (told_here t) b b _ (with_mem_used E m t n).
Proof.
  intros b t n. unfold with_mem_used.
  assert (Hs : forall x, speaks (told_here t) b b _ (Contig x (fun _ => Ret tt)))
    by (intros; apply s_contig; intros; apply s_ret).
  destruct m eqn:Em; try apply Hs; try apply s_ret.
  apply s_contig. intros y _. destruct (_ =? _) eqn:Ev; [apply s_ret|].
  intros H Hh Hsi s. cbn [interp]. split; [split; [exact Em|]|reflexivity]. apply MHere, CoSize. now apply N.eqb_neq in Ev.
Qed.

(** The objects directly inside an object of type [t]. *)
Definition told_inside (t : ty) (d : nat) (l : list line) : Prop :=
  exists u, direct E t u /\ told u d l.

Lemma s_traverse : forall rec b t vs, speaks (told_inside t) b false _ (ap E m rec t vs) ->
  chk E = true -> speaks (told t) b false _ (traverse E m rec t vs).
Proof.
  intros rec b t vs H Hc. unfold traverse. rewrite Hc.
  eapply s_bind; [eapply s_weaken; [|apply s_type_idx]; intros d l Hl; apply Hl|]. intros _. eapply s_bind.
  { eapply s_catch; [|exact H]. intros d l (u & Hd & Hm & Hl). split; [exact Hm|].
    eapply MFrame; eauto. }
  intros. eapply s_bind; [eapply s_weaken; [|apply s_mem_used]; intros d l Hl; apply Hl|]. intros. apply s_ret.
Qed.

(** What is known of a recursive call carries over to the contents of an object. *)
Lemma s_ap : forall (Q : nat -> list line -> Prop) rec t,
  (forall u vs, direct E t u -> speaks Q false false _ (rec u vs)) ->
  (forall u vs, direct E t u -> is_virtual E u = true -> speaks Q true false _ (rec u vs)) ->
  forall vs, speaks Q false false _ (ap E m rec t vs) /\
    (is_virtual E t = true -> speaks Q true false _ (ap E m rec t vs)).
Proof.
  intros Q rec t H1 H2 vs. split.
  - apply (g_ap (speaks Q)) with (R := direct E t); auto; try exact (chain_v F E wf);
      first [ exact (s_ret Q) | exact (s_fail Q) | exact (s_bind Q) | exact (s_contig Q)
            | exact (s_call Q) | intros; apply s_note; assumption
            | exact (s_count Q) ].
  - intros Hv. apply (g_apV (speaks Q)) with (R := direct E t); auto;
      first [ exact (s_ret Q) | exact (s_fail Q) | exact (s_bind Q) | exact (s_contig Q)
            | exact (s_call Q) | intros; apply s_note; assumption
            | exact (s_count Q) ].
Qed.

Lemma s_with : chk E = true -> forall f t vs,
  speaks (told t) false false _ (with_ E m f t vs) /\
  (is_virtual E t = true -> speaks (told t) true false _ (with_ E m f t vs)).
Proof.
  intros Hc. induction f as [|f IH]; intros t vs; cbn [with_].
  { split; intros; apply s_fail; reflexivity. }
  assert (W : forall u d l, direct E t u -> told u d l -> told_inside t d l)
    by (intros u d l Hd Hl; exists u; auto).
  destruct (s_ap (told_inside t) (with_ E m f) t) with (vs := vs) as (A1 & A2).
  - intros u us Hd. eapply s_weaken; [|apply IH]. eauto.
  - intros u us Hd Hv. eapply s_weaken; [|apply IH; exact Hv]. eauto.
  - split; [|intros Hv]; apply s_traverse; auto.
Qed.

(** Without error checking only the root object has something to say. *)
Lemma s_with_off : chk E = false -> forall f t vs,
  speaks (fun _ _ => False) false false _ (with_ E m f t vs) /\
  (is_virtual E t = true -> speaks (fun _ _ => False) true false _ (with_ E m f t vs)).
Proof.
  intros Hc. induction f as [|f IH]; intros t vs; cbn [with_].
  { split; intros; apply s_fail; reflexivity. }
  unfold traverse. rewrite Hc. apply s_ap; intros; now apply IH.
Qed.

Lemma s_ser : forall Q rec b t v, speaks Q b false _ (rec t [v]) -> speaks Q b false _ (ser rec t v).
Proof.
  intros Q rec b t v H. unfold ser. eapply s_bind; [exact H|].
  intros [|x [|? ?]]; first [apply s_ret|now apply s_fail].
Qed.

Lemma s_with_root : forall f t v,
  speaks (fun d l => told t d l /\ (chk E = false -> d = 0%nat)) false false _ (with_root E m f t v).
Proof.
  intros f t v. unfold with_root. destruct (chk E) eqn:Hc.
  - eapply s_weaken with (Q := told t); [intros; split; [assumption|discriminate]|].
    apply s_ser. now apply s_with.
  - assert (W : forall d l, told_here t d l -> told t d l /\ (false = false -> d = 0%nat))
      by (intros d l (H1 & H2); auto).
    eapply s_bind; [eapply s_weaken; [exact W|apply s_type_idx]|]. intros _. eapply s_bind.
    { eapply s_weaken with (Q := fun _ _ => False); [contradiction|]. apply s_ser. now apply s_with_off. }
    intros v'. eapply s_bind; [eapply s_weaken; [exact W|apply s_mem_used]|]. intros. apply s_ret.
Qed.
End Messages.
