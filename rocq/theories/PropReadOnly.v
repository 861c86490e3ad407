(** Property C10: the calls that write or measure an object leave it alone, and
    their answers do not depend on the calls made before.  *)
From Coq Require Import List NArith Arith Bool Lia.
From Coq.Strings Require Import Byte.
From Verif Require Import Base Syntax Prog Serializers Traverse Spec ProgFacts EnvFacts ValFacts
  Pack Unpack Api ApiFacts Registry Examples ReadOnly IO PropMemory.
Import ListNotations.
Local Open Scope N_scope.

(** The calls that take a [T&] and do not rebuild it, with their other arguments
    and with what the caller gets to see. *)
Inductive call :=
| CSize
| CFootprint (offset : N)
| CSerialize (fn : option (N -> option region))
| CStream (o : ostream)
| CFile (oracle : nat -> option N) (has_fallocate : bool) (page : nat) (w : world).
Inductive answer :=
| ANumber (n : N)
| ABuffer (managed : bool) (size : N) (b mem : bytes) (calls : list N)
| AStream (o : ostream)
| AFile (w : world).

Definition perform (E : env) (f : nat) (t : ty) (c : call) (v : val) : res (val * answer) :=
  match c with
  | CSize => rmap (fun p => (fst p, ANumber (snd p))) (get_size E f t v)
  | CFootprint k => rmap (fun p => (fst p, ANumber (snd p))) (get_footprint E f t v k)
  | CSerialize fn =>
    rmap (fun s => (s_obj s, ABuffer (s_managed s) (s_size s) (s_bytes s) (s_mem s) (s_calls s)))
      (serialize E f t v fn)
  | CStream o => rmap (fun p => (fst p, AStream (snd p))) (serialize_to_stream E f t v o)
  | CFile oracle hf page w =>
    let '(r, w') := serialize_to_file oracle hf page E f t v w in
    rmap (fun v' => (v', AFile w')) r
  end.

(** Calls one after the other on the same object. *)
Fixpoint perform_all (E : env) (f : nat) (t : ty) (cs : list call) (v : val)
  : res (val * list answer) :=
  match cs with
  | [] => Ok (v, [])
  | c :: r =>
    match perform E f t c v with
    | Err e => Err e
    | Ok (v1, a) =>
      match perform_all E f t r v1 with
      | Ok (v2, l) => Ok (v2, a :: l)
      | Err e => Err e
      end
    end
  end.

Section Facts.
Variable E : env.

Lemma hpacker_transparent : transparent hpacker.
Proof.
  intros b [s h] b' s' H. cbn in H. destruct (write_at _ _ _); inversion H; auto.
Qed.

Lemma ro_size : forall f t v v' n, sane v -> get_size E f t v = Ok (v', n) -> v' = v.
Proof.
  intros f t v v' n Hs H. unfold get_size in H.
  destruct (interp sizer _ false 0) as [[[a vf] s]|] eqn:Ei; [|discriminate].
  inversion H; subst. symmetry.
  exact (ro_root E MSizing ltac:(discriminate) f t v Hs sizer _ _ _ _ _ sizer_transparent Ei).
Qed.

Lemma ro_footprint : forall f t v k v' n, sane v -> get_footprint E f t v k = Ok (v', n) -> v' = v.
Proof.
  intros f t v k v' n Hs H. unfold get_footprint in H.
  destruct (interp footprinter _ false 0) as [[[a vf] s]|] eqn:Ei; [|discriminate].
  inversion H; subst. symmetry.
  exact (ro_root E MFootprinting ltac:(discriminate) f t v Hs footprinter _ _ _ _ _
           footprinter_transparent Ei).
Qed.

Lemma ro_pack_memory : forall f t v n b l r s, sane v -> pack_memory E f t v n b l r = Ok s -> s_obj s = v.
Proof.
  intros f t v n b l r s Hs H. unfold pack_memory in H.
  destruct (interp packer _ false _) as [[[a vf] p]|] eqn:Ei; [|discriminate].
  destruct (p_used p =? n); inversion H; subst. cbn [s_obj]. symmetry.
  exact (ro_root E MPacking ltac:(discriminate) f t v Hs packer _ _ _ _ _ packer_transparent Ei).
Qed.

Lemma ro_serialize : forall f t v fn s, sane v -> serialize E f t v fn = Ok s -> s_obj s = v.
Proof.
  intros f t v fn s Hs H. unfold serialize in H.
  destruct (get_size E f t v) as [[v1 n]|] eqn:Eg; [|discriminate].
  apply ro_size in Eg; auto. subst v1.
  destruct fn as [g|]; [destruct (g n)|]; eapply ro_pack_memory; eauto.
Qed.

Lemma ro_stream : forall f t v o v' o', sane v -> serialize_to_stream E f t v o = Ok (v', o') -> v' = v.
Proof.
  intros f t v o v' o' Hs H. unfold serialize_to_stream in H.
  destruct (get_size E f t v) as [[v1 n]|] eqn:Eg; [|discriminate].
  apply ro_size in Eg; auto. subst v1.
  destruct (interp stream_packer _ false o) as [[[a vf] p]|] eqn:Ei; [|discriminate].
  inversion H; subst. symmetry.
  exact (ro_root E MPacking ltac:(discriminate) f t v Hs stream_packer _ _ _ _ _
           stream_packer_transparent Ei).
Qed.

Lemma ro_pack_file : forall page f t v w v' w', sane v -> pack_file page E f t v w = (Ok v', w') -> v' = v.
Proof.
  intros page f t v w v' w' Hs H. unfold pack_file, pack_mapping in H.
  destruct (interp hpacker _ false _) as [[[a vf] p]|] eqn:Ei; [|discriminate].
  destruct p as [p h]. inversion H; subst. symmetry.
  exact (ro_root E MPacking ltac:(discriminate) f t v Hs hpacker _ _ _ _ _ hpacker_transparent Ei).
Qed.

Lemma ro_file : forall oracle hf page f t v w v' w', sane v ->
  serialize_to_file oracle hf page E f t v w = (Ok v', w') -> v' = v.
Proof.
  intros oracle hf page f t v w v' w' Hs H. unfold serialize_to_file in H.
  destruct (get_size E f t v) as [[v1 n]|] eqn:Eg; [|discriminate].
  apply ro_size in Eg; auto. subst v1. unfold ibind at 1 in H.
  destruct (setup_for_write oracle hf n w) as [[u|e] w1] eqn:Es; [|discriminate].
  unfold scoped in H. destruct (pack_file page E f t v w1) as [[a|e] w2] eqn:Ep.
  - apply ro_pack_file in Ep; auto. subst a. unfold ibind in H.
    destruct (destroy oracle true w2) as [[?|?] ?]; inversion H; auto.
  - destruct (is_exception e); [|discriminate]. unfold ibind in H.
    destruct (destroy oracle true w2) as [[?|?] ?]; inversion H; auto.
Qed.

Lemma ro_perform : forall f t c v v' a, sane v -> perform E f t c v = Ok (v', a) -> v' = v.
Proof.
  intros f t c v v' a Hs H. destruct c; cbn [perform] in H.
  - destruct (get_size E f t v) as [[? ?]|] eqn:Eg; inversion H; subst. eapply ro_size; eauto.
  - destruct (get_footprint E f t v offset) as [[? ?]|] eqn:Eg; inversion H; subst.
    eapply ro_footprint; eauto.
  - destruct (serialize E f t v fn) as [s|] eqn:Eg; inversion H; subst. eapply ro_serialize; eauto.
  - destruct (serialize_to_stream E f t v o) as [[? ?]|] eqn:Eg; inversion H; subst.
    eapply ro_stream; eauto.
  - destruct (serialize_to_file oracle has_fallocate page E f t v w) as [[?|?] ?] eqn:Eg;
      inversion H; subst. eapply ro_file; eauto.
Qed.

Lemma has_ty_sane : forall v t, has_ty E t v -> sane v.
Proof.
  assert (FA : forall t l, Forall (fun v => forall t, has_ty E t v -> sane v) l ->
            Forall (has_ty E t) l -> fold_right (fun x p => sane x /\ p) True l).
  { intros t l H Hl. apply sane_list. induction H; auto. inversion Hl; subst. constructor; eauto. }
  assert (FA2 : forall ts l, Forall (fun v => forall t, has_ty E t v -> sane v) l ->
            Forall2 (has_ty E) ts l -> fold_right (fun x p => sane x /\ p) True l).
  { intros ts l H Hl. apply sane_list. induction Hl; auto. inversion H; subst. constructor; eauto. }
  intros v. induction v using val_ind'; intros t Ht; cbn [sane]; auto.
  - inversion Ht; subst. split; lia.
  - inversion Ht; subst; (split; [lia|]); eauto.
    apply sane_list. eapply Forall_impl; [|eassumption]. intros ? [->| ->]; exact I.
  - inversion Ht; subst; eauto.
  - inversion Ht; subst; eauto.
  - inversion Ht; subst; eauto.
  - inversion Ht; subst; eauto.
  - inversion Ht; subst.
    apply sane_lists.
    match goal with A : Forall2 _ (chain E c) ls |- _ => revert A end.
    clear Ht. generalize (chain E c). intros cs Hf. induction Hf as [|c' fs cs ls' (k & _ & _ & _ & Hf') _ IHl]; auto.
    match goal with A : Forall _ (_ :: _) |- _ => inversion A; subst end.
    constructor; [apply sane_list; eapply FA2; eauto|auto].
Qed.
End Facts.

(** ** C10 *)

(** Any calls in any order on one object: it is the same object afterwards, and
    every call gives the answer it would have given as the first call.  [sane v]
    holds of every object that exists (sizes fit the address space); in particular
    of every value of a serializable type, see [C10_repeatable].  No assumption on
    the user's serialize functions. *)
Theorem C10_read_only : forall E f t cs v v' l,
  sane v -> perform_all E f t cs v = Ok (v', l) ->
  v' = v /\ Forall2 (fun c a => perform E f t c v = Ok (v, a)) cs l.
Proof.
  intros E f t cs. induction cs as [|c cs IH]; intros v v' l Hs H; cbn [perform_all] in H.
  - inversion H; subst. auto.
  - destruct (perform E f t c v) as [[v1 a]|] eqn:Ep; [|discriminate].
    pose proof (ro_perform E f t c v v1 a Hs Ep). subst v1.
    destruct (perform_all E f t cs v) as [[v2 l']|] eqn:Ea; [|discriminate].
    inversion H; subst. destruct (IH v v' l' Hs Ea) as [-> Hf]. auto.
Qed.
Print Assumptions C10_read_only.

(** For values of serializable types the calls also succeed: two serializations,
    with any measuring and writing in between and with or without the caller's
    memory, give the same bytes. *)
Theorem C10_repeatable : forall E f t cs v v' l,
  wf_env any E -> has_ty E t v -> (depth v < f)%nat -> len (enc_root E t v) < two64 ->
  exists s, serialize E f t v None = Ok s /\
    (perform_all E f t cs v = Ok (v', l) ->
     exists s', serialize E f t v' None = Ok s' /\ s_bytes s' = s_bytes s /\ s_size s' = s_size s).
Proof.
  intros E f t cs v v' l wf Ht Hd Hl. eexists.
  split; [apply serialize_managed; auto|]. intros H.
  destruct (C10_read_only E f t cs v v' l (has_ty_sane E v t Ht) H) as [-> _].
  eexists. split; [apply serialize_managed; auto|]. split; reflexivity.
Qed.
Print Assumptions C10_repeatable.

Example C10_case : forall b, exists l,
  sane v_misc /\
  perform_all (ex b) 12 t_misc
    [CSize; CSerialize None; CFootprint 7; CStream (out_stream []);
     CFile (fun _ => None) true 4096 (boot None); CSize] v_misc = Ok (v_misc, l) /\
  nth_error l 0 = nth_error l 5 /\ length l = 6%nat.
Proof.
  intros b.
  destruct (perform_all (ex b) 12 t_misc
    [CSize; CSerialize None; CFootprint 7; CStream (out_stream []);
     CFile (fun _ => None) true 4096 (boot None); CSize] v_misc) as [[v l]|] eqn:H.
  - assert (Hs : sane v_misc) by exact (has_ty_sane (ex b) _ _ (v_misc_ty b)).
    destruct (C10_read_only _ _ _ _ _ _ _ Hs H) as [-> HF]. exists l. split; auto. split; auto.
    clear H.
    repeat match goal with A : Forall2 _ (_ :: _) _ |- _ => inversion A; subst; clear A end.
    match goal with A : Forall2 _ [] _ |- _ => inversion A; subst; clear A end.
    split; auto. cbn [nth_error].
    match goal with A : perform _ _ _ CSize _ = Ok (_, ?x), B : perform _ _ _ CSize _ = Ok (_, ?y) |- Some ?x = Some ?y =>
      rewrite A in B; now inversion B end.
  - exfalso. assert (G : match perform_all (ex b) 12 t_misc
    [CSize; CSerialize None; CFootprint 7; CStream (out_stream []);
     CFile (fun _ => None) true 4096 (boot None); CSize] v_misc with Ok _ => true | _ => false end = true)
      by (destruct b; vm_compute; reflexivity).
    rewrite H in G. discriminate.
Qed.
