(** Property C62: what the message of a serialization_error says. *)
From Coq Require Import List NArith Arith Bool Lia.
From Coq.Strings Require Import Byte.
From Verif Require Import Base Syntax Prog Serializers Traverse Spec Message Layout ProgFacts Api ApiFacts IO
  Registry Examples Closure MessageFacts PropVirtual PropTypes.
Import ListNotations.
Local Open Scope N_scope.

Section Calls.
Variable E : env.
Variable wf : wf_env any E.
Variable nobv : no_bytewise_virtual E.

(** What every call that reads an object of type [t] guarantees of a serialization_error. *)
Definition explains {A} (t : ty) (r : res A) : Prop := forall d ls,
  r = Err (SerErr d ls) -> explained E t d ls /\ (chk E = false -> d = 0%nat).
Definition never {A} (r : res A) : Prop := forall d ls, r <> Err (SerErr d ls).

Lemma root_explains : forall H, honest H -> silent H -> forall f t v s,
  explains t (interp H (with_root E MUnpacking f t v) false s).
Proof.
  intros H Hh Hs f t v s d ls He.
  pose proof (s_with_root E any wf nobv MUnpacking f t v H Hh Hs s) as Hx. rewrite He in Hx.
  destruct Hx as ((_ & Hm) & Hd). split; [now apply message_explained|exact Hd].
Qed.
Lemma root_never : forall H, honest H -> silent H -> forall m f t v s, m <> MUnpacking ->
  never (interp H (with_root E m f t v) false s).
Proof.
  intros H Hh Hs m f t v s Hm d ls He.
  pose proof (s_with_root E any wf nobv m f t v H Hh Hs s) as Hx. rewrite He in Hx.
  now destruct Hx as ((Hx & _) & _).
Qed.

Lemma honest_h : honest hpacker.
Proof.
  intros b s y s' H. cbn [contig hpacker] in H.
  destruct (contig packer b (fst s)) as [[z q]|] eqn:Ec; [|discriminate]. inversion H; subst.
  eapply (proj1 (proj2 honest_all)); eauto.
Qed.
Lemma silent_h : silent hpacker.
Proof.
  intros b s d l. cbn [contig hpacker]. pose proof (proj1 (proj2 silent_all) b (fst s) d l) as H.
  destruct (contig packer b (fst s)) as [[z q]|]; [discriminate|].
  intros He. apply H. now inversion He.
Qed.

(** Programs with files: their serialization errors satisfy [P]. *)
Definition io_says {A} (P : nat -> list line -> Prop) (p : io A) : Prop :=
  forall w d ls, fst (p w) = Err (SerErr d ls) -> P d ls.
Section Io.
Variable P : nat -> list line -> Prop.
Lemma io_ret : forall A (a : A), io_says P (iret a).
Proof. intros A a w d ls H. discriminate. Qed.
Lemma io_bind : forall A B (p : io A) (f : A -> io B),
  io_says P p -> (forall a, io_says P (f a)) -> io_says P (ibind p f).
Proof.
  intros A B p f Hp Hf w d ls. unfold ibind. specialize (Hp w).
  destruct (p w) as [[a|e] w']; [apply Hf|]. cbn [fst]. intros H. apply Hp. cbn [fst]. now inversion H.
Qed.
Lemma io_throw : forall oracle s fo ef, io_says P (or_throw (syscall oracle s fo ef)).
Proof.
  intros oracle s fo ef. apply io_bind; [intros w d ls H; discriminate|].
  intros [e|] w d ls H; discriminate.
Qed.
Lemma io_setup : forall oracle, io_says P (setup_for_read oracle).
Proof.
  intros oracle w. unfold setup_for_read.
  apply (io_bind _ _ _ _ (io_throw _ _ _ _)). intros _.
  apply (io_bind _ _ _ _ (io_throw _ _ _ _)). intros _. apply io_throw.
Qed.
Lemma io_setup_write : forall oracle hf size, io_says P (setup_for_write oracle hf size).
Proof.
  intros oracle hf size. unfold setup_for_write.
  apply io_bind; [apply io_throw|intros _]. apply io_bind; [|intros _].
  2:{ apply io_bind; [apply io_throw|intros _]. apply io_bind; [apply io_throw|intros _]. apply io_throw. }
  destruct hf; [|apply io_ret]. apply io_bind; [intros w d ls H; discriminate|].
  intros [e|]; [|apply io_ret]. destruct (e =? ENOSPC); [|apply io_ret]. intros w d ls H; discriminate.
Qed.
Lemma io_destroy : forall oracle b, io_says P (destroy oracle b).
Proof. intros oracle b w d ls. unfold destroy. destruct (close_file _ _ _) as [[|] ?]; discriminate. Qed.
Lemma io_scoped : forall A oracle b (p : io A), io_says P p -> io_says P (scoped oracle b p).
Proof.
  intros A oracle b p Hp w. unfold scoped. specialize (Hp w).
  destruct (p w) as [[a|e] w']; cbn [fst] in *.
  - apply (io_bind _ _ _ _ (io_destroy _ _)). intros. apply io_ret.
  - destruct (is_exception e); [|exact Hp].
    apply (io_bind _ _ _ _ (io_destroy _ _)). intros _ w''. exact Hp.
Qed.
End Io.

(** Missing from the full claim: the labels in the line about a wrong type index, see
    [C62_labels_refuted].  Every call that reads, whatever the data, the object that is read
    into and the outcomes of the system calls. *)
Theorem C62_reading_partial : forall f t,
  (forall mem off, explains t (deserialize E f t mem off)) /\
  (forall mem off v, explains t (deserialize_in_place E f t mem off v)) /\
  (forall i, explains t (deserialize_from_stream E f t i)) /\
  (forall i v, explains t (deserialize_in_place_from_stream E f t i v)) /\
  (forall oracle page w, explains t (fst (deserialize_from_file oracle page E f t w))) /\
  (forall oracle page v w, explains t (fst (deserialize_in_place_from_file oracle page E f t v w))).
Proof.
  intros f t.
  assert (M : forall mem off v, explains t (deserialize_in_place E f t mem off v)).
  { intros mem off v d ls. unfold deserialize_in_place, unpack_memory.
    pose proof (root_explains unpacker (proj1 (proj2 (proj2 honest_all))) (proj1 (proj2 (proj2 silent_all)))
      f t v {| u_buf := mem; u_cur := off; u_used := 0 |}) as H.
    destruct (interp _ _ _ _) as [[[a vf] s]|e]; [discriminate|]. intros He. apply H. now inversion He. }
  assert (S : forall i v, explains t (deserialize_in_place_from_stream E f t i v)).
  { intros i v d ls. unfold deserialize_in_place_from_stream.
    pose proof (root_explains stream_unpacker (proj2 (proj2 (proj2 (proj2 (proj2 honest_all)))))
      (proj2 (proj2 (proj2 (proj2 (proj2 silent_all))))) f t v i) as H.
    destruct (interp _ _ _ _) as [[[a vf] s]|e]; [discriminate|]. intros He. apply H. now inversion He. }
  assert (F : forall oracle page v w, explains t (fst (deserialize_in_place_from_file oracle page E f t v w))).
  { intros oracle page v w d ls. revert w d ls.
    apply (io_bind (fun d ls => explained E t d ls /\ (chk E = false -> d = 0%nat)) _ _ _ _ (io_setup _ _)).
    intros _. apply io_scoped. intros w d ls. unfold unpack_file. pose proof (M (map_mem page (contents w)) 0%nat v) as H.
    unfold deserialize_in_place in H. destruct (unpack_memory _ _ _ _ _ _) as [[a s]|e]; [discriminate|].
    intros He. apply H. now inversion He. }
  split; [|split; [exact M|split; [|split; [exact S|split; [|exact F]]]]].
  - intros mem off. unfold deserialize. destruct (recon E t); [apply M|intros d ls H; discriminate].
  - intros i. unfold deserialize_from_stream. destruct (recon E t); [apply S|intros d ls H; discriminate].
  - intros oracle page w. unfold deserialize_from_file.
    destruct (recon E t); [apply F|intros d ls H; discriminate].
Qed.

(** Calls that write throw one only if the size they determined is not the one they wrote,
    and say both. *)
Theorem C62_writing : forall f t v,
  never (get_size E f t v) /\ (forall n, never (get_footprint E f t v n)) /\
  (forall o, never (serialize_to_stream E f t v o)) /\
  (forall oracle hf page w, never (fst (serialize_to_file oracle hf page E f t v w))) /\
  forall fn d ls, serialize E f t v fn = Err (SerErr d ls) ->
    d = 0%nat /\ exists v1 n k, get_size E f t v = Ok (v1, n) /\ n <> k /\ ls = [Sized (tix E t) n k].
Proof.
  intros f t v.
  destruct honest_all as (H1 & H2 & _ & H4 & H5 & _), silent_all as (S1 & S2 & _ & S4 & S5 & _).
  assert (G : never (get_size E f t v)).
  { intros d ls. unfold get_size. pose proof (root_never sizer H1 S1 MSizing f t v 0) as H.
    destruct (interp _ _ _ _) as [[[a vf] s]|e]; [discriminate|]. intros He. inversion He; subst.
    now apply (H ltac:(discriminate) d ls). }
  split; [exact G|]. split; [|split; [|split]].
  - intros n d ls. unfold get_footprint.
    pose proof (root_never footprinter H4 S4 MFootprinting f t v 0) as H.
    destruct (interp _ _ _ _) as [[[a vf] s]|e]; [discriminate|]. intros He. inversion He; subst.
    now apply (H ltac:(discriminate) d ls).
  - intros o d ls. unfold serialize_to_stream. destruct (get_size E f t v) as [[v1 n]|e] eqn:Eg.
    + pose proof (root_never stream_packer H5 S5 MPacking f t v1 o) as H.
      destruct (interp _ _ _ _) as [[[a vf] s]|e]; [discriminate|]. intros He. inversion He; subst.
      now apply (H ltac:(discriminate) d ls).
    + intros He. inversion He; subst. now apply (G d ls).
  - intros oracle hf page w d ls. unfold serialize_to_file.
    destruct (get_size E f t v) as [[v1 n]|e] eqn:Eg.
    + revert w d ls.
      change (io_says (fun _ _ => False)
        (ibind (setup_for_write oracle hf n) (fun _ => scoped oracle true (pack_file page E f t v1)))).
      apply io_bind; [apply io_setup_write|]. intros _.
      apply io_scoped. intros w d ls. unfold pack_file, pack_mapping.
      match goal with |- context [interp hpacker ?p false ?s] =>
        pose proof (root_never hpacker honest_h silent_h MPacking f t v1 s) as H;
        destruct (interp hpacker p false s) as [[[a vf] [s' h]]|e] end; [discriminate|].
      cbn [fst]. intros He. inversion He; subst. now apply (H ltac:(discriminate) d ls).
    + cbn [fst]. intros He. inversion He; subst. now apply (G d ls).
  - intros fn d ls. unfold serialize. destruct (get_size E f t v) as [[v1 n]|e] eqn:Eg.
    + assert (P : forall managed calls r, pack_memory E f t v1 n managed calls r = Err (SerErr d ls) ->
        d = 0%nat /\ exists v1' n' k, Ok (v1, n) = Ok (v1', n') /\ n' <> k /\ ls = [Sized (tix E t) n' k]).
      { intros managed calls r. unfold pack_memory.
        match goal with |- context [interp packer ?p false ?s] =>
          pose proof (root_never packer H2 S2 MPacking f t v1 s) as H;
          destruct (interp packer p false s) as [[[a vf] s']|e] end.
        - destruct (p_used s' =? n) eqn:Eu; [discriminate|]. intros He. inversion He; subst.
          split; [reflexivity|]. exists v1, n, (p_used s'). split; [reflexivity|]. split; [|reflexivity].
          apply N.eqb_neq in Eu. congruence.
        - intros He. inversion He; subst. exfalso. now apply (H ltac:(discriminate) d ls). }
      destruct fn as [g|]; [destruct (g n)|]; apply P.
    + intros He. inversion He; subst. exfalso. now apply (G d ls).
Qed.
End Calls.
Print Assumptions C62_reading_partial.
Print Assumptions C62_writing.

(** The full claim also says that a line about a wrong type index gives the type that was
    found in the data after "got=" and the one the reader asked for after "expected=". *)
Definition labelled (found asked : N) (l : line) : Prop :=
  match l with WrongType got expected _ => got = found /\ expected = asked | _ => True end.

(** They are the other way round. *)
Theorem C62_labels_refuted : exists E ts f t u v s l, wf_env any E /\ registered E ts /\
  In t ts /\ In u ts /\ serialize E f u v None = Ok s /\
  deserialize E f t (s_bytes s) 0 = Err (SerErr 0 [l]) /\
  ~ labelled (tix E u) (tix E t) l /\ labelled (tix E t) (tix E u) l.
Proof.
  exists (ex true), ex_types, 12%nat, DBL, CHAR, (VB [x41]). do 2 eexists.
  split; [apply ex_wf; exact I|]. split; [apply ex_registered|].
  split; [cbn; tauto|]. split; [cbn; tauto|]. split; [vm_compute; reflexivity|].
  split; [vm_compute; reflexivity|]. split; [|split; vm_compute; reflexivity].
  intros (H & _). vm_compute in H. discriminate.
Qed.
Print Assumptions C62_labels_refuted.

(** ... and always are. *)
Theorem C62_labels : forall E t d ls, explained E t d ls ->
  match ls with
  | WrongType got expected type :: _ => exists u, got = tix E u /\ type = tix E u /\ expected <> tix E u
  | MemUsed type _ _ :: _ => exists u, type = tix E u
  | _ => False
  end.
Proof.
  intros E t d ls (u & us & l & -> & _ & _ & Hl). destruct Hl as [i Hi|n k Hk]; eauto.
Qed.
Print Assumptions C62_labels.

(** A double where a character belongs, five objects deep (PropTypes.v), and the size of the
    characters damaged: the messages name the string, the vector of strings, the Node that has
    it, the pointer to it and the outer Node. *)
Example C62_case : let E := ex true in
  let around := [Frame 1 (tix E TString); Frame 2 (tix E (TVector TString)); Frame 3 (tix E (TClass 0));
                 Frame 4 (tix E (TUnique (TClass 0))); Frame 5 (tix E (TClass 0))] in
  deserialize E 20 (TClass 0) (ex_prefix E ++ enc E DBL (VB (zeros 8))) 0
    = Err (SerErr 5 (WrongType (tix E CHAR) (tix E DBL) (tix E CHAR) :: around)) /\
  deserialize E 20 (TClass 0) (ex_prefix E ++ le 4 (tix E CHAR) ++ [x61; x62; x63] ++ le 8 4) 0
    = Err (SerErr 5 (MemUsed (tix E CHAR) 4 3 :: around)) /\
  nested E CHAR [TString; TVector TString; TClass 0; TUnique (TClass 0); TClass 0] (TClass 0).
Proof.
  cbv zeta. split; [vm_compute; reflexivity|]. split; [vm_compute; reflexivity|].
  apply NeIn; [apply DPart; cbn; tauto|]. apply NeIn; [apply DPart; cbn; tauto|].
  apply NeIn; [eapply DMember; [reflexivity|cbn; tauto]|]. apply NeIn; [apply DPart; cbn; tauto|].
  apply NeIn; [eapply DMember; [reflexivity|cbn; tauto]|]. apply NeRoot.
Qed.

(** Without error checking inside the object, only the index and the size of the object
    itself are looked at. *)
Example C62_case_off : let E := ex false in
  deserialize E 20 (TVector INT) (repeat xff 64) 0
    = Err (SerErr 0 [WrongType (tix E (TVector INT)) 4294967295 (tix E (TVector INT))]).
Proof. vm_compute. reflexivity. Qed.

(** A sizing traversal that visits other members than the packing one (C15). *)
Example C62_case_writing : exists n k, n <> k /\
  serialize (ex true) 10 (TClass 12) (VObj 12 [odd_members]) None
    = Err (SerErr 0 [Sized (tix (ex true) (TClass 12)) n k]).
Proof. do 2 eexists. split; [|vm_compute; reflexivity]. discriminate. Qed.
