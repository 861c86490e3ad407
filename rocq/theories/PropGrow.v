(** C60: data exchanged between programs that have different classes. *)
From Coq Require Import List NArith Arith Bool Lia.
From Coq.Strings Require Import Byte.
From Verif Require Import Base Syntax Prog Serializers Traverse Api Registry RegistryFacts IO Spec
  ValFacts EnvFacts ApiFacts Grow Examples PropMemory.
Import ListNotations.
Local Open Scope N_scope.

(** [r]: what the smaller program does, [r']: what the other one does.  [Stuck]: the smaller
    program has no such call. *)
Definition same_unless_refused {A} (r r' : res A) : Prop :=
  r = Err RangeErr \/ r = Err Stuck \/ r' = r.

(** ** Registering more types and classes later changes no index *)

Lemma nodup_front : forall (l l' : list ty), NoDup (l ++ l') -> NoDup l.
Proof.
  induction l as [|x l IH]; intros l' H; [constructor|]. inversion H; subst. constructor; [|eauto].
  intros Hx. apply H2. apply in_app_iff. now left.
Qed.

Theorem C60_type_ids : forall l l' t, NoDup (l ++ l') -> In t l ->
  get_type_idx (treg_of (l ++ l')) t = get_type_idx (treg_of l) t.
Proof.
  intros l l' t Hn Hin. destruct (In_nth_error _ _ Hin) as (i & Hi).
  assert (Hl : NoDup l) by exact (nodup_front _ _ Hn).
  rewrite (treg_idx l i t Hl Hi). apply treg_idx; auto.
  rewrite nth_error_app1; auto. apply nth_error_Some. congruence.
Qed.
Print Assumptions C60_type_ids.

Theorem C60_class_ids : forall base l l' r,
  exists new, map oe_class (or_reg (oregs_of base (l ++ l')) r)
    = map oe_class (or_reg (oregs_of base l) r) ++ new.
Proof.
  intros base l l' r. rewrite !or_reg_classes, filter_app. eexists. reflexivity.
Qed.
Print Assumptions C60_class_ids.

Section Calls.
Variable U : ty -> Prop.
Variables E E' : env.
Hypothesis G : grows U E E'.

(** ** Every call on a type of the smaller program, on every input *)

Theorem C60_size : forall f t v, U t -> same_unless_refused (get_size E f t v) (get_size E' f t v).
Proof.
  intros f t v H. unfold get_size.
  destruct (within_interp sizer _ _ _ (w_root U E E' G MSizing f t v H) false 0) as [->|[->| ->]];
    [now left|right; now left|right; now right].
Qed.

Theorem C60_footprint : forall f t v off, U t ->
  same_unless_refused (get_footprint E f t v off) (get_footprint E' f t v off).
Proof.
  intros f t v off H. unfold get_footprint. rewrite (sizeof_up U E E' G t H).
  destruct (within_interp footprinter _ _ _ (w_root U E E' G MFootprinting f t v H) false 0)
    as [->|[->| ->]]; [now left|right; now left|right; now right].
Qed.

Lemma pack_within : forall f t v n mg calls r, U t ->
  same_unless_refused (pack_memory E f t v n mg calls r) (pack_memory E' f t v n mg calls r).
Proof.
  intros f t v n mg calls r H. unfold pack_memory. rewrite (g_tix _ _ _ G t H).
  destruct (within_interp packer _ _ _ (w_root U E E' G MPacking f t v H) false
    {| p_buf := r_before r ++ r_buf r ++ r_after r; p_cur := length (r_before r); p_used := 0 |})
    as [->|[->| ->]]; [now left|right; now left|right; now right].
Qed.

Theorem C60_serialize : forall f t v fn, U t ->
  same_unless_refused (serialize E f t v fn) (serialize E' f t v fn).
Proof.
  intros f t v fn H. unfold serialize.
  destruct (C60_size f t v H) as [->|[->| ->]]; [now left|right; now left|].
  destruct (get_size E f t v) as [[v1 n]|e]; [|right; now right].
  destruct fn as [g|]; [destruct (g n)|]; now apply pack_within.
Qed.

Theorem C60_in_place : forall f t mem off target, U t ->
  same_unless_refused (deserialize_in_place E f t mem off target)
    (deserialize_in_place E' f t mem off target).
Proof.
  intros f t mem off target H. unfold deserialize_in_place, unpack_memory.
  destruct (within_interp unpacker _ _ _ (w_root U E E' G MUnpacking f t target H) false
    {| u_buf := mem; u_cur := off; u_used := 0 |}) as [->|[->| ->]];
    [now left|right; now left|right; now right].
Qed.

Theorem C60_deserialize : forall f t mem off, U t ->
  same_unless_refused (deserialize E f t mem off) (deserialize E' f t mem off).
Proof.
  intros f t mem off H. unfold deserialize. rewrite (recon_up U E E' G t H).
  destruct (recon E t) as [o|]; [now apply C60_in_place|right; now left].
Qed.

Theorem C60_to_stream : forall f t v o, U t ->
  same_unless_refused (serialize_to_stream E f t v o) (serialize_to_stream E' f t v o).
Proof.
  intros f t v o H. unfold serialize_to_stream.
  destruct (C60_size f t v H) as [->|[->| ->]]; [now left|right; now left|].
  destruct (get_size E f t v) as [[v1 n]|e]; [|right; now right].
  destruct (within_interp stream_packer _ _ _ (w_root U E E' G MPacking f t v1 H) false o)
    as [->|[->| ->]]; [now left|right; now left|right; now right].
Qed.

Theorem C60_in_place_from_stream : forall f t i target, U t ->
  same_unless_refused (deserialize_in_place_from_stream E f t i target)
    (deserialize_in_place_from_stream E' f t i target).
Proof.
  intros f t i target H. unfold deserialize_in_place_from_stream.
  destruct (within_interp stream_unpacker _ _ _ (w_root U E E' G MUnpacking f t target H) false i)
    as [->|[->| ->]]; [now left|right; now left|right; now right].
Qed.

Theorem C60_from_stream : forall f t i, U t ->
  same_unless_refused (deserialize_from_stream E f t i) (deserialize_from_stream E' f t i).
Proof.
  intros f t i H. unfold deserialize_from_stream. rewrite (recon_up U E E' G t H).
  destruct (recon E t) as [o|]; [now apply C60_in_place_from_stream|right; now left].
Qed.

(** Result, file and descriptor.  If an operation fails while out_of_range is on its way out,
    the destructor of the buffer ends the program. *)
Definition same_file_unless_refused {A} (r r' : res A * world) : Prop :=
  fst r = Err RangeErr \/ fst r = Err Terminate \/ fst r = Err Stuck \/ r' = r.

Lemma scoped_range : forall oracle write A (p : io A) w w', p w = (Err RangeErr, w') ->
  fst (scoped oracle write p w) = Err RangeErr \/ fst (scoped oracle write p w) = Err Terminate.
Proof.
  intros oracle write A p w w' H. unfold scoped. rewrite H. cbn [is_exception]. unfold ibind, destroy.
  destruct (close_file oracle write w') as [[?|?] ?]; [now left|now right].
Qed.

Theorem C60_to_file : forall oracle hf page f t v w, U t ->
  same_file_unless_refused (serialize_to_file oracle hf page E f t v w)
    (serialize_to_file oracle hf page E' f t v w).
Proof.
  intros oracle hf page f t v w H. unfold same_file_unless_refused, serialize_to_file.
  destruct (C60_size f t v H) as [->|[->| ->]]; [now left|right; right; now left|].
  destruct (get_size E f t v) as [[v1 n]|e]; [|right; right; now right].
  unfold ibind. destruct (setup_for_write oracle hf n w) as [[?|?] w1]; [|right; right; now right].
  destruct (within_interp hpacker _ _ _ (w_root U E E' G MPacking f t v1 H) false
    ({| p_buf := map_mem page (contents w1); p_cur := 0; p_used := 0 |}, [])) as [Hx|[Hx|Hx]].
  - destruct (scoped_range oracle true val (pack_file page E f t v1) w1 w1) as [Hy|Hy];
      [unfold pack_file, pack_mapping; now rewrite Hx|now left|right; now left].
  - right. right. left. unfold scoped, pack_file, pack_mapping. now rewrite Hx.
  - right. right. right. unfold scoped, pack_file, pack_mapping. now rewrite Hx.
Qed.

Theorem C60_in_place_from_file : forall oracle page f t target w, U t ->
  same_file_unless_refused (deserialize_in_place_from_file oracle page E f t target w)
    (deserialize_in_place_from_file oracle page E' f t target w).
Proof.
  intros oracle page f t target w H.
  unfold same_file_unless_refused, deserialize_in_place_from_file, ibind.
  destruct (setup_for_read oracle w) as [[?|?] w1]; [|right; right; now right].
  destruct (C60_in_place f t (map_mem page (contents w1)) 0 target H) as [Hx|[Hx|Hx]];
    unfold deserialize_in_place in Hx.
  - destruct (scoped_range oracle false val (unpack_file page E f t target) w1 w1) as [Hy|Hy];
      [unfold unpack_file; now rewrite Hx|now left|right; now left].
  - right. right. left. unfold scoped, unpack_file. now rewrite Hx.
  - right. right. right. unfold scoped, unpack_file. now rewrite Hx.
Qed.

Theorem C60_from_file : forall oracle page f t w, U t ->
  same_file_unless_refused (deserialize_from_file oracle page E f t w)
    (deserialize_from_file oracle page E' f t w).
Proof.
  intros oracle page f t w H. unfold deserialize_from_file. rewrite (recon_up U E E' G t H).
  destruct (recon E t) as [o|]; [now apply C60_in_place_from_file|right; right; now left].
Qed.

(** ** Data goes both ways *)

(** What the smaller program writes, the larger one reads, and the other way round: both
    write the same bytes, and both read them as the same copy. *)
Theorem C60_exchange_partial : forall f t v, wf_env any E -> U t ->
  has_ty E t v -> constructible E t -> (depth v < f)%nat -> len (enc_root E t v) < two64 ->
  exists s v' n,
    serialize E f t v None = Ok s /\ serialize E' f t v None = Ok s /\
    deserialize E f t (s_bytes s) 0 = Ok (v', n) /\ deserialize E' f t (s_bytes s) 0 = Ok (v', n) /\
    same v v'.
Proof.
  intros f t v wf Hu Ht Hc Hd Hl.
  destruct (C01_memory_round_trip E f t v wf Ht Hc Hd Hl) as (s & v' & n & Hs & Hr & Hsame).
  exists s, v', n. split; [exact Hs|].
  split; [destruct (C60_serialize f t v None Hu) as [Hx|[Hx|Hx]]; congruence|].
  split; [exact Hr|]. split; [|exact Hsame].
  destruct (C60_deserialize f t (s_bytes s) 0 Hu) as [Hx|[Hx|Hx]]; congruence.
Qed.
End Calls.
Print Assumptions C60_size.
Print Assumptions C60_footprint.
Print Assumptions C60_serialize.
Print Assumptions C60_deserialize.
Print Assumptions C60_in_place.
Print Assumptions C60_to_stream.
Print Assumptions C60_from_stream.
Print Assumptions C60_in_place_from_stream.
Print Assumptions C60_to_file.
Print Assumptions C60_from_file.
Print Assumptions C60_in_place_from_file.
Print Assumptions C60_exchange_partial.

(** ** Programs that differ *)

(** A program with the classes Shape, Circle, Ring, Box, Node and Pod of Examples.v; [disc],
    [flat]: also with the classes Disc and Flat.  [types]: the types in the order of their
    registration; [regs]: the polymorphic classes in the order of theirs. *)
Definition prog_cls (disc flat : bool) (c : nat) : option class :=
  match c with
  | 6 => if flat then Some cFlat else None
  | 7 => if disc then Some cDisc else None
  | 0 | 1 | 2 | 3 | 4 | 5 => ex_cls false c
  | _ => None
  end%nat.
Definition program (checking disc flat : bool) (types : list ty) (regs : list nat) : env := {|
  cls := prog_cls disc flat; szof := ex_szof;
  tix := fun t => match get_type_idx (treg_of types) t with
                  | Some i => i | None => type_index 65535 end;
  chk := checking; asserts := true;
  defc := defc (ex false); copyc := copyc (ex false); movec := movec (ex false);
  less := less (ex false); keq := keq (ex false); hplace := hplace (ex false);
  oreg := fun r => map oe_class (or_reg (oregs_of (ex_base true) regs) r)
|}.

Definition old_types : list ty :=
  [TClass 3; SIZE; TString; TVector TString; BOOL; CHAR; OINT; DBL; TClass 0;
   TUnique (TClass 0); TUnique (TClass 1); TClass 1; TClass 2; INT; TOptional OINT;
   TPair OINT TString; TAssoc (AOrd false true) (TPair OINT TString); TArray 2 OINT;
   TClass 4; TClass 5; TVector (TUnique (TClass 1)); TVector OINT; TClass 7].
Definition old_regs : list nat := [2; 1; 4; 3; 7]%nat.
Definition old_program (b : bool) : env := program b true false old_types old_regs.
(** The class Flat and other types are registered last. *)
Definition new_program (b : bool) : env :=
  program b true true (old_types ++ [TClass 6; TVector (TVector DBL); TVector DBL]) (old_regs ++ [6%nat]).

Lemma new_program_grows : forall b, grows (fun t => In t old_types) (old_program b) (new_program b).
Proof.
  intros b.
  assert (Hcls : forall c k, prog_cls true false c = Some k -> In c [0; 1; 2; 3; 4; 5; 7]%nat).
  { intros c k H. do 8 (destruct c as [|c]; [cbn; auto 10; discriminate|]). discriminate. }
  split.
  - cbn. auto 30.
  - intros t H. cbn [old_types In] in H.
    repeat (destruct H as [<-|H]; [cbn [parts CHAR BOOL]; repeat (apply Forall_nil || apply Forall_cons); cbn; auto 30|]). destruct H.
  - intros c H. cbn [old_types In] in H.
    repeat (destruct H as [H|H]; [try discriminate H; inversion H; subst; cbn; discriminate|]). destruct H.
  - intros c k H. pose proof (Hcls c k H) as Hc. cbn [In] in Hc.
    repeat (destruct Hc as [<-|Hc]; [split; [exact H|]; split; [cbn; auto 30|];
      cbn in H; inversion H; subst; split;
      [cbn; repeat (apply Forall_nil || apply Forall_cons); cbn; auto 30
      |cbn; intros p Hp; try discriminate Hp; inversion Hp; subst; discriminate]|]).
    destruct Hc.
  - intros t H. cbn [tix program old_program new_program]. rewrite C60_type_ids; auto.
    cbn [old_types app].
    repeat (constructor; [intros Hx; cbn [In] in Hx;
      repeat (destruct Hx as [Hx|Hx]; [discriminate Hx|]); destruct Hx|]). constructor.
  - reflexivity.
  - reflexivity.
  - reflexivity.
  - reflexivity.
  - reflexivity.
  - reflexivity.
  - reflexivity.
  - reflexivity.
  - reflexivity.
  - intros r. split.
    + intros d Hd. cbn [oreg old_program program] in Hd. rewrite or_reg_classes in Hd.
      apply filter_In in Hd. destruct Hd as [Hd _]. cbn [old_regs In] in Hd.
      repeat (destruct Hd as [<-|Hd]; [discriminate|]). destruct Hd.
    + cbn [oreg old_program new_program program]. rewrite !or_reg_classes, filter_app.
      eexists. split; [reflexivity|]. intros d Hd. apply filter_In in Hd. destruct Hd as [[<-|[]] _].
      reflexivity.
Qed.

Definition v_disc_old : val := VObj 7 [[w4 5; s_ab]; [w8 4611686018427387904]].
Definition v_flat : val := VObj 6 [[w4 5; s_ab]; [w4 9]].
Definition v_zoo : val := VVec 4 [VOpt (Some v_ring); VOpt (Some v_disc_old); VOpt (Some v_box)].

(** The same bytes from both programs, in both build modes; each reads them as the same
    objects; an object of the class the old program does not have is refused by it. *)
Example C60_case : forall b, let t := TVector (TUnique (TClass 1)) in
  has_ty (old_program b) t v_zoo /\
  (exists s v' n,
     serialize (old_program b) 12 t v_zoo None = Ok s /\
     serialize (new_program b) 12 t v_zoo None = Ok s /\
     deserialize (old_program b) 12 t (s_bytes s) 0 = Ok (v', n) /\
     deserialize (new_program b) 12 t (s_bytes s) 0 = Ok (v', n)) /\
  (exists s, serialize (new_program b) 12 (TUnique (TClass 1)) (VOpt (Some v_flat)) None = Ok s /\
     deserialize (old_program b) 12 (TUnique (TClass 1)) (s_bytes s) 0 = Err RangeErr).
Proof.
  intros b. split; [destruct b; ht|]. split.
  - destruct b; (eexists; eexists; eexists; split; [vm_compute; reflexivity|];
      split; [vm_compute; reflexivity|]; split; [vm_compute; reflexivity|vm_compute; reflexivity]).
  - destruct b; (eexists; split; [vm_compute; reflexivity|vm_compute; reflexivity]).
Qed.

(** The old program, linked in another order: the classes Box and Disc are registered in the
    opposite order. *)
Definition relinked (b : bool) : env := program b true false old_types [2; 1; 7; 3; 4]%nat.

(** Everything but the order of registration is the same, the types even have the same
    identifiers, but the program restores a Disc as a Box and reports nothing. *)
Theorem C60_class_order_refuted : exists E E' regs regs' f t v s v' n,
  (forall c, cls E' c = cls E c) /\ (forall u, tix E' u = tix E u) /\
  (forall r, oreg E r = map oe_class (or_reg (oregs_of (ex_base true) regs) r)) /\
  (forall r, oreg E' r = map oe_class (or_reg (oregs_of (ex_base true) regs') r)) /\
  (forall c, In c regs <-> In c regs') /\
  has_ty E t v /\ serialize E f t v None = Ok s /\
  deserialize E' f t (s_bytes s) 0 = Ok (v', n) /\ ~ same v v'.
Proof.
  exists (old_program false), (relinked false), old_regs, [2; 1; 7; 3; 4]%nat, 12%nat,
    (TUnique (TClass 1)), (VOpt (Some v_disc_old)).
  eexists. eexists. eexists. split; [reflexivity|]. split; [reflexivity|].
  split; [reflexivity|]. split; [reflexivity|]. split; [cbn; intuition|]. split; [ht|].
  split; [vm_compute; reflexivity|]. split; [vm_compute; reflexivity|].
  intros H. inversion H; subst. match goal with K : sim _ _ (VObj _ _) |- _ => inversion K end.
Qed.
Print Assumptions C60_class_order_refuted.

(** With error checking the same mistake is reported. *)
Example C60_checked_case : exists s,
  serialize (old_program true) 12 (TUnique (TClass 1)) (VOpt (Some v_disc_old)) None = Ok s /\
  reported 2 (deserialize (relinked true) 12 (TUnique (TClass 1)) (s_bytes s) 0).
Proof. eexists. split; [vm_compute; reflexivity|vm_compute; reflexivity]. Qed.

(** If two types swap places in the order of registration, an object of one type is read as
    the other, with and without error checking. *)
Theorem C60_type_order_refuted : forall b, exists E E' types types' f t t' v s x,
  (forall c, cls E' c = cls E c) /\ (forall r, oreg E' r = oreg E r) /\ chk E = b /\ chk E' = b /\
  (forall u, In u types -> get_type_idx (treg_of types) u = Some (tix E u)) /\
  (forall u, In u types' -> get_type_idx (treg_of types') u = Some (tix E' u)) /\
  (forall u, In u types <-> In u types') /\ In t types /\ In t' types /\ t <> t' /\
  has_ty E t v /\ serialize E f t v None = Ok s /\ deserialize E' f t' (s_bytes s) 0 = Ok x.
Proof.
  intros b. set (l := [SIZE; OINT; TPrim 7 4; TString]). set (l' := [SIZE; TPrim 7 4; OINT; TString]).
  exists (program b true false l old_regs), (program b true false l' old_regs), l, l', 3%nat,
    OINT, (TPrim 7 4), (w4 9).
  eexists. eexists. split; [reflexivity|]. split; [reflexivity|]. split; [reflexivity|].
  split; [reflexivity|].
  split; [intros u Hu; cbn in Hu; repeat (destruct Hu as [<-|Hu]; [vm_compute; reflexivity|]); destruct Hu|].
  split; [intros u Hu; cbn in Hu; repeat (destruct Hu as [<-|Hu]; [vm_compute; reflexivity|]); destruct Hu|].
  split; [cbn; intuition|]. split; [cbn; auto|]. split; [cbn; auto|]. split; [discriminate|].
  split; [ht|]. destruct b; (split; [vm_compute; reflexivity|vm_compute; reflexivity]).
Qed.
Print Assumptions C60_type_order_refuted.
