(** Facts on two threads: every schedule gives the results of the runs alone, and where
    they race. *)
From Coq Require Import List NArith Arith Bool Lia.
From Verif Require Import Base Syntax Prog Serializers Traverse ProgFacts Registry RegistryFacts Conc.
Import ListNotations.

(** Classes dispatched dynamically. *)
Definition dispatched (l : list event) (c : nat) : Prop := In (EvRegistry c) l.

Section Facts.
Variable base : nat -> nat.
Variable ss : list nat.
Variable dbg : bool.

(** Class [c] and its root are registered for serializer [me], one of the serializers that
    are linked. *)
Definition registered (idx : nat -> nat -> option nat) (me c : nat) : Prop :=
  idx c me <> None /\ idx (base c) me <> None /\ In me ss.

(** What any step does to what is shared. *)
Definition evolves (r r' : shared) : Prop :=
  sinv base r' /\ sr_idx r' = sr_idx r /\
  (forall c s, linked base r c s -> linked base r' c s) /\
  (forall t, first r' t = true -> first r t = true).

Lemma evolves_refl : forall r : shared, sinv base r -> evolves r r.
Proof. intros r H. split; [exact H|]. auto. Qed.
Lemma evolves_link : forall (r : shared) s d, sinv base r -> evolves r (set_regs r (link r s d (base d))).
Proof.
  intros r s d H. split; [now apply sinv_link|]. split; [apply link_idx|].
  split; [intros; now apply linked_link|auto].
Qed.
Lemma evolves_counted : forall (r : shared) t, sinv base r -> evolves r (set_counted r t).
Proof.
  intros r t H. split; [exact H|]. split; [reflexivity|]. split; [auto|].
  intros u. cbn [first set_counted]. destruct (ty_eqb u t); [discriminate|auto].
Qed.

Lemma step_cases : forall H A me (t : thread H A) r t' r',
  step base ss dbg H A me t r = (t', r') ->
  r' = r \/ (exists x d, r' = set_regs r (link r x d (base d))) \/
  (exists u, touches base H A me t r = Some (First u, true) /\ r' = set_counted r u).
Proof.
  intros H A me t r t' r' Hs.
  destruct t as [p vf s|c todo p vf s|c k p vf s|u p vf s|u seen p vf s|n e|x]; cbn [step] in Hs.
  - left. destruct p; try (inversion Hs; reflexivity).
    + destruct (contig H b s) as [[]|]; inversion Hs; reflexivity.
    + destruct e; inversion Hs; reflexivity.
  - destruct todo; inversion Hs; subst; eauto.
  - left. destruct (sr_idx r (base c) me); [|inversion Hs; reflexivity].
    destruct (Nat.eqb c (base c)); [destruct (get_obj_idx dbg r c n); inversion Hs; reflexivity|].
    destruct (nth_error (sr_reg r c) k) as [e|]; [|inversion Hs; reflexivity].
    destruct (se_base e) as [i|]; [|inversion Hs; reflexivity].
    destruct (Nat.eqb i n); inversion Hs; reflexivity.
  - left. now inversion Hs.
  - destruct seen; inversion Hs; subst; [right; right|now left]. exists u. auto.
  - left. destruct n; now inversion Hs.
  - left. now inversion Hs.
Qed.
Lemma step_evolves : forall H A me (t : thread H A) (r : shared) t' r', sinv base r ->
  step base ss dbg H A me t r = (t', r') -> evolves r r'.
Proof.
  intros H A me t r t' r' Hi Hs. apply step_cases in Hs.
  destruct Hs as [->|[(x & d & ->)|(u & _ & ->)]];
    [now apply evolves_refl|now apply evolves_link|now apply evolves_counted].
Qed.

Lemma astep_evolves : forall B (a : active B) (r : shared) a' r', sinv base r ->
  astep base ss dbg a r = (a', r') -> evolves r r'.
Proof.
  intros B a r a' r' Hi Hs. destruct a as [b|H A me t k]; cbn [astep] in Hs.
  - inversion Hs; subst. now apply evolves_refl.
  - destruct t as [p vf s|c todo p vf s|c n p vf s|u p vf s|u seen p vf s|n e|x].
    7: { inversion Hs; subst. now apply evolves_refl. }
    all: match goal with Hs : (let '(_, _) := step _ _ _ _ _ ?me ?t ?r in _) = _ |- _ =>
           destruct (step base ss dbg H A me t r) as [t' r''] eqn:Es end;
      inversion Hs; subst; eapply step_evolves; eauto.
Qed.

(** The flag of a type is cleared only by a step that writes it. *)
Lemma astep_first : forall B (a : active B) (r : shared) a' r' u,
  astep base ss dbg a r = (a', r') -> atouches base a r <> Some (First u, true) ->
  first r' u = first r u.
Proof.
  intros B a r a' r' u Hs Hn. destruct a as [b|H A me t k]; cbn [astep atouches] in *.
  - now inversion Hs.
  - assert (G : r' = r \/ exists t', step base ss dbg H A me t r = (t', r')).
    { destruct t as [p vf s|c todo p vf s|c n p vf s|u' p vf s|u' seen p vf s|n e|x].
      7: { left. now inversion Hs. }
      all: right; match goal with Hs : (let '(_, _) := step _ _ _ _ _ ?me ?t ?r in _) = _ |- _ =>
             destruct (step base ss dbg H A me t r) as [t' r''] eqn:Es end;
        inversion Hs; subst; eauto. }
    destruct G as [->|(t' & Es)]; [reflexivity|].
    apply step_cases in Es. destruct Es as [->|[(x & d & ->)|(w & Ht & ->)]]; [reflexivity|reflexivity|].
    cbn [first set_counted]. destruct (ty_eqb u w) eqn:Eu; [|reflexivity].
    apply ty_eqb_eq in Eu. subst w. congruence.
Qed.

(** ** A task, whatever the others do *)
Variable B : Type.
Variable idx : nat -> nat -> option nat.
(** The types that have not been counted at first. *)
Variable first0 : ty -> bool.

Definition stable (P : shared -> Prop) : Prop := forall r r', evolves r r' -> P r -> P r'.
Definition ok (r : shared) : Prop :=
  sinv base r /\ sr_idx r = idx /\ forall t, first r t = true -> first0 t = true.

Lemma ok_evolves : forall r r', ok r -> evolves r r' -> ok r'.
Proof.
  intros r r' (_ & Hx & Hf) (Hi' & Hx' & _ & Hf'). split; [exact Hi'|]. split; [congruence|auto].
Qed.

(** What may be touched (and written), and that the next step touches nothing else. *)
Variable C : place -> bool -> Prop.
Definition near (a : active B) : Prop := forall r x w, atouches base a r = Some (x, w) -> C x w.

(** The task gets from one place to another in [n] steps of its own; what it finds may make
    a difference on the way. *)
Inductive leads : nat -> active B -> (shared -> Prop) -> active B -> (shared -> Prop) -> Prop :=
| Leads0 t P : leads 0 t P t P
| LeadsB n t P (t1 : bool -> active B) P1 t2 P2 : stable P -> near t ->
    (forall r, ok r -> P r -> exists b r', astep base ss dbg t r = (t1 b, r') /\ P1 r') ->
    (forall b, leads n (t1 b) P1 t2 P2) -> leads (S n) t P t2 P2.

Lemma LeadsS : forall n t P t1 P1 t2 P2, stable P -> near t ->
  (forall r, ok r -> P r -> exists r', astep base ss dbg t r = (t1, r') /\ P1 r') ->
  leads n t1 P1 t2 P2 -> leads (S n) t P t2 P2.
Proof.
  intros n t P t1 P1 t2 P2 Hst Hn Hs Hl. apply (LeadsB n t P (fun _ => t1) P1); auto.
  intros r Hr HP. destruct (Hs r Hr HP) as (r' & H1 & H2). exists true, r'. auto.
Qed.

Definition T (r : shared) : Prop := True.
Lemma T_stable : stable T.
Proof. intros r r' _ _. exact I. Qed.

Lemma leads_trans : forall n m t1 P1 t2 P2 t3 P3, leads n t1 P1 t2 P2 -> leads m t2 P2 t3 P3 ->
  leads (n + m) t1 P1 t3 P3.
Proof.
  intros n m t1 P1 t2 P2 t3 P3 Hl. induction Hl; intros Hl2; cbn [Nat.add]; auto.
  eapply LeadsB; eauto.
Qed.

Section Thread.
Variable H : serializer.
Variable A : Type.
Variable me : nat.
Variable k : res (A * bool * state H) -> task B.
Local Notation At t := (Active H A me t k).

Lemma near_linking : forall c todo p vf s, (forall i w, C (Entry c i) w) -> near (At (Linking c todo p vf s)).
Proof.
  intros c todo p vf s Hc r x w Ht. cbn [atouches touches] in Ht. destruct todo; [discriminate|].
  destruct (sr_idx r c n); [|discriminate]. destruct (sr_idx r (base c) n); inversion Ht; subst; apply Hc.
Qed.
Lemma near_looking : forall c i p vf s, (forall i w, C (Entry c i) w) -> near (At (Looking c i p vf s)).
Proof.
  intros c i p vf s Hc r x w Ht. cbn [atouches touches] in Ht. destruct (Nat.eqb c (base c)).
  - destruct (sr_idx r (base c) me); inversion Ht; subst; apply Hc.
  - destruct (Nat.ltb i (length (sr_reg r c))); inversion Ht; subst; apply Hc.
Qed.
Lemma near_run : forall p vf s, near (At (Run p vf s)).
Proof. intros p vf s r x w Ht. discriminate. Qed.
Lemma near_done : forall x, near (At (Done x)).
Proof. intros x r y w Ht. discriminate. Qed.

Lemma leads_linking : forall c p vf s rest pre P, (forall i w, C (Entry c i) w) -> stable P ->
  (forall r x, ok r -> P r -> P (set_regs r (link r x c (base c)))) ->
  leads (length pre) (At (Linking c (pre ++ rest) p vf s)) P (At (Linking c rest p vf s)) P.
Proof.
  intros c p vf s rest pre P HC Hst HP. induction pre as [|x pre IH]; cbn [app length]; [constructor|].
  eapply LeadsS; [exact Hst|now apply near_linking| |exact IH]. intros r Hr HPr. cbn [astep step]. eauto.
Qed.

Definition linked_me (c : nat) (r : shared) : Prop := linked base r c me.
Lemma linked_stable : forall c, stable (linked_me c).
Proof. intros c r r' (_ & _ & Hl & _) Hp. now apply Hl. Qed.

Lemma leads_looking : forall c p vf s i, (forall i w, C (Entry c i) w) -> registered idx me c -> idx c me = Some i ->
  forall n i0, (i0 + n = i)%nat ->
  exists m, leads m (At (Looking c i0 p vf s)) (linked_me c) (At (Run p vf (note H (EvRegistry c) s))) T.
Proof.
  intros c p vf s i HC (Hc & Hb & _) Hi. destruct (idx (base c) me) as [j|] eqn:Ej; [clear Hb|congruence].
  destruct (Nat.eq_dec c (base c)) as [Hroot|Hroot].
  - intros n i0 _. exists 1%nat. eapply LeadsS with (P1 := T); [apply linked_stable|now apply near_looking| |constructor].
    intros r (Hs & Hx & _) _. exists r. split; [|exact I]. cbn [astep step]. rewrite Hx, Ej.
    rewrite <- Hroot, Nat.eqb_refl. rewrite <- Hroot in Ej.
    rewrite (get_obj_ok dbg base r c me j Hs) by now rewrite Hx.
    unfold found. cbn [snd]. now rewrite Nat.eqb_refl.
  - assert (Hat : forall r, ok r -> linked_me c r -> exists e, nth_error (sr_reg r c) i = Some e /\
              se_base e = Some j /\ se_fun e = (c, me)).
    { intros r (Hs & Hx & _) Hl. destruct (si_idx _ _ Hs c me i) as (e & He & Hf); [now rewrite Hx|].
      exists e. split; auto. split; auto. rewrite (Hl i e) by (rewrite ?Hx; auto). now rewrite Hx. }
    induction n as [|n IH]; intros i0 Hk.
    + exists 1%nat. eapply LeadsS with (P1 := T); [apply linked_stable|now apply near_looking| |constructor].
      intros r Hr Hl. exists r. split; [|exact I]. destruct (Hat r Hr Hl) as (e & He & Heb & Hef).
      destruct Hr as (Hs & Hx & _). cbn [astep step]. rewrite Hx, Ej.
      destruct (Nat.eqb_spec c (base c)) as [|_]; [contradiction|].
      rewrite Nat.add_0_r in Hk. subst i0. rewrite He, Heb, Nat.eqb_refl. unfold found. rewrite Hef.
      cbn [snd]. now rewrite Nat.eqb_refl.
    + destruct (IH (S i0)) as (m & Hm); [lia|]. exists (S m).
      eapply LeadsS; [apply linked_stable|now apply near_looking| |exact Hm].
      intros r Hr Hl. exists r. split; [|exact Hl]. destruct (Hat r Hr Hl) as (e & He & Heb & Hef).
      destruct Hr as (Hs & Hx & _). cbn [astep step]. rewrite Hx, Ej.
      destruct (Nat.eqb_spec c (base c)) as [|_]; [contradiction|].
      assert (Hlt : (i0 < length (sr_reg r c))%nat).
      { assert ((i < length (sr_reg r c))%nat) by (apply nth_error_Some; congruence). lia. }
      destruct (nth_error (sr_reg r c) i0) as [e'|] eqn:Ek; [|apply nth_error_None in Ek; lia].
      destruct (se_base e') as [j'|] eqn:Eb; auto.
      destruct (Nat.eqb_spec j' j) as [->|]; auto.
      exfalso. destruct (si_base _ _ Hs _ _ _ _ Ek Eb) as (s' & Hf' & Hs').
      destruct (si_fun _ _ Hs _ _ _ Ek) as (s'' & Hf'' & Hs'').
      rewrite Hf' in Hf''. inversion Hf''; subst s''.
      (* the entry of the root at j belongs to one serializer *)
      destruct (si_idx _ _ Hs _ _ _ Hs') as (y & Hy & Hyf).
      destruct (si_idx _ _ Hs (base c) me j) as (z & Hz & Hzf); [now rewrite Hx|].
      rewrite Hy in Hz. inversion Hz; subst z. rewrite Hyf in Hzf. inversion Hzf; subst s'.
      rewrite Hx, Hi in Hs''. inversion Hs''. lia.
Qed.

Lemma leads_note : forall c p vf s, (forall i w, C (Entry c i) w) -> registered idx me c ->
  exists n, leads n (At (Run (Note (EvRegistry c) p) vf s)) T (At (Run p vf (note H (EvRegistry c) s))) T.
Proof.
  intros c p vf s HC Hreg. destruct (idx c me) as [i|] eqn:Hi; [|destruct Hreg; congruence].
  destruct (leads_looking c p vf s i HC Hreg Hi i 0) as (m & Hm); [lia|].
  destruct (in_split _ _ (proj2 (proj2 Hreg))) as (l1 & l2 & Hss).
  exists (1 + (length l1 + (1 + (length l2 + (1 + m)))))%nat.
  eapply LeadsS; [apply T_stable|apply near_run|intros r _ _; exists r; split; [cbn [astep step]; rewrite Hss; reflexivity|exact I]|].
  eapply leads_trans; [apply leads_linking; [exact HC|apply T_stable|intros; exact I]|].
  eapply LeadsS with (P1 := linked_me c); [apply T_stable|now apply near_linking| |].
  { intros r (Hs & Hx & _) _. eexists. split; [cbn [astep step]; reflexivity|].
    apply link_linked; auto. rewrite Hx. apply Hreg. }
  rewrite <- (app_nil_r l2) at 2.
  eapply leads_trans; [apply leads_linking|].
  { exact HC. }
  { apply linked_stable. }
  { intros r x (Hs & Hx & _) Hl. now apply linked_link. }
  eapply LeadsS; [apply linked_stable|now apply near_linking| |exact Hm].
  intros r _ Hl. exists r. cbn [astep step]. auto.
Qed.

Definition admits_first (t : ty) : Prop := C (First t) false /\ (first0 t = true -> C (First t) true).

Lemma leads_counted : forall t p vf s, admits_first t ->
  leads 3 (At (Run (Note (EvFirst t) p) vf s)) T (At (Run p vf (note H (EvFirst t) s))) T.
Proof.
  intros t p vf s (H1 & H2).
  eapply LeadsS with (t1 := At (Checking t p vf s)) (P1 := T);
    [apply T_stable|apply near_run|intros r _ _; exists r; split; [reflexivity|exact I]|].
  assert (Hn : near (At (Checking t p vf s))).
  { intros r x w Ht. cbn in Ht. now inversion Ht; subst. }
  assert (Hf : leads 1 (At (Clearing t false p vf s)) T (At (Run p vf (note H (EvFirst t) s))) T).
  { eapply LeadsS; [apply T_stable| |intros r _ _; exists r; split; [reflexivity|exact I]|constructor].
    intros r x w Ht. discriminate. }
  destruct (first0 t) eqn:E0.
  - apply (LeadsB 1 _ T (fun b => At (Clearing t b p vf s)) T); [apply T_stable|exact Hn| |].
    + intros r _ _. exists (first r t), r. split; [reflexivity|exact I].
    + intros [|]; [|exact Hf].
      eapply LeadsS with (P1 := T); [apply T_stable| |intros r _ _; eexists; split; [reflexivity|exact I]|constructor].
      intros r x w Ht. cbn in Ht. inversion Ht; subst. now apply H2.
  - eapply LeadsS; [apply T_stable|exact Hn| |exact Hf]. intros r Hr _. exists r. split; [|exact I].
    cbn [astep step]. destruct (first r t) eqn:Er; [|reflexivity].
    destruct Hr as (_ & _ & Hr). apply Hr in Er. congruence.
Qed.

(** An event that does not lead to something that must not be touched. *)
Definition admits (e : event) : Prop :=
  match e with
  | EvRegistry c => (forall i w, C (Entry c i) w) /\ registered idx me c
  | EvFirst t => admits_first t
  | _ => True
  end.
Definition admits_result (x : res (A * bool * state H)) : Prop :=
  match x with Err (SerErr _ _) => C TypeNames true | _ => True end.

Lemma leads_event : forall e p vf s, admits e ->
  exists n, leads n (At (Run (Note e p) vf s)) T (At (Run p vf (note H e s))) T.
Proof.
  intros e p vf s Ha. destruct e as [c|c|c|t v|t|t|t v]; cbn [admits] in Ha.
  3: { destruct Ha as (HC & Hr). now apply leads_note. }
  5: { exists 3%nat. now apply leads_counted. }
  all: exists 1%nat; eapply LeadsS; [apply T_stable|apply near_run| |constructor];
    intros r _ _; exists r; split; [reflexivity|exact I].
Qed.

Lemma leads_throw : forall e, admits_result (Err e) ->
  exists n, leads n (At (throw e)) T (At (Done (Err e))) T.
Proof.
  intros e Ha. destruct e; cbn [throw]; try (exists 0%nat; constructor).
  cbn [admits_result] in Ha. generalize (SerErr depth msg). intros e. exists (S (S depth)).
  generalize (S depth). intros n. induction n as [|n IH].
  - eapply LeadsS; [apply T_stable| |intros r _ _; exists r; split; [reflexivity|exact I]|constructor].
    intros r x w Ht. discriminate.
  - eapply LeadsS; [apply T_stable| |intros r _ _; exists r; split; [reflexivity|exact I]|exact IH].
    intros r x w Ht. cbn in Ht. now inversion Ht; subst.
Qed.

Ltac on H := eapply LeadsS; [apply T_stable|apply near_run| |exact H];
  let r := fresh in intros r _ _; exists r; split; [reflexivity|exact I].

(** The thread ends with the result of the run alone. *)
Lemma leads_done : forall (p : prog A) vf s,
  (forall e, In e (trace H A p vf s) -> admits e) -> admits_result (interp H p vf s) ->
  exists n, leads n (At (Run p vf s)) T (At (Done (interp H p vf s))) T.
Proof.
  induction p; intros vf s Hreg Hres; cbn [interp trace] in *.
  - exists 1%nat. eapply LeadsS; [apply T_stable|apply near_run| |constructor]. intros r _ _. exists r. split; [reflexivity|exact I].
  - destruct (contig H b s) as [[b' s']|e] eqn:Ec.
    + destruct (H0 b' vf s' Hreg Hres) as (n & Hn). exists (S n).
      eapply LeadsS; [apply T_stable|apply near_run| |exact Hn]. intros r _ _. exists r. cbn [astep step]. rewrite Ec. split; [auto|exact I].
    + destruct (leads_throw e Hres) as (n & Hn). exists (S n).
      eapply LeadsS; [apply T_stable|apply near_run| |exact Hn]. intros r _ _. exists r. cbn [astep step].
      rewrite Ec. split; [auto|exact I].
  - destruct (IHp vf (count H n s) Hreg Hres) as (m & Hm). exists (S m). on Hm.
  - destruct (H0 vf vf s Hreg Hres) as (m & Hm). exists (S m). on Hm.
  - destruct (IHp f s Hreg Hres) as (m & Hm). exists (S m). on Hm.
  - destruct (IHp vf (note H e s)) as (m & Hm); [intros e' He'; apply Hreg; now right|exact Hres|].
    destruct (leads_event e p vf s) as (n & Hn); [apply Hreg; now left|].
    exists (n + m)%nat. eapply leads_trans; eauto.
  - destruct (leads_throw e Hres) as (n & Hn). exists (S n). on Hn.
Qed.

(** An event of the run alone is reached. *)
Lemma leads_reach : forall e0, (forall e, e = e0 \/ e <> e0) -> forall (p : prog A) vf s,
  (forall e, In e (trace H A p vf s) -> e <> e0 -> admits e) -> In e0 (trace H A p vf s) ->
  exists n p' vf' s', leads n (At (Run p vf s)) T (At (Run (Note e0 p') vf' s')) T.
Proof.
  intros e0 Hdec. induction p; intros vf s Hreg Hin; cbn [trace] in *; try contradiction.
  - destruct (contig H b s) as [[b' s']|e] eqn:Ec; [|contradiction].
    destruct (H0 b' vf s' Hreg Hin) as (n & p' & vf' & st & Hn). exists (S n), p', vf', st.
    eapply LeadsS; [apply T_stable|apply near_run| |exact Hn]. intros r _ _. exists r. cbn [astep step]. rewrite Ec. split; [auto|exact I].
  - destruct (IHp vf (count H n s) Hreg Hin) as (m & p' & vf' & st & Hm). exists (S m), p', vf', st. on Hm.
  - destruct (H0 vf vf s Hreg Hin) as (m & p' & vf' & st & Hm). exists (S m), p', vf', st. on Hm.
  - destruct (IHp f s Hreg Hin) as (m & p' & vf' & st & Hm). exists (S m), p', vf', st. on Hm.
  - destruct (Hdec e) as [->|Hne].
    + exists 0%nat, p, vf, s. constructor.
    + destruct Hin as [->|Hin]; [congruence|].
      destruct (IHp vf (note H e s)) as (m & p' & vf' & st & Hm); auto.
      { intros e' He'. apply Hreg. now right. }
      destruct (leads_event e p vf s) as (n & Hn); [apply Hreg; [now left|exact Hne]|].
      exists (n + m)%nat, p', vf', st. eapply leads_trans; eauto.
Qed.

(** A class that the run alone dispatches is reached. *)
Lemma leads_class : forall (p : prog A) vf s c,
  (forall e, In e (trace H A p vf s) -> admits e) -> dispatched (trace H A p vf s) c ->
  exists n p' vf' s', leads n (At (Run p vf s)) T (At (Linking c ss p' vf' s')) T.
Proof.
  intros p vf s c Hreg Hin.
  destruct (leads_reach (EvRegistry c)) with (p := p) (vf := vf) (s := s) as (n & p' & vf' & s' & Hn); auto.
  { intros e. destruct e; try (right; discriminate). destruct (Nat.eq_dec c0 c) as [->|]; [now left|right; congruence]. }
  exists (n + 1)%nat, p', vf', s'. eapply leads_trans; [exact Hn|].
  eapply LeadsS; [apply T_stable|apply near_run| |constructor]. intros r _ _. exists r. split; [reflexivity|exact I].
Qed.

(** So is the message of an exception. *)
Lemma leads_naming : forall (p : prog A) vf s d l,
  (forall e, In e (trace H A p vf s) -> admits e) -> interp H p vf s = Err (SerErr d l) ->
  exists n, leads n (At (Run p vf s)) T (At (Naming (S d) (SerErr d l))) T.
Proof.
  induction p; intros vf s d l Hreg Hin; cbn [trace interp] in *; try discriminate.
  - destruct (contig H b s) as [[b' s']|e] eqn:Ec.
    + destruct (H0 b' vf s' d l Hreg Hin) as (n & Hn). exists (S n).
      eapply LeadsS; [apply T_stable|apply near_run| |exact Hn]. intros r _ _. exists r. cbn [astep step]. rewrite Ec. split; [auto|exact I].
    + inversion Hin; subst. exists 1%nat.
      eapply LeadsS; [apply T_stable|apply near_run| |constructor]. intros r _ _. exists r. cbn [astep step]. rewrite Ec. split; [reflexivity|exact I].
  - destruct (IHp vf (count H n s) d l Hreg Hin) as (m & Hm). exists (S m). on Hm.
  - destruct (H0 vf vf s d l Hreg Hin) as (m & Hm). exists (S m). on Hm.
  - destruct (IHp f s d l Hreg Hin) as (m & Hm). exists (S m). on Hm.
  - destruct (IHp vf (note H e s) d l) as (m & Hm); auto.
    { intros e' He'. apply Hreg. now right. }
    destruct (leads_event e p vf s) as (n & Hn); [apply Hreg; now left|].
    exists (n + m)%nat. eapply leads_trans; eauto.
  - inversion Hin; subst. exists 1%nat. eapply LeadsS; [apply T_stable|apply near_run| |constructor].
    intros r _ _. exists r. split; [reflexivity|exact I].
Qed.
End Thread.

(** ** Tasks *)

(** A task that touches nothing else, not counting the event [e0]. *)
Fixpoint fine_but (e0 : option event) (x : task B) : Prop :=
  match x with
  | Final _ => True
  | Pass H A me p vf s k =>
    (forall e, In e (trace H A p vf s) -> Some e <> e0 -> admits me e) /\
    admits_result H A (interp H p vf s) /\ fine_but e0 (k (interp H p vf s))
  end.
Definition fine : task B -> Prop := fine_but None.
(** A task that throws a serialization_error. *)
Fixpoint throws (x : task B) : Prop :=
  match x with
  | Final _ => False
  | Pass H A me p vf s k =>
    (exists d l, interp H p vf s = Err (SerErr d l)) \/ throws (k (interp H p vf s))
  end.

Lemma in_dispatches : forall me l c s, In (c, s) (dispatches me l) <-> dispatched l c /\ s = me.
Proof.
  intros me l c s. unfold dispatches, dispatched. rewrite in_flat_map. split.
  - intros (e & He & Hin). destruct e; cbn in Hin; try contradiction.
    destruct Hin as [Hin|[]]. inversion Hin; subst. auto.
  - intros (He & ->). exists (EvRegistry c). split; cbn; auto.
Qed.

Ltac next H := eapply LeadsS; [apply T_stable|apply near_done| |exact H];
  let r := fresh in intros r _ _; exists r; split; [reflexivity|exact I].

(** The task ends with the result it has alone, and gets to everything it does alone. *)
Lemma leads_result : forall x, fine x -> exists n, leads n (start x) T (Ended (result x)) T.
Proof.
  induction x as [b|H A me p vf s k IH]; intros Hf; cbn [start result].
  - exists 0%nat. constructor.
  - destruct Hf as (H1 & H2 & H3).
    destruct (leads_done H A me k p vf s) as (n & Hn); [intros e He; apply H1; [exact He|discriminate]|exact H2|].
    destruct (IH (interp H p vf s) H3) as (m & Hm).
    exists (n + S m)%nat. eapply leads_trans; [exact Hn|]. next Hm.
Qed.

Lemma leads_uses : forall x c me, fine x -> In (c, me) (uses x) ->
  exists n H A k p vf s, leads n (start x) T (Active H A me (Linking c ss p vf s) k) T.
Proof.
  induction x as [b|H A me p vf s k IH]; intros c me' Hf Hc; cbn [start uses] in *; [contradiction|].
  destruct Hf as (H1 & H2 & H3).
  assert (Hr : forall e, In e (trace H A p vf s) -> admits me e) by (intros e He; apply H1; [exact He|discriminate]).
  apply in_app_or in Hc. destruct Hc as [Hc|Hc].
  - apply in_dispatches in Hc. destruct Hc as (Hc & ->).
    destruct (leads_class H A me k p vf s c Hr Hc) as (n & p' & vf' & s' & Hn).
    exists n, H, A, k, p', vf', s'. exact Hn.
  - destruct (leads_done H A me k p vf s Hr H2) as (n & Hn).
    destruct (IH (interp H p vf s) c me' H3 Hc) as (m & H' & A' & k' & p' & vf' & s' & Hm).
    exists (n + S m)%nat, H', A', k', p', vf', s'. eapply leads_trans; [exact Hn|]. next Hm.
Qed.

Lemma leads_first : forall x t, fine_but (Some (EvFirst t)) x -> In (EvFirst t) (events x) ->
  exists n H A me k p vf s, leads n (start x) T (Active H A me (Checking t p vf s) k) T.
Proof.
  intros x t. assert (Hdec : forall e, e = EvFirst t \/ e <> EvFirst t).
  { intros e. destruct e; try (right; discriminate). destruct (ty_eqb t0 t) eqn:Et.
    - apply ty_eqb_eq in Et. subst. now left.
    - right. intros He. inversion He; subst. rewrite ty_eqb_refl in Et. discriminate. }
  induction x as [b|H A me p vf s k IH]; intros Hf Hc; cbn [start events] in *; [contradiction|].
  destruct Hf as (H1 & H2 & H3).
  assert (Hin : In (EvFirst t) (trace H A p vf s) \/ ~ In (EvFirst t) (trace H A p vf s)).
  { clear - Hdec. induction (trace H A p vf s) as [|e l IHl]; [now right|].
    destruct (Hdec e) as [->|Hne]; [left; now left|].
    destruct IHl as [Hl|Hl]; [left; now right|].
    right. intros [Hx|Hx]; [congruence|contradiction]. }
  destruct Hin as [Hin|Hin].
  - destruct (leads_reach H A me k (EvFirst t) Hdec p vf s) as (n & p' & vf' & s' & Hn); auto.
    { intros e He Hne. apply H1; [exact He|congruence]. }
    exists (n + 1)%nat, H, A, me, k, p', vf', s'. eapply leads_trans; [exact Hn|].
    eapply LeadsS; [apply T_stable|apply near_run| |constructor]. intros r _ _. exists r. split; [reflexivity|exact I].
  - apply in_app_or in Hc. destruct Hc as [Hc|Hc]; [contradiction|].
    destruct (leads_done H A me k p vf s) as (n & Hn); [|exact H2|].
    { intros e He. apply H1; [exact He|]. intros Hx. inversion Hx; subst. contradiction. }
    destruct (IH (interp H p vf s) H3 Hc) as (m & H' & A' & me' & k' & p' & vf' & s' & Hm).
    exists (n + S m)%nat, H', A', me', k', p', vf', s'. eapply leads_trans; [exact Hn|]. next Hm.
Qed.

Lemma leads_throws : forall x, fine x -> throws x ->
  exists n H A me k d e, leads n (start x) T (Active H A me (Naming (S d) e) k) T.
Proof.
  induction x as [b|H A me p vf s k IH]; intros Hf Hc; cbn [start throws] in *; [contradiction|].
  destruct Hf as (H1 & H2 & H3).
  assert (Hr : forall e, In e (trace H A p vf s) -> admits me e) by (intros e He; apply H1; [exact He|discriminate]).
  destruct Hc as [(d & l & Hc)|Hc].
  - destruct (leads_naming H A me k p vf s d l Hr Hc) as (n & Hn).
    exists n, H, A, me, k, d, (SerErr d l). exact Hn.
  - destruct (leads_done H A me k p vf s Hr H2) as (n & Hn).
    destruct (IH (interp H p vf s) H3 Hc) as (m & H' & A' & me' & k' & d & e & Hm).
    exists (n + S m)%nat, H', A', me', k', d, e. eapply leads_trans; [exact Hn|]. next Hm.
Qed.

(** ** Schedules *)
Lemma nth_update : forall X (l : list X) i j x,
  nth_error (update l i x) j =
  if Nat.eqb i j then match nth_error l i with Some _ => Some x | None => None end else nth_error l j.
Proof.
  induction l as [|y l IH]; intros i j x.
  - cbn [update]. destruct (Nat.eqb i j); destruct i, j; reflexivity.
  - destruct i, j; cbn [update nth_error Nat.eqb]; auto.
Qed.

(** How often a task takes a step. *)
Definition turns (i : nat) (l : list nat) : nat := length (filter (Nat.eqb i) l).

Lemma run_ended : forall sched (l : list (active B)) r i b, nth_error l i = Some (Ended b) ->
  nth_error (fst (run base ss dbg sched l r)) i = Some (Ended b).
Proof.
  induction sched as [|j sched IH]; intros l r i b Hi; cbn [run fst]; auto.
  destruct (nth_error l j) as [a|] eqn:Ej; [|auto].
  destruct (astep base ss dbg a r) as [a' r'] eqn:Es. apply IH. rewrite nth_update, Ej.
  destruct (Nat.eqb_spec j i) as [->|]; [|auto].
  rewrite Hi in Ej. inversion Ej; subst. cbn [astep] in Es. now inversion Es.
Qed.

Lemma leads_sched : forall n t P b P', leads n t P (Ended b) P' ->
  forall sched l r i, ok r -> P r -> nth_error l i = Some t -> (n <= turns i sched)%nat ->
  nth_error (fst (run base ss dbg sched l r)) i = Some (Ended b).
Proof.
  intros n t P b P' Hl. remember (Ended b) as t' eqn:Et. induction Hl; subst.
  - intros. now apply run_ended.
  - intros sched. induction sched as [|j sched IHs]; intros l r i Hr HP Hi Hn; [cbn in Hn; lia|].
    cbn [run]. unfold turns in Hn. cbn [filter] in Hn. destruct (Nat.eqb_spec i j) as [<-|Hne].
    + rewrite Hi. destruct (H1 r Hr HP) as (b0 & r' & Hs & HP1). rewrite Hs.
      apply (H3 b0); auto.
      * eapply ok_evolves; eauto. eapply astep_evolves; eauto. apply Hr.
      * rewrite nth_update, Nat.eqb_refl, Hi. reflexivity.
      * cbn [length] in Hn. unfold turns. lia.
    + destruct (nth_error l j) as [a|] eqn:Ej.
      * destruct (astep base ss dbg a r) as [a' r'] eqn:Es.
        assert (Hv : evolves r r') by (eapply astep_evolves; eauto; apply Hr).
        apply IHs; auto.
        -- eapply ok_evolves; eauto.
        -- eapply H; eauto.
        -- rewrite nth_update. destruct (Nat.eqb_spec j i); [congruence|auto].
      * apply IHs; auto.
Qed.

Lemma leads_alone : forall n t P t' P', leads n t P t' P' ->
  forall l r i, ok r -> P r -> nth_error l i = Some t ->
  exists l' r', run base ss dbg (repeat i n) l r = (l', r') /\ ok r' /\ P' r' /\
    nth_error l' i = Some t' /\ (forall j, j <> i -> nth_error l' j = nth_error l j) /\
    (forall u, ~ C (First u) true -> first r' u = first r u).
Proof.
  intros n t P t' P' Hl. induction Hl; intros l r i Hr HP Hi; cbn [repeat run].
  - exists l, r. repeat split; auto; apply Hr.
  - rewrite Hi. destruct (H1 r Hr HP) as (b0 & r' & Hs & HP1). rewrite Hs.
    destruct (H3 b0 (update l i (t1 b0)) r' i) as (l' & r2 & Hrun & Hok & HP2 & Hi' & Hj & Hf); auto.
    + eapply ok_evolves; eauto. eapply astep_evolves; eauto. apply Hr.
    + rewrite nth_update, Nat.eqb_refl, Hi. reflexivity.
    + exists l', r2. do 4 (split; [assumption|]). split.
      * intros j Hne. rewrite Hj by auto. rewrite nth_update. destruct (Nat.eqb_spec i j); [congruence|auto].
      * intros u Hu. rewrite Hf by exact Hu. eapply astep_first; [exact Hs|].
        intros Ht. apply Hu. exact (H0 _ _ _ Ht).
Qed.

Lemma run_app : forall s1 s2 (l : list (active B)) r,
  run base ss dbg (s1 ++ s2) l r =
  let '(l', r') := run base ss dbg s1 l r in run base ss dbg s2 l' r'.
Proof.
  induction s1 as [|i s1 IH]; intros s2 l r; cbn [app run]; auto.
  destruct (nth_error l i); [|auto]. destruct (astep base ss dbg a r). apply IH.
Qed.


Lemma near_ended : forall b, near (Ended b).
Proof. intros b r x w Ht. discriminate. Qed.

(** On its way a task touches nothing else. *)
Lemma leads_near : forall n t P b P', leads n t P (Ended b) P' ->
  forall sched l r i a, ok r -> P r -> nth_error l i = Some t ->
  nth_error (fst (run base ss dbg sched l r)) i = Some a -> near a.
Proof.
  intros n t P b P' Hl. remember (Ended b) as t' eqn:Et. induction Hl; subst.
  - intros sched l r i a Hr HP Hi Ha. rewrite (run_ended sched l r i b Hi) in Ha. inversion Ha.
    apply near_ended.
  - intros sched. induction sched as [|j sched IHs]; intros l r i a Hr HP Hi Ha; cbn [run fst] in Ha.
    { rewrite Hi in Ha. inversion Ha; subst. assumption. }
    destruct (Nat.eq_dec i j) as [<-|Hne].
    + rewrite Hi in Ha. destruct (H1 r Hr HP) as (b0 & r' & Hs & HP1). rewrite Hs in Ha.
      eapply (H3 b0); [reflexivity| | | |exact Ha]; auto.
      * eapply ok_evolves; eauto. eapply astep_evolves; eauto. apply Hr.
      * rewrite nth_update, Nat.eqb_refl, Hi. reflexivity.
    + destruct (nth_error l j) as [x|] eqn:Ej.
      * destruct (astep base ss dbg x r) as [x' r'] eqn:Es.
        assert (Hv : evolves r r') by (eapply astep_evolves; eauto; apply Hr).
        eapply IHs; [| | |exact Ha].
        -- eapply ok_evolves; eauto.
        -- eapply H; eauto.
        -- rewrite nth_update. destruct (Nat.eqb_spec j i); [congruence|auto].
      * eapply IHs; [| | |exact Ha]; auto.
Qed.
End Facts.
