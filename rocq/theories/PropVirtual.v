(** Properties C22-C26: polymorphic objects and the registries behind them. *)
From Coq Require Import List NArith Arith Bool Lia Permutation.
From Coq.Strings Require Import Byte.
From Verif Require Import Base Syntax Prog Serializers Traverse Spec ProgFacts EnvFacts Closure
  ValFacts Pack Unpack Api ApiFacts Registry RegistryFacts Examples Fails ApiInv PropMemory.
Import ListNotations.
Local Open Scope N_scope.

(** ** Observing which serialize functions run *)

(** The serializer [H] together with the list of events so far. *)
Definition logger (H : serializer) : serializer := {|
  state := state H * list event;
  contig b s := match contig H b (fst s) with
                | Ok (y, s') => Ok (y, (s', snd s))
                | Err e => Err e
                end;
  count n s := (count H n (fst s), snd s);
  note e s := (note H e (fst s), snd s ++ [e])
|}.

(** A serializer transfers as many bytes as it is asked to. *)
Definition honest (H : serializer) : Prop :=
  forall b s y s', contig H b s = Ok (y, s') -> length y = length b.

Lemma honest_all : honest sizer /\ honest packer /\ honest unpacker /\ honest footprinter /\
  honest stream_packer /\ honest stream_unpacker.
Proof.
  repeat apply conj; intros b s y s' H; cbn in H.
  - now inversion H.
  - destruct (write_at _ _ _); now inversion H.
  - destruct (split_at _ _) as [[x r]|] eqn:E; inversion H; subst. now apply split_at_inv in E.
  - now inversion H.
  - now inversion H.
  - destruct (split_at _ _) as [[x r]|] eqn:E; inversion H; subst. now apply split_at_inv in E.
Qed.

(** Logging does not change what happens. *)
Lemma logger_faithful : forall H A (p : prog A) vf s l,
  match interp H p vf s with
  | Ok (a, vf', s') => exists log, interp (logger H) p vf (s, l) = Ok (a, vf', (s', l ++ log))
  | Err e => interp (logger H) p vf (s, l) = Err e
  end.
Proof.
  intros H A p. induction p; intros vf s l; cbn [interp].
  - exists []. now rewrite app_nil_r.
  - cbn [contig logger fst snd]. destruct (contig H b s) as [[y s']|e]; auto.
    apply (H0 y).
  - apply IHp.
  - apply H0.
  - apply IHp.
  - cbn [note logger fst snd]. specialize (IHp vf (note H e s) (l ++ [e])).
    destruct (interp H p vf (note H e s)) as [[[a vf'] s']|]; auto.
    destruct IHp as (log & ->). exists (e :: log). now rewrite <- app_assoc.
  - reflexivity.
Qed.

(** The classes whose serialize functions were entered, in order, leaving out
    those entered while another one was running; [d] of them are running at the
    start. *)
Fixpoint outer (d : nat) (log : list event) : list nat :=
  match log with
  | [] => []
  | EvSerialize c :: r => if Nat.eqb d 0 then c :: outer (S d) r else outer (S d) r
  | EvReturn _ :: r => outer (pred d) r
  | _ :: r => outer d r
  end.

(** ** Logs of programs *)
Definition runs (P : list event -> Prop) (b b' : bool) {A} (p : prog A) : Prop :=
  forall H, honest H -> forall s l a vf s' l',
    interp (logger H) p b (s, l) = Ok (a, vf, (s', l')) ->
    vf = b' /\ exists x, l' = l ++ x /\ P x.

(** Every serialize function that is entered also returns. *)
Definition balanced (x : list event) : Prop :=
  forall d rest, outer (S d) (x ++ rest) = outer (S d) rest.
(** Exactly the functions of [cs] are called. *)
Definition calls (cs : list nat) (x : list event) : Prop :=
  forall rest, outer 0 (x ++ rest) = cs ++ outer 0 rest.

Lemma runs_ret : forall (P : list event -> Prop) b A (a : A), P [] -> runs P b b (Ret a).
Proof.
  intros P b A a HP H _ s l x vf s' l' Hi. inversion Hi; subst. split; auto.
  exists []. now rewrite app_nil_r.
Qed.
Lemma runs_bind : forall (P Q R : list event -> Prop) b b' b'' A B (p : prog A) (f : A -> prog B),
  runs P b b' p -> (forall a, runs Q b' b'' (f a)) -> (forall x y, P x -> Q y -> R (x ++ y)) ->
  runs R b b'' (bind p f).
Proof.
  intros * Hp Hf HR H Hh s l x vf s' l' Hi. apply interp_bind_inv in Hi.
  destruct Hi as (a & vf1 & [s1 l1] & H1 & H2).
  apply Hp in H1; auto. destruct H1 as (-> & x1 & -> & P1).
  apply Hf in H2; auto. destruct H2 as (-> & x2 & -> & P2).
  split; auto. exists (x1 ++ x2). rewrite app_assoc. auto.
Qed.
Lemma runs_contig : forall P b b' A x (k : bytes -> prog A),
  (forall y, length y = length x -> runs P b b' (k y)) -> runs P b b' (Contig x k).
Proof.
  intros * Hk H Hh s l a vf s' l' Hi. cbn [interp contig logger fst snd] in Hi.
  destruct (contig H x s) as [[y s1]|e] eqn:E; [|discriminate].
  apply (Hk y) in Hi; auto. eapply Hh; eauto.
Qed.
Lemma runs_catch : forall P b b' A t (p : prog A), runs P b b' p -> runs P b b' (catch t p).
Proof. intros * Hp H Hh s l a vf s' l' Hi. apply interp_catch_inv in Hi. eapply Hp; eauto. Qed.
Lemma runs_note : forall (P Q : list event -> Prop) b b' A e (k : prog A),
  runs P b b' k -> (forall x, P x -> Q (e :: x)) -> runs Q b b' (Note e k).
Proof.
  intros * Hk HQ H Hh s l a vf s' l' Hi. cbn [interp note logger fst snd] in Hi.
  apply Hk in Hi; auto. destruct Hi as (-> & x & -> & Px). split; auto.
  exists (e :: x). rewrite <- app_assoc. auto.
Qed.

Definition quiet (b b' : bool) (A : Type) (p : prog A) : Prop := runs balanced b b' p.

Lemma balanced_app : forall x y, balanced x -> balanced y -> balanced (x ++ y).
Proof. intros x y Hx Hy d rest. now rewrite <- app_assoc, Hx, Hy. Qed.
Lemma balanced_nil : balanced [].
Proof. intros d rest. reflexivity. Qed.

Lemma quiet_call : forall c A B (p : prog A) (g : A -> B),
  quiet false false A p ->
  quiet false false B (Note (EvSerialize c) (bind p (fun x => Note (EvReturn c) (Ret (g x))))).
Proof.
  intros c A B p g Hp. unfold quiet.
  eapply runs_note with (P := fun x => exists y, balanced y /\ x = y ++ [EvReturn c]).
  - eapply runs_bind with (Q := fun x => x = [EvReturn c]); [exact Hp| |].
    + intros a. eapply runs_note with (P := fun x => x = []); [now apply runs_ret|].
      now intros x ->.
    + intros x y Hx ->. eauto.
  - intros x (y & Hy & ->) d rest. cbn [app outer Nat.eqb]. rewrite <- app_assoc, Hy. reflexivity.
Qed.

(** No class is both polymorphic and byte-copyable. *)
Definition no_bytewise_virtual (E : env) : Prop :=
  forall c k, cls E c = Some k -> cbyte k = true -> cvirt k = false.

Section Logs.
Variable F : N -> Prop.
Variable E : env.
Hypothesis wf : wf_env F E.
Hypothesis nobv : no_bytewise_virtual E.
Variable m : mode.

Lemma chain_v : forall c c', is_virtual E (TClass c) = true -> In c' (chain E c) ->
  is_virtual E (TClass c') = true.
Proof. intros c c' H Hin. rewrite (chain_virtual _ _ wf c c'); auto. Qed.

Lemma quiet_with : forall f t vs, quiet false false _ (with_ E m f t vs) /\
  (is_virtual E t = true -> quiet true false _ (with_ E m f t vs)).
Proof.
  intros f t vs. apply (g_with quiet); auto; try exact chain_v; unfold quiet; clear.
  - intros. apply runs_ret, balanced_nil.
  - intros b b' A e H Hh s l a vf s' l' Hi. discriminate.
  - intros. eapply runs_bind; eauto using balanced_app.
  - intros. now apply runs_contig.
  - intros b b' A n k Hk H Hh s l a vf s' l' Hi. exact (Hk H Hh _ _ _ _ _ _ Hi).
  - intros. now apply runs_catch.
  - intros. eapply runs_note; [eauto|intros x Hx d rest; apply Hx].
  - intros. eapply runs_note; [eauto|intros x Hx d rest; apply Hx].
  - intros. eapply runs_note; [eauto|intros x Hx d rest; apply Hx].
  - intros b b' A l e H Hh s l' a vf s' l'' Hi. discriminate.
  - intros. now apply quiet_call.
  - intros. eapply runs_note; [eauto|intros x Hx d rest; apply Hx].
Qed.

Lemma calls_app : forall cs cs' x y, calls cs x -> calls cs' y -> calls (cs ++ cs') (x ++ y).
Proof. intros cs cs' x y Hx Hy rest. now rewrite <- !app_assoc, Hx, Hy. Qed.
Lemma calls_nil : calls [] [].
Proof. intros rest. reflexivity. Qed.

Lemma frame_calls : forall b b' cs t n A (p : prog A), runs (calls cs) b b' p ->
  runs (calls cs) b b'
    (if chk E
     then bind (with_type_idx E m t) (fun _ => bind (catch (tix E t) p) (fun a =>
          bind (with_mem_used E m t n) (fun _ => Ret a)))
     else p).
Proof.
  intros * Hp. destruct (chk E); auto.
  assert (T : runs (calls []) b b (with_type_idx E m t)).
  { unfold with_type_idx. destruct m; try (apply runs_ret, calls_nil);
      apply runs_contig; intros; try (apply runs_ret, calls_nil).
    destruct (_ || _); [intros ? ? ? ? ? ? ? ? Hi; discriminate|apply runs_ret, calls_nil]. }
  assert (M : runs (calls []) b' b' (with_mem_used E m t n)).
  { unfold with_mem_used. destruct m; try (apply runs_ret, calls_nil);
      apply runs_contig; intros; try (apply runs_ret, calls_nil).
    destruct (_ =? _); [apply runs_ret, calls_nil|intros ? ? ? ? ? ? ? ? Hi; discriminate]. }
  eapply runs_bind; [exact T| |intros x y Hx Hy; exact (calls_app [] cs x y Hx Hy)].
  intros _. eapply runs_bind; [apply runs_catch, Hp| |].
  - intros a. eapply runs_bind; [exact M|intros; apply runs_ret, calls_nil|].
    intros x y Hx Hy. exact (calls_app [] [] x y Hx Hy).
  - intros x y Hx Hy. cbn beta in *. pose proof (calls_app cs [] x y Hx Hy) as H.
    now rewrite app_nil_r in H.
Qed.

Lemma ser_calls : forall b b' cs f t v, runs (calls cs) b b' (with_ E m f t [v]) ->
  runs (calls cs) b b' (ser (with_ E m f) t v).
Proof.
  intros * H. unfold ser. eapply runs_bind; [exact H| |].
  - intros [|x [|? ?]]; try (intros ? ? ? ? ? ? ? ? Hi; discriminate). apply runs_ret, calls_nil.
  - intros x y Hx Hy. pose proof (calls_app cs [] x y Hx Hy) as HH. now rewrite app_nil_r in HH.
Qed.

(** One class of an object: its own serialize function, once. *)
Lemma class_calls : forall f c v, is_virtual E (TClass c) = true ->
  runs (calls [c]) true false (ser (with_ E m f) (TClass c) v).
Proof.
  intros f c v Hv. apply ser_calls. destruct f as [|f]; cbn [with_].
  { intros ? ? ? ? ? ? ? ? Hi; discriminate. }
  unfold traverse. apply frame_calls. unfold ap.
  destruct (bytecopy E (TClass c)) eqn:Hb.
  { exfalso. cbn [bytecopy is_virtual] in *. destruct (cls E c) as [k|] eqn:Ek; [|discriminate].
    rewrite (nobv c k Ek Hb) in Hv. discriminate. }
  rewrite Hv. cbn [mapP]. intros H Hh s l a vf s' l' Hi. cbn [interp] in Hi. revert Hi.
  apply (runs_bind (calls [c]) (calls []) (calls [c]) false false false); auto.
  - cbn [apply_elem]. unfold apply_static. destruct v; try (intros ? ? ? ? ? ? ? ? Hi; discriminate).
    destruct (cls E c); [|intros ? ? ? ? ? ? ? ? Hi; discriminate].
    destruct (nth_error ls (level E c)); [|intros ? ? ? ? ? ? ? ? Hi; discriminate].
    eapply runs_note with (P := fun x => exists y, balanced y /\ x = y ++ [EvReturn c]).
    + eapply runs_bind with (Q := fun x => x = [EvReturn c]).
      * unfold ser_members.
        assert (Hm : forall is_ fs, quiet false false _ (foldP (fun fs i =>
           match nth_error (cfields c1) i, nth_error fs i with
           | Some t, Some v => bind (ser (with_ E m f) t v) (fun x => Ret (upd fs i x))
           | _, _ => Fail Stuck
           end) is_ fs)); [|exact (Hm _ _)].
        intros is_. induction is_ as [|i r IH]; intros fs; cbn [foldP].
        -- apply runs_ret, balanced_nil.
        -- eapply runs_bind with (P := balanced) (b' := false); [|intros; apply IH|apply balanced_app].
           destruct (nth_error (cfields c1) i); [|intros ? ? ? ? ? ? ? ? Hi; discriminate].
           destruct (nth_error fs i); [|intros ? ? ? ? ? ? ? ? Hi; discriminate].
           eapply runs_bind with (P := balanced) (b' := false); [|intros; apply runs_ret, balanced_nil|apply balanced_app].
           unfold ser. eapply runs_bind; [apply quiet_with| |apply balanced_app].
           intros [|x [|? ?]]; try (intros ? ? ? ? ? ? ? ? Hi; discriminate). apply runs_ret, balanced_nil.
      * intros a1. eapply runs_note with (P := fun x => x = []); [now apply runs_ret|].
        now intros x ->.
      * intros x y Hx ->. eauto.
    + intros x (y & Hy & ->) rest. cbn [app outer Nat.eqb]. rewrite <- app_assoc, Hy. reflexivity.
  - intros. eapply runs_bind with (P := calls []) (Q := calls []) (b' := false).
    + apply runs_ret, calls_nil.
    + intros. apply runs_ret, calls_nil.
    + intros x y Hx Hy. exact (calls_app [] [] x y Hx Hy).
  - intros x y Hx Hy. exact (calls_app [c] [] x y Hx Hy).
Qed.

Lemma dyn_calls : forall f d ls, 
  runs (calls (chain E d)) false false (dyn_serialize E (with_ E m f) (VObj d ls)).
Proof.
  intros f d ls. cbn [dyn_serialize]. destruct (is_virtual E (TClass d)) eqn:Hv.
  2:{ intros ? ? ? ? ? ? ? ? Hi; discriminate. }
  assert (Hc : forall c, In c (chain E d) -> is_virtual E (TClass c) = true)
    by (intros; eapply chain_v; eauto).
  revert Hc. generalize (chain E d) as cs. generalize (VObj d ls) as v. intros v cs. revert v.
  induction cs as [|c cs IH]; intros v Hc; cbn [foldP].
  - apply runs_ret, calls_nil.
  - eapply runs_bind with (P := calls [c]) (b' := false).
    + eapply runs_note with (P := calls [c]).
      * intros H Hh s l a vf s' l' Hi. cbn [interp] in Hi. revert Hi.
        apply class_calls; auto. apply Hc. now left.
      * intros x Hx rest. apply Hx.
    + intros v'. apply IH. intros. apply Hc. now right.
    + intros x y Hx Hy. exact (calls_app [c] cs x y Hx Hy).
Qed.

(** An object reached through a polymorphic reference. *)
Lemma ref_calls : forall f c d ls, is_virtual E (TClass c) = true ->
  runs (calls (chain E d)) false false (ser (with_ E m f) (TClass c) (VObj d ls)).
Proof.
  intros f c d ls Hv. apply ser_calls. destruct f as [|f]; cbn [with_].
  { intros ? ? ? ? ? ? ? ? Hi; discriminate. }
  unfold traverse. apply frame_calls. unfold ap.
  destruct (bytecopy E (TClass c)) eqn:Hb.
  { exfalso. cbn [bytecopy is_virtual] in *. destruct (cls E c) as [k|] eqn:Ek; [|discriminate].
    rewrite (nobv c k Ek Hb) in Hv. discriminate. }
  rewrite Hv. intros H Hh s l a vf s' l' Hi. cbn [interp] in Hi. revert Hi.
  apply (runs_bind (calls (chain E d)) (calls []) (calls (chain E d)) false false false); auto.
  - apply dyn_calls.
  - intros. apply runs_ret, calls_nil.
  - intros x y Hx Hy. pose proof (calls_app (chain E d) [] x y Hx Hy) as HH. now rewrite app_nil_r in HH.
Qed.

Lemma root_calls : forall f c d ls, is_virtual E (TClass c) = true ->
  runs (calls (chain E d)) false false (with_root E m f (TClass c) (VObj d ls)).
Proof.
  intros f c d ls Hv. unfold with_root. pose proof (ref_calls f c d ls Hv) as Hp.
  destruct (chk E); auto.
  assert (T : runs (calls []) false false (with_type_idx E m (TClass c))).
  { unfold with_type_idx. destruct m; try (apply runs_ret, calls_nil);
      apply runs_contig; intros; try (apply runs_ret, calls_nil).
    destruct (_ || _); [intros ? ? ? ? ? ? ? ? Hi; discriminate|apply runs_ret, calls_nil]. }
  assert (M : runs (calls []) false false (with_mem_used E m (TClass c) 1)).
  { unfold with_mem_used. destruct m; try (apply runs_ret, calls_nil);
      apply runs_contig; intros; try (apply runs_ret, calls_nil).
    destruct (_ =? _); [apply runs_ret, calls_nil|intros ? ? ? ? ? ? ? ? Hi; discriminate]. }
  eapply runs_bind; [exact T| |intros x y Hx Hy; exact (calls_app [] (chain E d) x y Hx Hy)].
  intros _. eapply runs_bind; [exact Hp| |].
  - intros a. eapply runs_bind; [exact M|intros; apply runs_ret, calls_nil|].
    intros x y Hx Hy. exact (calls_app [] [] x y Hx Hy).
  - intros x y Hx Hy. pose proof (calls_app (chain E d) [] x y Hx Hy) as H.
    now rewrite app_nil_r in H.
Qed.
End Logs.

(** ** C22 *)

(** For every serializer [H] (in particular the six of Serializers.v, see
    honest_all), every mode and every dynamic class [d]. *)
Theorem C22_chain_once : forall E H m f c d ls s v' vf s',
  wf_env any E -> no_bytewise_virtual E -> honest H -> is_virtual E (TClass c) = true ->
  interp H (with_root E m f (TClass c) (VObj d ls)) false s = Ok (v', vf, s') ->
  exists log,
    interp (logger H) (with_root E m f (TClass c) (VObj d ls)) false (s, [])
    = Ok (v', vf, (s', log)) /\ outer 0 log = chain E d.
Proof.
  intros E H m f c d ls s v' vf s' wf nobv Hh Hv Hi.
  pose proof (logger_faithful H _ (with_root E m f (TClass c) (VObj d ls)) false s []) as L.
  rewrite Hi in L. destruct L as (log & L). cbn [app] in L. exists log. split; auto.
  destruct (root_calls any E wf nobv m f c d ls Hv H Hh _ _ _ _ _ _ L) as (_ & x & -> & Hx).
  specialize (Hx []). cbn [app outer] in *. now rewrite !app_nil_r in Hx.
Qed.
Print Assumptions C22_chain_once.

(** The same when the functions are found through the registries, whatever the
    order [ops] in which classes and serializers were registered and linked. *)
Theorem C22_registries : forall E H m f d ls s v' r' vf s' ops objs ss i,
  wf_env any E -> no_bytewise_virtual E -> honest H -> is_virtual E (TClass d) = true ->
  NoDup (regs_of ops) -> NoDup objs -> In i ss ->
  (forall c, In c (chain E d) -> In (c, i) (regs_of ops) /\ In c objs) ->
  interp H (virtual_serialize E (oregs_of (root E) objs) ss i (with_ E m f) (VObj d ls)
              (run_sops (root E) ops)) false s = Ok ((v', r'), vf, s') ->
  exists log,
    interp (logger H) (virtual_serialize E (oregs_of (root E) objs) ss i (with_ E m f) (VObj d ls)
              (run_sops (root E) ops)) false (s, []) = Ok ((v', r'), vf, (s', log)) /\
    outer 0 log = chain E d.
Proof.
  intros E H m f d ls s v' r' vf s' ops objs ss i wf nobv Hh Hv Hn Hno Hss Hreg Hi.
  pose proof (logger_faithful H _ (virtual_serialize E (oregs_of (root E) objs) ss i (with_ E m f)
    (VObj d ls) (run_sops (root E) ops)) false s []) as L.
  rewrite Hi in L. destruct L as (log & L). cbn [app] in L. exists log. split; auto.
  destruct (virtual_serialize_chain any E wf (oregs_of (root E) objs) ss i Hss (with_ E m f)
    d ls (run_sops (root E) ops)) as (r2 & _ & _ & P); auto.
  - now apply run_inv.
  - intros c Hc. apply run_idx. now apply Hreg.
  - intros c Hc. destruct (or_idx_lookup (root E) objs c Hno) as (j & Hj & _); [now apply Hreg|congruence].
  - rewrite P in L. apply interp_bind_inv in L. destruct L as (a & vf1 & [s1 l1] & L1 & L2).
    destruct (dyn_calls any E wf nobv m f d ls H Hh _ _ _ _ _ _ L1) as (-> & x & -> & Hx).
    cbn [interp] in L2. inversion L2; subst. specialize (Hx []).
    cbn [app outer] in *. now rewrite !app_nil_r in Hx.
Qed.
Print Assumptions C22_registries.

(** Which serialize functions ran, by a terminating execution. *)
Definition seen {H A} (r : res (A * bool * (state H * list event))) : option (list nat) :=
  match r with Ok (_, _, (_, log)) => Some (outer 0 log) | Err _ => None end.
Definition bytes_of (r : res serialized) : bytes :=
  match r with Ok s => s_bytes s | Err _ => [] end.

(** A Ring (Ring : Circle : Shape) through a Shape reference, in all four modes,
    and through registries that were filled derived classes first. *)
Lemma ex_plain_nobv : forall b, no_bytewise_virtual (ex_plain b).
Proof.
  intros b c k H Hb. do 14 (destruct c as [|c]; [first [discriminate|inversion H; subst; cbn in *; congruence]|]).
  discriminate.
Qed.
Definition ex_sops : list sop :=
  [SReg 3 1; SReg 2 1; SReg 2 0; SReg 3 0; SLink 0 3; SReg 1 0; SReg 1 1; SLink 1 2]%nat.
Example C22_case : forall b,
  let E := ex_plain b in
  let bs := bytes_of (serialize E 12 (TClass 1) v_ring None) in
  seen (interp (logger sizer) (with_root E MSizing 12 (TClass 1) v_ring) false (0, [])) = Some [1; 2; 3]%nat /\
  seen (interp (logger packer) (with_root E MPacking 12 (TClass 1) v_ring) false
    ({| p_buf := zeros 700; p_cur := 0; p_used := 0 |}, [])) = Some [1; 2; 3]%nat /\
  seen (interp (logger footprinter) (with_root E MFootprinting 12 (TClass 1) v_ring) false (0, []))
    = Some [1; 2; 3]%nat /\
  seen (interp (logger unpacker) (with_root E MUnpacking 12 (TClass 1) v_ring) false
    ({| u_buf := bs; u_cur := 0; u_used := 0 |}, [])) = Some [1; 2; 3]%nat /\
  NoDup (regs_of ex_sops) /\
  seen (interp (logger sizer)
    (virtual_serialize E (oregs_of (root E) [3; 1; 2]%nat) [0; 1]%nat 1 (with_ E MSizing 12) v_ring
       (run_sops (root E) ex_sops)) false (0, [])) = Some [1; 2; 3]%nat.
Proof.
  intros b. cbv zeta. destruct b.
  - repeat (split; [vm_compute; reflexivity|]). split; [|vm_compute; reflexivity].
    cbn. repeat (constructor; [cbn; intuition congruence|]). constructor.
  - repeat (split; [vm_compute; reflexivity|]). split; [|vm_compute; reflexivity].
    cbn. repeat (constructor; [cbn; intuition congruence|]). constructor.
Qed.

(** ** C23 *)

(** [l]: the classes in the order of their registration; [base c]: the root of the
    hierarchy of [c]. *)
Theorem C23_objects : forall base l, NoDup l ->
  let o := oregs_of base l in
  (forall c, In c l -> exists i, or_idx o c = Some i /\
     concrete_class o (base c) (N.of_nat i) = Ok c) /\
  (forall c c', In c l -> In c' l -> base c = base c' -> or_idx o c = or_idx o c' -> c = c') /\
  (forall r i c, concrete_class o r i = Ok c -> base c = r /\ In c l) /\
  (forall r i, len (filter (fun c => Nat.eqb (base c) r) l) <= i ->
     concrete_class o r i = Err RangeErr).
Proof.
  intros base l Hn o. split; [|split; [|split]].
  - intros c Hc. now apply or_idx_lookup.
  - intros c c' Hc Hc' Hb Hi.
    destruct (or_idx_lookup base l c Hn Hc) as (i & H1 & H2).
    destruct (or_idx_lookup base l c' Hn Hc') as (i' & H1' & H2').
    fold o in H1, H1', H2, H2'. rewrite Hi, H1' in H1. inversion H1; subst i'.
    rewrite Hb in H2. congruence.
  - intros r i c H. now apply concrete_sound in H.
  - intros r i H. apply concrete_unknown. rewrite <- or_reg_classes in H.
    unfold len in *. now rewrite map_length in H.
Qed.
Print Assumptions C23_objects.

Lemma linked_add : forall base r c0 s0 d s, sinv base r -> linked base r d s ->
  sr_idx r c0 s0 = None -> sr_idx r d s <> None -> sr_idx r (base d) s <> None ->
  linked base (sreg_add r (c0, s0)) d s.
Proof.
  intros base r c0 s0 d s Hinv Hl Hnew Hd Hb i e Hi He.
  cbn [sreg_add sr_idx sr_reg] in *. unfold set_fun in *.
  assert (Hsame : forall c, sr_idx r c s <> None ->
    (if Nat.eqb c c0 then if Nat.eqb s s0 then Some (length (sr_reg r c0)) else sr_idx r c0 s
     else sr_idx r c s) = sr_idx r c s).
  { intros c Hc. destruct (Nat.eqb_spec c c0) as [->|]; auto.
    destruct (Nat.eqb_spec s s0) as [->|]; auto. congruence. }
  assert (X : forall c, (if Nat.eqb c c0 then fun y => if Nat.eqb y s0 then Some (length (sr_reg r c0)) else sr_idx r c0 y else sr_idx r c) s =
    (if Nat.eqb c c0 then if Nat.eqb s s0 then Some (length (sr_reg r c0)) else sr_idx r c0 s
     else sr_idx r c s)) by (intros c; now destruct (Nat.eqb c c0)).
  rewrite X, Hsame in Hi by auto. rewrite X, Hsame by auto.
  apply (Hl i e); auto. destruct (si_idx _ _ Hinv _ _ _ Hi) as (e' & He' & _).
  destruct (Nat.eqb_spec d c0) as [->|]; auto.
  rewrite nth_error_app1 in He by (apply nth_error_Some; congruence). exact He.
Qed.

Lemma linked_run : forall base ops2 ops1 d s, NoDup (regs_of (ops1 ++ ops2)) ->
  In (d, s) (regs_of ops1) -> In (base d, s) (regs_of ops1) ->
  linked base (run_sops base ops1) d s -> linked base (run_sops base (ops1 ++ ops2)) d s.
Proof.
  intros base ops2. induction ops2 as [|op ops2 IH]; intros ops1 d s Hn H1 H2 Hl.
  - now rewrite app_nil_r.
  - change (op :: ops2) with ([op] ++ ops2) in *. rewrite app_assoc in *.
    assert (Hr : regs_of ((ops1 ++ [op]) ++ ops2) = regs_of ops1 ++ regs_of [op] ++ regs_of ops2).
    { unfold regs_of. now rewrite !flat_map_app, app_assoc. }
    assert (Hr1 : regs_of (ops1 ++ [op]) = regs_of ops1 ++ regs_of [op]).
    { unfold regs_of. now rewrite flat_map_app. }
    assert (Hn1 : NoDup (regs_of ops1)).
    { rewrite Hr in Hn. clear - Hn. induction (regs_of ops1) as [|x l IHl]; [constructor|].
      inversion Hn; subst. constructor; auto. intros Hx. apply H1. apply in_or_app. now left. }
    apply IH; auto.
    + rewrite Hr1. apply in_or_app. now left.
    + rewrite Hr1. apply in_or_app. now left.
    + rewrite run_snoc. destruct op as [c0 s0|s0 d0]; cbn [run_sop].
      * apply linked_add; auto using run_inv.
        -- destruct (sr_idx (run_sops base ops1) c0 s0) eqn:Ei; auto. exfalso.
           assert (In (c0, s0) (regs_of ops1)) as Hin by (apply (run_idx base); congruence).
           rewrite Hr in Hn. cbn [regs_of flat_map app] in Hn.
           apply NoDup_remove_2 in Hn. apply Hn. apply in_or_app. now left.
        -- now apply run_idx.
        -- now apply run_idx.
      * apply linked_link; auto using run_inv.
Qed.

(** [ops]: registrations and links in the order in which they happen; [a]: compiled
    with assertions. *)
Theorem C23_serializers : forall a base ops, NoDup (regs_of ops) ->
  let r := run_sops base ops in
  (* the entry of a registered pair is the function for that pair *)
  (forall c s, In (c, s) (regs_of ops) ->
     exists i, sr_idx r c s = Some i /\ get_obj_idx a r c i = Ok (c, s)) /\
  (* once linked, the entry is also found by the index of the root class *)
  (forall ops1 ops2 d s, ops = ops1 ++ SLink s d :: ops2 ->
     In (d, s) (regs_of ops1) -> In (base d, s) (regs_of ops1) ->
     exists j, sr_idx r (base d) s = Some j /\ get_base_idx a r d j = Ok (d, s)) /\
  (* a lookup that succeeds gives a function for the class asked for, registered
     with the index asked for *)
  (forall c i c' s, get_obj_idx a r c i = Ok (c', s) -> c' = c /\ sr_idx r c s = Some i) /\
  (forall d j c' s, get_base_idx a r d j = Ok (c', s) -> c' = d /\ sr_idx r (base d) s = Some j) /\
  (* anything else is rejected *)
  (forall c i, (forall s, sr_idx r c s <> Some i) ->
     get_obj_idx a r c i = Err (if a then AssertErr else RangeErr)) /\
  (forall d j, (forall s, sr_idx r (base d) s <> Some j) ->
     get_base_idx a r d j = Err (if a then AssertErr else CallErr)).
Proof.
  intros a base ops Hn r. pose proof (run_inv base ops Hn) as Hinv. fold r in Hinv.
  split; [|split; [|split; [|split; [|split]]]].
  - intros c s Hin. apply (run_idx base) in Hin. fold r in Hin.
    destruct (sr_idx r c s) as [i|] eqn:Ei; [|congruence]. exists i. split; auto.
    eapply get_obj_ok; eauto.
  - intros ops1 ops2 d s Hops H1 H2.
    assert (Hs : ops = (ops1 ++ [SLink s d]) ++ ops2) by (now rewrite <- app_assoc).
    assert (Hr1 : regs_of (ops1 ++ [SLink s d]) = regs_of ops1).
    { unfold regs_of. rewrite flat_map_app. cbn. apply app_nil_r. }
    assert (Hn1 : NoDup (regs_of ops1)).
    { rewrite Hs in Hn. unfold regs_of in Hn. rewrite flat_map_app in Hn.
      fold (regs_of (ops1 ++ [SLink s d])) in Hn. rewrite Hr1 in Hn. clear - Hn.
      induction (regs_of ops1) as [|x l IHl]; [constructor|].
      inversion Hn; subst. constructor; auto. intros Hx. apply H1. apply in_or_app. now left. }
    assert (Hl : linked base r d s).
    { unfold r. rewrite Hs. apply linked_run; auto.
      - now rewrite <- Hs.
      - now rewrite Hr1.
      - now rewrite Hr1.
      - rewrite run_snoc. cbn [run_sop]. apply link_linked; [now apply run_inv|].
        now apply run_idx. }
    assert (Hin : forall c, In (c, s) (regs_of ops1) -> sr_idx r c s <> None).
    { intros c Hc. apply run_idx. rewrite Hops. unfold regs_of. rewrite flat_map_app.
      apply in_or_app. now left. }
    destruct (sr_idx r (base d) s) as [j|] eqn:Ej; [|exfalso; now apply (Hin (base d))].
    destruct (sr_idx r d s) as [i|] eqn:Ei; [|exfalso; now apply (Hin d)].
    exists j. split; auto. eapply get_base_ok; eauto.
  - intros c i c' s H. unfold get_obj_idx in H.
    destruct (nth_error (sr_reg r c) i) as [e|] eqn:Ee; [|discriminate].
    destruct (si_fun _ _ Hinv _ _ _ Ee) as (s' & Hf & Hi). rewrite Hf in H. now inversion H; subst.
  - intros d j c' s H. unfold get_base_idx in H.
    destruct (find_base j (sr_reg r d)) as [e|] eqn:Ee; [|discriminate].
    apply find_base_some in Ee. destruct Ee as (Hin & Hb). apply In_nth_error in Hin.
    destruct Hin as (i & Hi). destruct (si_base _ _ Hinv _ _ _ _ Hi Hb) as (s' & Hf & Hj).
    rewrite Hf in H. now inversion H; subst.
  - intros c i H. unfold get_obj_idx. destruct (nth_error (sr_reg r c) i) as [e|] eqn:Ee; auto.
    destruct (si_fun _ _ Hinv _ _ _ Ee) as (s & _ & Hi). now apply H in Hi.
  - intros d j H. eapply get_base_unknown; eauto.
Qed.
Print Assumptions C23_serializers.

Example C23_case :
  concrete_class (oregs_of (ex_base true) ex_regs) 1 3 = Ok 3%nat /\
  concrete_class (oregs_of (ex_base true) ex_regs) 1 7 = Err RangeErr /\
  or_idx (oregs_of (ex_base true) ex_regs) 3 = Some 3%nat /\
  sr_idx (run_sops (ex_base true) ex_sops) 1 1 = Some 1%nat /\
  get_base_idx true (run_sops (ex_base true) ex_sops) 2 1 = Ok (2, 1)%nat /\
  get_base_idx true (run_sops (ex_base true) ex_sops) 2 0 = Err AssertErr /\
  get_base_idx false (run_sops (ex_base true) ex_sops) 2 0 = Err CallErr /\
  get_obj_idx true (run_sops (ex_base true) ex_sops) 3 1 = Ok (3, 0)%nat.
Proof. repeat (split; [vm_compute; reflexivity|]). vm_compute; reflexivity. Qed.

(** ** C24 *)

Lemma obj_idx_inj : forall E d d', root E d = root E d' -> obj_idx E d <> None ->
  obj_idx E d = obj_idx E d' -> d = d'.
Proof.
  intros E d d' Hr Hn He. unfold obj_idx in *. rewrite <- Hr in He.
  destruct (index_of d (oreg E (root E d))) as [i|] eqn:E1; [|congruence]. symmetry in He.
  apply index_of_nth in E1, He. congruence.
Qed.

(** The existing object is the pointee of a unique_ptr to the base class: the
    data of the members ([garbage]) is not even looked at.
    Missing from the full statement: objects behind base references, for which it
    is false (C24_reference_refuted), and programs compiled with NDEBUG, for which
    it is false too (C24_release_refuted). *)
Theorem C24_pointer_partial : forall E f c d ls d' ls',
  wf_env any E -> asserts E = true -> is_virtual E (TClass c) = true ->
  has_ty E (TUnique (TClass c)) (VOpt (Some (VObj d ls))) ->
  root E d' = root E c -> obj_idx E d' <> None ->
  (depth (VOpt (Some (VObj d ls))) < f)%nat ->
  len (enc_root E (TUnique (TClass c)) (VOpt (Some (VObj d ls)))) < two64 ->
  exists s header trailer,
    serialize E f (TUnique (TClass c)) (VOpt (Some (VObj d ls))) None = Ok s /\
    s_bytes s = header ++ enc E (TClass c) (VObj d ls) ++ trailer /\
    (d' <> d -> forall before garbage,
       deserialize_in_place E f (TUnique (TClass c)) (before ++ header ++ garbage) (length before)
         (VOpt (Some (VObj d' ls'))) = Err AssertErr /\
       deserialize_in_place_from_stream E f (TUnique (TClass c)) (in_stream (header ++ garbage))
         (VOpt (Some (VObj d' ls'))) = Err AssertErr) /\
    (d' = d -> target (fun _ _ => True) E (TClass d) (VObj d ls) (VObj d' ls') ->
       exists x n, deserialize_in_place E f (TUnique (TClass c)) (s_bytes s) 0
         (VOpt (Some (VObj d' ls'))) = Ok (x, n) /\ copy_of (VOpt (Some (VObj d ls))) x).
Proof.
  intros E f c d ls d' ls' wf Has Hv Ht Hr' Hi' Hd Hl.
  assert (Hu : exists i, obj_idx E d = Some i /\ N.of_nat i < 2 ^ 31 /\ root E d = root E c).
  { inversion Ht; subst; [congruence|]. exists i. auto. }
  destruct Hu as (i & Hi & Hi31 & Hrd).
  set (v := VOpt (Some (VObj d ls))) in *. set (t := TUnique (TClass c)) in *.
  pose proof (serialize_managed E wf f t v Ht Hd Hl) as Hs.
  eexists. exists (le 4 (tix E t) ++ wbool E false ++ wint E (N.of_nat i)).
  exists (le 8 (wrap64 (sizeof E t))). split; [exact Hs|]. cbn [s_bytes]. split; [|split].
  - rewrite enc_root_frame. unfold root_frame, t, v.
    rewrite (encb_unique_dyn E c d ls i Hv Hi). now rewrite <- !app_assoc.
  - intros Hne before garbage.
    assert (Hf : fails (with_root E MUnpacking f t (VOpt (Some (VObj d' ls')))) false
                   (le 4 (tix E t) ++ wbool E false ++ wint E (N.of_nat i)) AssertErr).
    { destruct f as [|f]; [lia|]. cbn in Hd.
      assert (Hf1 : (1 <= f)%nat) by lia.
      pose proof (proj1 (unpack_all any E wf (fun _ _ => True) N.le ltac:(auto)
        ltac:(intros; lia) f)) as Hrec.
      replace AssertErr with (if chk E then bump (tix E t) AssertErr else AssertErr)
        by (now destruct (chk E)).
      eapply fails_root; [exact wf|]. unfold ap. cbn [bytecopy is_virtual t mapP].
      apply fails_bind_l. cbn [apply_elem]. unfold ser_unique. cbn [is_footprinting].
      eapply fails_bind_r; [eapply u_bool; eauto|]. cbn beta iota.
      apply fails_bind_l. unfold reconstruct_pointed. rewrite Hv. apply fails_bind_l.
      unfold ser_virtual_type. cbn [is_unpacking is_footprinting bind].
      eapply fails_eq; [|apply app_nil_r].
      eapply fails_bind_r; [eapply u_int; eauto; lia|].
      cbn [dyn_type_idx]. destruct (obj_idx E d') as [i'|] eqn:Ei'; [|congruence].
      cbn [option_map of_opt bind].
      rewrite Has. cbn [negb]. rewrite orb_false_r.
      destruct (N.of_nat i =? N.of_nat i') eqn:En; [|apply fails_fail].
      exfalso. apply N.eqb_eq, Nnat.Nat2N.inj in En. subst i'. apply Hne.
      apply (obj_idx_inj E); [congruence|congruence|congruence]. }
    split.
    + now apply in_place_fails.
    + apply (in_place_stream_fails E f t _ _ _ Hf garbage 0).
  - intros -> HT.
    destruct (in_place_ok E wf f t v (VOpt (Some (VObj d ls'))) Ht) as (x & Hx & H); auto.
    { now apply TgUniqueV. }
    exists x, (len (enc_root E t v)). split; [|exact Hx].
    specialize (H [] []). cbn [app length] in H. now rewrite app_nil_r in H.
Qed.
Print Assumptions C24_pointer_partial.

(** A Ring is serialized; the unique_ptr<Shape> read into holds a Box. *)
Example C24_case : forall b, exists s header trailer,
  serialize (ex b) 12 (TUnique (TClass 1)) (VOpt (Some v_ring)) None = Ok s /\
  s_bytes s = header ++ enc (ex b) (TClass 1) v_ring ++ trailer /\
  (4 <> 3 -> forall before garbage,
     deserialize_in_place (ex b) 12 (TUnique (TClass 1)) (before ++ header ++ garbage)
       (length before) (VOpt (Some v_box)) = Err AssertErr /\
     deserialize_in_place_from_stream (ex b) 12 (TUnique (TClass 1)) (in_stream (header ++ garbage))
       (VOpt (Some v_box)) = Err AssertErr)%nat.
Proof.
  intros b.
  destruct (C24_pointer_partial (ex b) 12 1 3
    [[w4 1; s_ab]; [w8 2; VSeq [VSeq [w4 5; s_long]; VSeq [w4 9; s_ab]]]; [VOpt (Some (w4 3))]]
    4 [[w4 4; s_long]; [VSeq [w4 10; w4 20]]]) as (s & h & tr & H1 & H2 & H3 & _).
  - apply ex_wf; exact I.
  - reflexivity.
  - reflexivity.
  - destruct b; ht.
  - destruct b; vm_compute; reflexivity.
  - destruct b; vm_compute; discriminate.
  - cbn. lia.
  - destruct b; vm_compute; reflexivity.
  - exists s, h, tr. split; [exact H1|]. split; [exact H2|exact H3].
Qed.

(** Through a base reference nothing compares the classes: without error checking
    the data of a Disc is read into a Box, and with it the error is not an
    assertion and comes after the members of the base class were read. *)
Definition v_disc : val := VObj 7 [[w4 8; s_ab]; [w8 5]].
Theorem C24_reference_refuted :
  has_ty (ex false) (TClass 7) v_disc /\ has_ty (ex false) (TClass 4) v_box /\
  (exists s n,
     serialize (ex false) 12 (TClass 1) v_disc None = Ok s /\
     deserialize_in_place (ex false) 12 (TClass 1) (s_bytes s) 0 v_box
     = Ok (VObj 4 [[w4 8; VStr 40 [x61; x62]]; [VSeq [w4 5; w4 0]]], n)) /\
  (exists s d,
     serialize (ex true) 12 (TClass 1) v_disc None = Ok s /\
     deserialize_in_place (ex true) 12 (TClass 1) (s_bytes s) 0 v_box
     = Err (SerErr d [WrongType (tix (ex true) (TClass 4)) (tix (ex true) (TClass 7)) (tix (ex true) (TClass 4)); Frame 1 (tix (ex true) (TClass 1))])).
Proof.
  split; [ht|]. split; [ht|]. split.
  - eexists. eexists. split; [vm_compute; reflexivity|vm_compute; reflexivity].
  - eexists. eexists. split; [vm_compute; reflexivity|vm_compute; reflexivity].
Qed.
Print Assumptions C24_reference_refuted.

(** Compiled with NDEBUG the mismatch is only printed: the data of a Disc is read
    into the Box that the unique_ptr<Shape> owns. *)
Theorem C24_release_refuted :
  let t := TUnique (TClass 1) in
  wf_env any (ex_release false) /\
  has_ty (ex_release false) t (VOpt (Some v_disc)) /\
  has_ty (ex_release false) t (VOpt (Some v_box)) /\
  exists s n,
    serialize (ex_release false) 12 t (VOpt (Some v_disc)) None = Ok s /\
    deserialize_in_place (ex_release false) 12 t (s_bytes s) 0 (VOpt (Some v_box))
    = Ok (VOpt (Some (VObj 4 [[w4 8; VStr 40 [x61; x62]]; [VSeq [w4 5; w4 0]]])), n).
Proof.
  split; [now apply ex_with_wf|]. split; [ht|]. split; [ht|].
  eexists. eexists. split; [vm_compute; reflexivity|vm_compute; reflexivity].
Qed.
Print Assumptions C24_release_refuted.

(** ** C25 *)

(** Missing from the full statement: two or more elements, for which it is false
    (C25_refuted, C25_only_first). *)
Theorem C25_short_arrays_partial : forall E f c n cap l, wf_env any E ->
  is_virtual E (TClass c) = true -> Forall (has_ty E (TClass c)) l -> (length l <= 1)%nat ->
  elem_constructible E (TClass c) -> len l <= cap -> cap < two64 -> length l = n ->
  constructible E (TArray n (TClass c)) ->
  (depth (VVec cap l) < f)%nat ->
  len (enc_root E (TVector (TClass c)) (VVec cap l)) < two64 ->
  len (enc_root E (TArray n (TClass c)) (VSeq l)) < two64 ->
  (exists cap' l', round_trip E f (TVector (TClass c)) (VVec cap l) (VVec cap' l') /\
     Forall2 copy_of l l') /\
  (exists l', round_trip E f (TArray n (TClass c)) (VSeq l) (VSeq l') /\ Forall2 copy_of l l').
Proof.
  intros E f c n cap l wf Hv Ht H1 Hc Hcap Hcap' Hn Hca Hd Hl Hl'. split.
  - destruct (round_trip_copy E wf f (TVector (TClass c)) (VVec cap l)) as (x & Hx & Hs); auto.
    + apply HtVector; auto.
    + discriminate.
    + inversion Hs; subst. eauto.
  - destruct (round_trip_copy E wf f (TArray n (TClass c)) (VSeq l)) as (x & Hx & Hs); auto.
    + apply HtArray; auto.
    + inversion Hs; subst. eauto.
Qed.
Print Assumptions C25_short_arrays_partial.

Section First.
Variable E : env.
Hypothesis wf : wf_env any E.
Variable c : nat.
Hypothesis Hv : is_virtual E (TClass c) = true.

Lemma virt_obj : forall x, has_ty E (TClass c) x ->
  bytecopy E (TClass c) = false /\ exists ls, x = VObj c ls.
Proof.
  intros x Hx. inversion Hx; subst.
  - cbn [is_virtual] in Hv. rewrite H0 in Hv. congruence.
  - split; [|eauto]. cbn [bytecopy]. destruct (has_obj _ _ _ _ Hx) as (_ & Hcn & HF).
    assert (Hin : In c (chain E c)).
    { destruct (cls E c) as [k|] eqn:Ek.
      - eapply chain_self; eauto.
      - exfalso. cbn [is_virtual] in Hv. now rewrite Ek in Hv. }
    destruct (obj_level _ _ wf _ _ _ Hin HF) as (k & fs & Hk & Hkb & _). now rewrite Hk.
Qed.

(** The bytes of an array are those of its first element. *)
Lemma p_first : forall m f x r, m = MPacking \/ m = MSizing ->
  has_ty E (TClass c) x -> (depth x < S f)%nat ->
  emits (ser_array (with_ E m (S f)) (TClass c) (x :: r)) false (x :: r) false
    (framed E (TClass c) (S (length r)) (encb E (TClass c) x)).
Proof.
  intros m f x r Hm Hx Hd. destruct (virt_obj x Hx) as (Hb & ls & ->).
  cbn [ser_array with_]. unfold traverse. apply (emits_framed E m Hm).
  unfold ap. rewrite Hb, Hv. apply emits_getv. cbn beta iota.
  eapply emits_eq; [|apply app_nil_r].
  eapply emits_bind with (a := VObj c ls) (vf1 := false); [|apply emits_ret].
  apply (p_dyn any E wf m f (TClass c) c ls); auto.
  apply (proj2 (pack_all any E wf m Hm f)).
Qed.

(** Reading an array leaves all elements but the first as they are. *)
Lemma u_first : forall f x w r, has_ty E (TClass c) x ->
  target (fun _ _ => True) E (TClass c) x w -> (depth x < S f)%nat ->
  exists x', copy_of x x' /\
  reads (ser_array (with_ E MUnpacking (S f)) (TClass c) (w :: r)) false
    (framed E (TClass c) (S (length r)) (encb E (TClass c) x)) (x' :: r) false.
Proof.
  intros f x w r Hx Hw Hd. destruct (virt_obj x Hx) as (Hb & ls & ->).
  assert (exists ls', w = VObj c ls') as (ls' & ->).
  { inversion Hw; subst; eauto. cbn [is_virtual] in Hv.
    match goal with H : cls E c = Some _ |- _ => rewrite H in Hv end. congruence. }
  destruct (u_dyn any E wf (fun _ _ => True) N.le f (TClass c) c ls ls') as (x' & Hs & Hr); auto.
  { apply (proj2 (unpack_all any E wf (fun _ _ => True) N.le ltac:(auto) ltac:(intros; lia) f)). }
  exists x'. split; [exact Hs|]. cbn [ser_array with_]. unfold traverse.
  apply (reads_framed any E wf). unfold ap. rewrite Hb, Hv. apply reads_getv. cbn beta iota.
  eapply reads_eq; [|apply app_nil_r]. eapply reads_bind; [exact Hr|apply reads_ret].
Qed.

(** The new elements of an empty vector. *)
Definition elem_init : option val :=
  if defc E (TClass c) then dflt E (TClass c) else recon E (TClass c).

Lemma u_new_elems : forall d n, elem_init = Some d ->
  reads (construct_vector_data E (TClass c) n []) false [] (repeat d n) false.
Proof.
  intros d n Hd. unfold elem_init in Hd. unfold construct_vector_data.
  assert (Hz : resize n d [] = repeat d n).
  { unfold resize. rewrite firstn_nil. cbn [length app]. now rewrite Nat.sub_0_r. }
  destruct (defc E (TClass c)).
  - rewrite Hd. cbn [of_opt bind]. rewrite Hz. apply reads_ret.
  - assert (Hc : reads (construct E (TClass c)) false [] d false).
    { unfold construct. rewrite Hd. apply reads_note. apply reads_ret. }
    destruct (copyc E (TClass c)).
    + rewrite <- Hz. change (@nil byte) with (@nil byte ++ []).
      eapply reads_bind; [exact Hc|]. apply reads_note, reads_ret.
    + assert (G : forall n acc, reads (foldP (fun acc _ => bind (construct E (TClass c))
          (fun d => leave E (TClass c) d (Ret (acc ++ [d])))) (repeat tt n) acc) false [] (acc ++ repeat d n) false).
      { induction n0 as [|k IH]; intros acc; cbn [repeat foldP].
        - rewrite app_nil_r. apply reads_ret.
        - change (@nil byte) with (@nil byte ++ []). eapply reads_bind.
          + change (@nil byte) with (@nil byte ++ []).
            eapply reads_bind; [exact Hc|apply reads_leave, reads_ret].
          + eapply reads_eq; [|reflexivity]. specialize (IH (acc ++ [d])).
            now rewrite <- app_assoc in IH. }
      apply (G n []).
Qed.

Lemma init_target : forall x d, has_ty E (TClass c) x -> elem_init = Some d ->
  target (fun _ _ => True) E (TClass c) x d.
Proof.
  intros x d Hx Hd. unfold elem_init in Hd. destruct (defc E (TClass c)).
  - eapply (dflt_tgt any E wf (fun _ _ => True)); eauto.
  - eapply (recon_tgt any E wf (fun _ _ => True)); eauto.
Qed.
End First.

(** What really happens to arrays of polymorphic objects: the first element comes
    back, all others are lost and show what a newly constructed element shows. *)
Theorem C25_only_first : forall E f c cap x r s,
  wf_env any E -> is_virtual E (TClass c) = true -> has_ty E (TClass c) x ->
  elem_constructible E (TClass c) -> len (x :: r) <= cap -> cap < two64 ->
  (depth (VVec cap [x]) < f)%nat ->
  serialize E f (TVector (TClass c)) (VVec cap (x :: r)) None = Ok s ->
  exists x' d cap' n,
    deserialize E f (TVector (TClass c)) (s_bytes s) 0
    = Ok (VVec cap' (x' :: repeat d (length r)), n) /\
    copy_of x x' /\ elem_init E c = Some d.
Proof.
  intros E f c cap x r s wf Hv Hx Hc Hcap Hcap' Hd Hs.
  set (t := TVector (TClass c)) in *. set (v := VVec cap (x :: r)) in *.
  set (body := wsize E cap ++ wsize E (len (x :: r)) ++
    framed E (TClass c) (S (length r)) (encb E (TClass c) x)).
  destruct f as [|[|f]]; try (cbn in Hd; lia).
  assert (Hdx : (depth x < S f)%nat) by (cbn in Hd; lia).
  assert (Hdp : (2 <= depth x)%nat).
  { destruct (virt_obj E wf c Hv x Hx) as (_ & ls & ->). cbn [depth]. lia. }
  assert (Hsz : len (x :: r) < two64) by lia.
  assert (He : forall m, m = MPacking \/ m = MSizing ->
    emits (with_root E m (S (S f)) t v) false v false (root_frame E t body)).
  { intros m Hm. apply emits_root; auto. unfold ser.
    eapply emits_eq; [|apply app_nil_r].
    eapply emits_bind with (a := [v]) (vf1 := false); [|apply emits_ret].
    change (with_ E m (S (S f)) t [v]) with (traverse E m (with_ E m (S f)) t [v]).
    unfold traverse. apply (emits_framed E m Hm). unfold ap. cbn [t bytecopy is_virtual mapP].
    eapply emits_eq; [|apply app_nil_r].
    eapply emits_bind with (a := v) (vf1 := false); [|apply (emits_ret _ [v] false)].
    change (apply_elem E m (with_ E m (S f)) t v)
      with (ser_vector E m (with_ E m (S f)) (TClass c) cap (x :: r)).
    unfold ser_vector. rewrite (m_fp m Hm), (m_unp m Hm).
    unfold ser_vector_meta, body.
    pose proof (proj1 (pack_all any E wf m Hm (S f))) as Hrec.
    pose proof (fun y Hy => p_ser_size E (with_ E m (S f)) (S f) Hrec y Hy ltac:(lia)) as Hsize.
    rewrite app_assoc. eapply emits_bind with (a := (N.max cap cap, len (x :: r))) (vf1 := false).
    - eapply emits_bind; [apply Hsize; lia|].
      eapply emits_eq; [|apply app_nil_r].
      eapply emits_bind; [apply Hsize; exact Hsz|]. apply emits_ret.
    - cbn beta iota. cbn [bind].
      eapply emits_eq; [|apply app_nil_r].
      eapply emits_bind; [apply (p_first E wf c Hv m f x r Hm Hx Hdx)|].
      rewrite N.max_id, N.max_l by exact Hcap. apply emits_ret. }
  rewrite (serialize_bytes E _ _ _ _ _ He Hs).
  destruct (elem_init E c) as [d|] eqn:Ed.
  2:{ exfalso. unfold elem_init in Ed. unfold elem_constructible in Hc.
      destruct (defc E (TClass c)); congruence. }
  destruct (u_first E wf c Hv f x d (repeat d (length r)) Hx (init_target E wf c x d Hx Ed) Hdx)
    as (x' & Hsim & Hr). rewrite repeat_length in Hr.
  exists x', d, (N.max (N.max 0 cap) (len (x' :: repeat d (length r)))).
  exists (len (root_frame E t body)). split; [|auto].
  set (v' := VVec (N.max (N.max 0 cap) (len (x' :: repeat d (length r)))) (x' :: repeat d (length r))).
  assert (HR : reads (with_root E MUnpacking (S (S f)) t (VVec 0 [])) false (root_frame E t body)
     v' false).
  { apply (reads_root E any); auto. unfold ser.
    eapply reads_eq; [|apply app_nil_r].
    eapply reads_bind with (a := [v']) (vf1 := false); [|apply reads_ret].
    change (with_ E MUnpacking (S (S f)) t [VVec 0 []])
      with (traverse E MUnpacking (with_ E MUnpacking (S f)) t [VVec 0 []]).
    unfold traverse. apply (reads_framed any E wf). unfold ap. cbn [t bytecopy is_virtual mapP].
    eapply reads_eq; [|apply app_nil_r].
    eapply reads_bind with (a := v') (vf1 := false); [|apply (reads_ret _ [v'] false)].
    change (apply_elem E MUnpacking (with_ E MUnpacking (S f)) t (VVec 0 []))
      with (ser_vector E MUnpacking (with_ E MUnpacking (S f)) (TClass c) 0 []).
    unfold ser_vector. cbn [is_footprinting is_unpacking].
    unfold ser_vector_meta, body.
    pose proof (proj1 (unpack_all any E wf (fun _ _ => True) N.le ltac:(auto)
        ltac:(intros; lia) (S f))) as Hrec.
    rewrite app_assoc. eapply reads_bind with (a := (N.max 0 cap, len (x :: r))) (vf1 := false).
    - eapply reads_bind; [eapply u_size; eauto; lia|].
      eapply reads_eq; [|apply app_nil_r].
      eapply reads_bind; [eapply u_size; eauto; lia|]. apply reads_ret.
    - cbn beta iota. rewrite len_nat.
      change (framed E (TClass c) (S (length r)) (encb E (TClass c) x))
        with ([] ++ framed E (TClass c) (S (length r)) (encb E (TClass c) x)).
      eapply reads_bind; [apply (u_new_elems E c d _ Ed)|].
      eapply reads_eq; [|apply app_nil_r].
      eapply reads_bind; [exact Hr|]. apply reads_ret. }
  pose proof (in_place_reads E _ _ _ _ _ HR [] []) as H. cbn [app length] in H.
  rewrite app_nil_r in H. exact H.
Qed.
Print Assumptions C25_only_first.

(** The same for std::array, read over any array of as many elements: only the first
    is overwritten. *)
Theorem C25_array_only_first : forall E f c x r w ws s,
  wf_env any E -> is_virtual E (TClass c) = true -> has_ty E (TClass c) x ->
  target (fun _ _ => True) E (TClass c) x w -> length ws = length r ->
  (depth (VSeq [x]) < f)%nat ->
  serialize E f (TArray (S (length r)) (TClass c)) (VSeq (x :: r)) None = Ok s ->
  exists x' n,
    deserialize_in_place E f (TArray (S (length r)) (TClass c)) (s_bytes s) 0 (VSeq (w :: ws))
    = Ok (VSeq (x' :: ws), n) /\ copy_of x x'.
Proof.
  intros E f c x r w ws s wf Hv Hx Hw Hl Hd Hs.
  set (t := TArray (S (length r)) (TClass c)) in *. set (v := VSeq (x :: r)) in *.
  set (body := framed E (TClass c) (S (length r)) (encb E (TClass c) x)).
  destruct f as [|[|f]]; try (cbn in Hd; lia).
  assert (Hdx : (depth x < S f)%nat) by (cbn in Hd; lia).
  assert (He : forall m, m = MPacking \/ m = MSizing ->
    emits (with_root E m (S (S f)) t v) false v false (root_frame E t body)).
  { intros m Hm. apply emits_root; auto. unfold ser.
    eapply emits_eq; [|apply app_nil_r].
    eapply emits_bind with (a := [v]) (vf1 := false); [|apply emits_ret].
    change (with_ E m (S (S f)) t [v]) with (traverse E m (with_ E m (S f)) t [v]).
    unfold traverse. apply (emits_framed E m Hm). unfold ap. cbn [t bytecopy is_virtual mapP].
    eapply emits_eq; [|apply app_nil_r].
    eapply emits_bind with (a := v) (vf1 := false); [|apply (emits_ret _ [v] false)].
    change (apply_elem E m (with_ E m (S f)) t v)
      with (ser_stdarray (with_ E m (S f)) (TClass c) (x :: r)).
    unfold ser_stdarray. eapply emits_eq; [|apply app_nil_r].
    eapply emits_bind; [apply (p_first E wf c Hv m f x r Hm Hx Hdx)|]. apply emits_ret. }
  rewrite (serialize_bytes E _ _ _ _ _ He Hs).
  destruct (u_first E wf c Hv f x w ws Hx Hw Hdx) as (x' & Hsim & Hr). rewrite Hl in Hr.
  exists x', (len (root_frame E t body)). split; [|auto].
  assert (HR : reads (with_root E MUnpacking (S (S f)) t (VSeq (w :: ws))) false (root_frame E t body)
     (VSeq (x' :: ws)) false).
  { apply (reads_root E any); auto. unfold ser.
    eapply reads_eq; [|apply app_nil_r].
    eapply reads_bind with (a := [VSeq (x' :: ws)]) (vf1 := false); [|apply reads_ret].
    change (with_ E MUnpacking (S (S f)) t [VSeq (w :: ws)])
      with (traverse E MUnpacking (with_ E MUnpacking (S f)) t [VSeq (w :: ws)]).
    unfold traverse. apply (reads_framed any E wf). unfold ap. cbn [t bytecopy is_virtual mapP].
    eapply reads_eq; [|apply app_nil_r].
    eapply reads_bind with (a := VSeq (x' :: ws)) (vf1 := false);
      [|apply (reads_ret _ [VSeq (x' :: ws)] false)].
    change (apply_elem E MUnpacking (with_ E MUnpacking (S f)) t (VSeq (w :: ws)))
      with (ser_stdarray (with_ E MUnpacking (S f)) (TClass c) (w :: ws)).
    unfold ser_stdarray. eapply reads_eq; [|apply app_nil_r].
    eapply reads_bind; [exact Hr|]. apply reads_ret. }
  pose proof (in_place_reads E _ _ _ _ _ HR [] []) as H. cbn [app length] in H.
  rewrite app_nil_r in H. exact H.
Qed.
Print Assumptions C25_array_only_first.

(** vector<Shape> with two elements. *)
Definition v_two : val := VVec 2 [v_shape; VObj 1 [[w4 9; s_long]]].
Theorem C25_refuted : forall b, exists v',
  Forall (has_ty (ex b) (TClass 1)) [v_shape; VObj 1 [[w4 9; s_long]]] /\
  round_trip (ex b) 12 (TVector (TClass 1)) v_two v' /\ ~ same v_two v'.
Proof.
  intros b. exists (VVec 2 [v_shape; VObj 1 [[w4 0; VStr 15 []]]]). split; [|split].
  - destruct b; hts.
  - destruct b; (eexists; eexists; split; [vm_compute; reflexivity|vm_compute; reflexivity]).
  - intros H. inversion H; subst.
    match goal with H : Forall2 _ [_; _] _ |- _ => inversion H; subst end.
    match goal with H : Forall2 _ [_] _ |- _ => inversion H; subst end.
    match goal with H : sim _ (VObj 1 [[w4 9; _]]) _ |- _ => inversion H; subst end.
    match goal with H : Forall2 _ [[w4 9; _]] _ |- _ => inversion H; subst end.
    match goal with H : Forall2 _ [w4 9; _] _ |- _ => inversion H; subst end.
    match goal with H : sim _ (w4 9) _ |- _ => inversion H end.
Qed.
Print Assumptions C25_refuted.

Example C25_case : forall b,
  (exists cap' l', round_trip (ex b) 12 (TVector (TClass 1)) (VVec 3 [v_shape]) (VVec cap' l') /\
     Forall2 copy_of [v_shape] l') /\
  (exists s, serialize (ex b) 12 (TVector (TClass 1)) v_two None = Ok s /\
   exists x' d cap' n,
    deserialize (ex b) 12 (TVector (TClass 1)) (s_bytes s) 0 = Ok (VVec cap' (x' :: repeat d 1), n) /\
    copy_of v_shape x' /\ elem_init (ex b) 1 = Some d) /\
  (exists s, serialize (ex b) 12 (TArray 2 (TClass 1)) (VSeq [v_shape; VObj 1 [[w4 9; s_long]]]) None = Ok s /\
   exists x' n,
    deserialize_in_place (ex b) 12 (TArray 2 (TClass 1)) (s_bytes s) 0
      (VSeq [VObj 1 [[w4 1; VStr 15 []]]; VObj 1 [[w4 5; s_long]]])
    = Ok (VSeq [x'; VObj 1 [[w4 5; s_long]]], n) /\ copy_of v_shape x').
Proof.
  intros b. split; [|split].
  - apply (C25_short_arrays_partial (ex b) 12 1 1 3 [v_shape]); auto;
      try (apply ex_wf; exact I); try (destruct b; vm_compute; reflexivity);
      try (destruct b; vm_compute; discriminate); try (vm_compute; lia).
    destruct b; hts.
  - destruct (serialize (ex b) 12 (TVector (TClass 1)) v_two None) as [s|e] eqn:Es.
    2:{ exfalso. destruct b; vm_compute in Es; discriminate. }
    exists s. split; [reflexivity|].
    apply (C25_only_first (ex b) 12 1 2 v_shape [VObj 1 [[w4 9; s_long]]] s).
    + apply ex_wf; exact I.
    + reflexivity.
    + destruct b; ht.
    + destruct b; vm_compute; discriminate.
    + vm_compute. discriminate.
    + reflexivity.
    + vm_compute. lia.
    + exact Es.
  - destruct (serialize (ex b) 12 (TArray 2 (TClass 1)) (VSeq [v_shape; VObj 1 [[w4 9; s_long]]]) None)
      as [s|e] eqn:Es.
    2:{ exfalso. destruct b; vm_compute in Es; discriminate. }
    exists s. split; [reflexivity|].
    apply (C25_array_only_first (ex b) 12 1 v_shape [VObj 1 [[w4 9; s_long]]]
      (VObj 1 [[w4 1; VStr 15 []]]) [VObj 1 [[w4 5; s_long]]] s).
    + apply ex_wf; exact I.
    + reflexivity.
    + destruct b; ht.
    + constructor; [reflexivity|]. destruct b; repeat (constructor || eexists).
    + reflexivity.
    + vm_compute. lia.
    + exact Es.
Qed.

(** ** C26 *)

(** A sequence of objects handled one after the other by one serializer. *)
Definition in_turn (E : env) (m : mode) (f : nat) (l : list (ty * val)) : prog (list val) :=
  mapP (fun p => ser (with_ E m f) (fst p) (snd p)) l.

(** Each object reached through a polymorphic reference runs the functions of its
    own dynamic class, whatever was handled before it.
    Missing from the full statement: classes that are polymorphic and declared
    byte-copyable, for which it is false (C26_refuted). *)
Theorem C26_no_leak_partial : forall E H m f l s a vf s' log,
  wf_env any E -> no_bytewise_virtual E -> honest H ->
  interp (logger H) (in_turn E m f l) false (s, []) = Ok (a, vf, (s', log)) ->
  vf = false /\
  exists logs, log = concat logs /\
    Forall2 (fun p lg => forall c d ls, p = (TClass c, VObj d ls) -> is_virtual E (TClass c) = true ->
               outer 0 lg = chain E d) l logs.
Proof.
  intros E H m f l s a vf s' log wf nobv Hh Hi.
  assert (G : forall l s l0 a vf s' log,
    interp (logger H) (in_turn E m f l) false (s, l0) = Ok (a, vf, (s', log)) ->
    vf = false /\ exists logs, log = l0 ++ concat logs /\
    Forall2 (fun p lg => forall c d ls, p = (TClass c, VObj d ls) -> is_virtual E (TClass c) = true ->
               outer 0 lg = chain E d) l logs).
  { clear - wf nobv Hh. induction l as [|[t v] l IH]; intros s l0 a vf s' log Hi.
    - inversion Hi; subst. split; auto. exists []. split; [now rewrite app_nil_r|constructor].
    - cbn [in_turn mapP fst snd] in Hi. apply interp_bind_inv in Hi.
      destruct Hi as (x & vf1 & [s1 l1] & H1 & H2).
      apply interp_bind_inv in H2. destruct H2 as (xs & vf2 & [s2 l2] & H2 & H3).
      inversion H3; subst; clear H3.
      assert (Hq : quiet false false _ (ser (with_ E m f) t v)).
      { unfold ser. eapply runs_bind; [apply (quiet_with any E wf nobv)| |apply balanced_app].
        intros [|y [|? ?]]; try (intros ? ? ? ? ? ? ? ? Hi; discriminate). apply runs_ret, balanced_nil. }
      destruct (Hq H Hh _ _ _ _ _ _ H1) as (-> & x1 & -> & _).
      destruct (IH _ _ _ _ _ _ H2) as (-> & logs & -> & HF). split; auto.
      exists (x1 :: logs). split; [cbn [concat]; now rewrite app_assoc|]. constructor; auto.
      intros c d ls Hp Hv. inversion Hp; subst.
      destruct (ref_calls any E wf nobv m f c d ls Hv H Hh _ _ _ _ _ _ H1) as (_ & x2 & Hx2 & Hc).
      apply app_inv_head in Hx2. subst x2. specialize (Hc []).
      cbn [outer] in Hc. now rewrite !app_nil_r in Hc. }
  destruct (G l s [] a vf s' log Hi) as (Hvf & logs & Hl & HF). split; auto. exists logs. auto.
Qed.
Print Assumptions C26_no_leak_partial.

(** A Circle, a string and a Box. *)
Example C26_case : forall b,
  seen (interp (logger footprinter) (in_turn (ex_plain b) MFootprinting 12
    [(TClass 1, v_circle); (TString, s_ab); (TClass 1, v_box)]) false (0, []))
  = Some [1; 2; 1; 4]%nat.
Proof. intros b. destruct b; vm_compute; reflexivity. Qed.

Definition v_flat : val := VObj 6 [[w4 1; s_ab]; [w4 2]].
(** After a Flat the flag stays set: of the Circle that follows only the part of
    its base class is serialized, and its own members are lost without any error. *)
Theorem C26_refuted : forall b, exists s v' n,
  serialize (ex b) 12 t_shapes (VVec 2 [VOpt (Some v_flat); VOpt (Some v_circle)]) None = Ok s /\
  deserialize (ex b) 12 t_shapes (s_bytes s) 0 = Ok (v', n) /\
  v' = VVec 2 [VOpt (Some v_flat); VOpt (Some (VObj 2 [[w4 11; s_ab]; [w8 0; VSeq []]]))] /\
  v_circle = VObj 2 [[w4 11; s_ab]; [w8 12; VSeq []]].
Proof.
  intros b. destruct b;
    (eexists; eexists; eexists; split; [vm_compute; reflexivity|
       split; [vm_compute; reflexivity|split; [reflexivity|reflexivity]]]).
Qed.
Print Assumptions C26_refuted.
