(** C61: calls made while static initialisers are still running. *)
From Coq Require Import List NArith Arith Bool Lia.
From Coq.Strings Require Import Byte.
From Verif Require Import Base Syntax Prog ProgFacts Serializers Traverse Api Registry RegistryFacts IO Spec
  ValFacts EnvFacts ApiFacts ApiInv LayoutFacts PropTypes PropVirtual Startup Grow Examples Fails PropMemory PropGrow.
Import ListNotations.
Local Open Scope N_scope.

(** ** The types and classes involved have been registered *)

(** [types], [regs]: the types and polymorphic classes registered so far; [types'], [regs']:
    those that follow.  The former make up a program by themselves. *)
Record ready (E : env) (types types' : list ty) (regs regs' : list nat) : Prop := {
  y_types : NoDup (types ++ types');
  y_words : In SIZE types /\ In BOOL types /\ In INT types /\ In CHAR types;
  y_parts : forall t, In t types -> Forall (fun u => In u types) (parts t);
  y_class : forall c, In (TClass c) types -> exists k, cls E c = Some k /\
    Forall (fun u => In u types) (cfields k) /\ (forall p, cparent k = Some p -> In (TClass p) types);
  y_regs : forall c, In c regs -> In (TClass c) types;
  y_later : forall c, In c regs' -> ~ In (TClass c) types
}.

(** The program that has only the types and classes registered so far. *)
Definition so_far (E : env) (types : list ty) (regs : list nat) : env := {|
  cls := fun c => if existsb (ty_eqb (TClass c)) types then cls E c else None;
  szof := szof E;
  tix := fun t => match get_type_idx (treg_of types) t with Some i => i | None => type_index 65535 end;
  chk := chk E; asserts := asserts E; defc := defc E; copyc := copyc E; movec := movec E;
  less := less E; keq := keq E; hplace := hplace E;
  oreg := fun r => map oe_class (or_reg (oregs_of (root E) regs) r)
|}.

Section Ready.
Variable E : env.
Variables types types' : list ty.
Variables regs regs' : list nat.
Hypothesis Y : ready E types types' regs regs'.
Local Notation early := (at_startup E types regs).
Local Notation late := (at_startup E (types ++ types') (regs ++ regs')).
Local Notation only := (so_far E types regs).

Lemma exists_in : forall c, existsb (ty_eqb (TClass c)) types = true <-> In (TClass c) types.
Proof.
  intros c. rewrite existsb_exists. split.
  - intros (x & Hx & He). apply ty_eqb_eq in He. congruence.
  - intros H. exists (TClass c). split; [exact H|apply ty_eqb_refl].
Qed.

Lemma registered : forall t l', NoDup (types ++ l') -> In t types ->
  exists i, get_type_idx (treg_of types) t = Some i /\ get_type_idx (treg_of (types ++ l')) t = Some i.
Proof.
  intros t l' Hn Hin. destruct (In_nth_error _ _ Hin) as (i & Hi).
  pose proof (treg_idx types i t (nodup_front _ _ Hn) Hi) as Hx.
  eexists. split; [exact Hx|]. rewrite C60_type_ids; auto.
Qed.

Lemma only_grows : forall l lc, NoDup (types ++ l) -> (forall c, In c lc -> ~ In (TClass c) types) ->
  grows (fun t => In t types) only (at_startup E (types ++ l) (regs ++ lc)).
Proof.
  intros l lc Hn Hlc. split.
  - apply (y_words _ _ _ _ _ Y).
  - apply (y_parts _ _ _ _ _ Y).
  - intros c H. cbn [cls so_far]. rewrite (proj2 (exists_in c) H).
    destruct (y_class _ _ _ _ _ Y c H) as (k & Hk & _). congruence.
  - intros c k H. cbn [cls so_far at_startup] in *.
    destruct (existsb (ty_eqb (TClass c)) types) eqn:He; [|discriminate].
    apply exists_in in He. destruct (y_class _ _ _ _ _ Y c He) as (k' & Hk & Hf & Hp).
    assert (k' = k) by congruence. subst k'. split; [exact H|]. split; [exact He|]. split; [exact Hf|].
    intros p Hp'. specialize (Hp p Hp'). rewrite (proj2 (exists_in p) Hp).
    destruct (y_class _ _ _ _ _ Y p Hp) as (k'' & Hk'' & _). congruence.
  - intros t H. cbn [tix so_far at_startup]. unfold type_idx_at.
    destruct (registered t l Hn H) as (i & -> & ->). reflexivity.
  - reflexivity.
  - reflexivity.
  - reflexivity.
  - reflexivity.
  - reflexivity.
  - reflexivity.
  - reflexivity.
  - reflexivity.
  - reflexivity.
  - intros r. cbn [oreg so_far at_startup cls]. split.
    + intros d Hd. rewrite or_reg_classes in Hd. apply filter_In in Hd. destruct Hd as [Hd _].
      apply (y_regs _ _ _ _ _ Y) in Hd. rewrite (proj2 (exists_in d) Hd).
      destruct (y_class _ _ _ _ _ Y d Hd) as (k & Hk & _). congruence.
    + rewrite !or_reg_classes, filter_app. eexists. split; [reflexivity|].
      intros d Hd. apply filter_In in Hd. destruct Hd as [Hd _].
      destruct (existsb (ty_eqb (TClass d)) types) eqn:He; [|reflexivity].
      apply exists_in in He. destruct (Hlc d Hd He).
Qed.

Lemma early_grows : grows (fun t => In t types) only early.
Proof.
  replace early with (at_startup E (types ++ []) (regs ++ [])) by now rewrite !app_nil_r.
  apply only_grows; [|intros c []]. rewrite app_nil_r.
  exact (nodup_front _ _ (y_types _ _ _ _ _ Y)).
Qed.
Lemma late_grows : grows (fun t => In t types) only late.
Proof. apply only_grows; [apply (y_types _ _ _ _ _ Y)|apply (y_later _ _ _ _ _ Y)]. Qed.

(** The call does the same now and later, unless it involves something else. *)
Definition now_as_later {A} (call : env -> res A) : Prop :=
  call only = Err RangeErr \/ call only = Err Stuck \/
  (call early = call only /\ call late = call only).

Lemma as_later : forall A (call : env -> res A),
  (forall E', grows (fun t => In t types) only E' -> same_unless_refused (call only) (call E')) ->
  now_as_later call.
Proof.
  intros A call H. destruct (H _ early_grows) as [He|[He|He]]; [now left|right; now left|].
  destruct (H _ late_grows) as [Hl|[Hl|Hl]]; [now left|right; now left|right; now right].
Qed.

Theorem C61_registered_partial : forall f t, In t types ->
  (forall v, now_as_later (fun E => get_size E f t v)) /\
  (forall v off, now_as_later (fun E => get_footprint E f t v off)) /\
  (forall v fn, now_as_later (fun E => serialize E f t v fn)) /\
  (forall mem off, now_as_later (fun E => deserialize E f t mem off)) /\
  (forall mem off w, now_as_later (fun E => deserialize_in_place E f t mem off w)) /\
  (forall v o, now_as_later (fun E => serialize_to_stream E f t v o)) /\
  (forall i, now_as_later (fun E => deserialize_from_stream E f t i)) /\
  (forall i w, now_as_later (fun E => deserialize_in_place_from_stream E f t i w)).
Proof.
  intros f t Ht.
  split; [|split; [|split; [|split; [|split; [|split; [|split]]]]]]; intros; apply as_later; intros E' G.
  - now apply (C60_size _ _ _ G).
  - now apply (C60_footprint _ _ _ G).
  - now apply (C60_serialize _ _ _ G).
  - now apply (C60_deserialize _ _ _ G).
  - now apply (C60_in_place _ _ _ G).
  - now apply (C60_to_stream _ _ _ G).
  - now apply (C60_from_stream _ _ _ G).
  - now apply (C60_in_place_from_stream _ _ _ G).
Qed.

(** Written early, restored later: every value of the types and classes registered so far. *)
Theorem C61_exchange_partial : forall f t v, wf_env any only -> In t types ->
  has_ty only t v -> constructible only t -> (depth v < f)%nat -> len (enc_root only t v) < two64 ->
  exists s v' n, serialize early f t v None = Ok s /\ serialize late f t v None = Ok s /\
    deserialize early f t (s_bytes s) 0 = Ok (v', n) /\
    deserialize late f t (s_bytes s) 0 = Ok (v', n) /\ same v v'.
Proof.
  intros f t v wf Hin Ht Hc Hd Hl.
  destruct (C60_exchange_partial _ _ _ early_grows f t v wf Hin Ht Hc Hd Hl)
    as (s & v' & n & H1 & H2 & H3 & H4 & Hs).
  destruct (C60_exchange_partial _ _ _ late_grows f t v wf Hin Ht Hc Hd Hl)
    as (s2 & v2 & n2 & K1 & K2 & K3 & K4 & _).
  assert (s2 = s) by congruence. subst s2. exists s, v', n.
  split; [exact H2|]. split; [exact K2|]. split; [exact H4|]. split; [congruence|exact Hs].
Qed.
End Ready.
Print Assumptions C61_registered_partial.
Print Assumptions C61_exchange_partial.

(** ** Dynamic dispatch *)
Section Dispatch.
Variable E : env.
Variable o : oregs.
Variable ss : list nat.
Variable s : nat.
Variable rec : ty -> list val -> prog (list val).

Lemma early_link_link : forall r x d, sinv (root E) r -> sr_idx r d x <> None ->
  sr_idx r (root E d) x <> None -> early_link E r x d (root E d) = Ok (link r x d (root E d)).
Proof.
  intros r x d Hi Hd Hb. unfold early_link, link.
  destruct (sr_idx r d x) as [i|] eqn:Ei; [|congruence].
  destruct (sr_idx r (root E d) x) as [j|]; [|congruence]. cbn [static_idx].
  destruct (si_idx _ _ Hi _ _ _ Ei) as (e & He & _). now rewrite He.
Qed.
Lemma early_link_all_link : forall l r d, sinv (root E) r ->
  (forall x, In x l -> sr_idx r d x <> None /\ sr_idx r (root E d) x <> None) ->
  early_link_all E l r d = Ok (link_all (root E) l r d).
Proof.
  intros l. induction l as [|x l IH]; intros r d Hi H; [reflexivity|]. cbn [early_link_all].
  rewrite early_link_link; [|assumption|apply H; now left|apply H; now left].
  rewrite IH; [reflexivity|now apply sinv_link|].
  intros y Hy. rewrite link_idx. apply H. now right.
Qed.

Definition all_there (r : sregs) (c : nat) : Prop :=
  (forall x, In x ss -> sr_idx r c x <> None /\ sr_idx r (root E c) x <> None) /\ or_idx o c <> None.

Lemma early_dyn_ser_same : forall n c i ex v r, sinv (root E) r ->
  (forall c', In c' (chain_n n E c) -> all_there r c') ->
  early_dyn_ser E o ss s rec n c i ex v r = dyn_ser E o ss s rec n c i ex v r.
Proof.
  intros n. induction n as [|n IH]; intros c i ex v r Hi H; [reflexivity|].
  cbn [early_dyn_ser dyn_ser chain_n] in *. destruct (cls E c) as [k|]; [|reflexivity].
  assert (Hc : all_there r c).
  { apply H. destruct (cparent k); [apply in_or_app; right; now left|now left]. }
  rewrite early_link_all_link; [|assumption|apply Hc].
  assert (Ha : early_assert_idx E o c ex = assert_idx E o c ex).
  { unfold early_assert_idx, assert_idx. destruct ex; auto. destruct Hc as [_ Hc].
    destruct (or_idx o c); [reflexivity|congruence]. }
  rewrite Ha. cbv zeta. destruct (cparent k) as [p|] eqn:Ep; [|reflexivity].
  rewrite IH.
  - destruct (cls E p) as [kp|] eqn:Ekp.
    + assert (Hp : n <> O -> or_idx o p <> None).
      { intros Hn. destruct n as [|n]; [congruence|]. apply H. cbn [chain_n]. rewrite Ekp.
        destruct (cparent kp); apply in_or_app; left; [apply in_or_app; right; now left|now left]. }
      destruct n as [|n]; [reflexivity|]. specialize (Hp (Nat.neq_succ_0 n)).
      destruct (or_idx o p); [reflexivity|congruence].
    + destruct n as [|n]; [reflexivity|]. cbn [dyn_ser]. now rewrite Ekp.
  - now apply link_all_inv.
  - intros c' Hc'. unfold all_there. rewrite link_all_idx.
    apply (H c'). apply in_or_app. now left.
Qed.
End Dispatch.

(** The serializer entries and the class indices of the whole chain have been registered: the
    program run is the same as after startup. *)
Theorem C61_dispatch_partial : forall E ops objs ss s rec d ls, NoDup (regs_of ops) -> In s ss ->
  (forall c, In c (chain E d) -> In c objs /\
     forall x, In x ss -> In (c, x) (regs_of ops) /\ In (root E c, x) (regs_of ops)) ->
  NoDup objs ->
  let o := oregs_of (root E) objs in
  let r := run_sops (root E) ops in
  early_virtual_serialize E o ss s rec (VObj d ls) r = virtual_serialize E o ss s rec (VObj d ls) r.
Proof.
  intros E ops objs ss s rec d ls Hn Hs H Ho o r.
  assert (Hinv : sinv (root E) r) by now apply run_inv.
  assert (Ht : forall c, In c (chain E d) -> all_there E o ss r c).
  { intros c Hc. destruct (H c Hc) as (H1 & H2). split.
    - intros x Hx. destruct (H2 x Hx). split; now apply run_idx.
    - destruct (or_idx_lookup (root E) objs c Ho H1) as (j & Hj & _). unfold o. congruence. }
  unfold early_virtual_serialize, virtual_serialize.
  rewrite early_dyn_ser_same; [|exact Hinv|exact Ht].
  destruct (sr_idx r (root E d) s) as [i|] eqn:Ei; [reflexivity|].
  cbn [static_idx dyn_ser]. destruct (cls E d) as [k|] eqn:Ek; [|reflexivity].
  exfalso. assert (Hd : In d (chain E d)).
  { unfold chain. cbn [chain_n]. rewrite Ek. destruct (cparent k); [apply in_or_app; right; now left|now left]. }
  destruct (Ht d Hd) as [Hx _]. destruct (Hx s Hs). congruence.
Qed.
Print Assumptions C61_dispatch_partial.

(** ** Types that have not been registered *)

Lemma zero_refused : forall E u f w,
  fails (with_root E MUnpacking (S f) u w) false (le 4 0) (SerErr 0 [WrongType (tix E u) 0 (tix E u)]).
Proof.
  intros E u f w.
  assert (Hh : forall vf, fails (with_type_idx E MUnpacking u) vf (le 4 0) (SerErr 0 [WrongType (tix E u) 0 (tix E u)])).
  { intros vf. unfold with_type_idx. rewrite <- (app_nil_r (le 4 0)).
    apply fails_contig; [now rewrite !le_length|]. apply fails_fail. }
  unfold with_root. destruct (chk E) eqn:Ec.
  - apply fl_ser. cbn [with_]. unfold traverse. rewrite Ec. apply fails_bind_l. apply Hh.
  - apply fails_bind_l. apply Hh.
Qed.

Lemma treg_idx_in : forall l t, get_type_idx (treg_of l) t <> None -> In t l.
Proof.
  intros l t. induction l as [|x l IH] using rev_ind; [intros H; now destruct H|].
  rewrite treg_snoc. unfold get_type_idx in *. cbn [tr_idx treg_add find_ty].
  destruct (ty_eqb x t) eqn:Ex; intros H; apply in_or_app.
  - right. left. now apply ty_eqb_eq.
  - left. auto.
Qed.

(** The object is written without complaint, but what is written is refused by every
    program at any time, whatever type it is read as; and what others wrote is refused too. *)
Theorem C61_unregistered : forall E types regs t, ~ In t types -> let early := at_startup E types regs in
  (forall f v s, serialize early f t v None = Ok s ->
     forall E' f' u before after,
     (constructible E' u ->
      deserialize E' (S f') u (before ++ s_bytes s ++ after) (length before) = Err (SerErr 0 [WrongType (tix E' u) 0 (tix E' u)])) /\
     (forall w, deserialize_in_place E' (S f') u (before ++ s_bytes s ++ after) (length before) w
                = Err (SerErr 0 [WrongType (tix E' u) 0 (tix E' u)]))) /\
  (forall f z before after, z < 2 ^ 32 ->
     (constructible early t ->
      deserialize early (S f) t (before ++ le 4 z ++ after) (length before) = Err (SerErr 0 [WrongType 0 z 0])) /\
     (forall w, deserialize_in_place early (S f) t (before ++ le 4 z ++ after) (length before) w
                = Err (SerErr 0 [WrongType 0 z 0]))).
Proof.
  intros E types regs t Hin early.
  assert (Hz : tix early t = 0).
  { cbn [tix early at_startup]. unfold type_idx_at.
    destruct (get_type_idx (treg_of types) t) eqn:Eg; [|reflexivity].
    exfalso. apply Hin. apply (treg_idx_in types t). congruence. }
  split.
  - intros f v s Hs E' f' u before after.
    apply serialize_inv in Hs. destruct Hs as (v1 & n & v2 & vf2 & _ & He & _).
    apply root_inv in He; [|now left]. destruct He as (body & ->). unfold root_frame. rewrite Hz.
    assert (H : forall w, deserialize_in_place E' (S f') u
      (before ++ (le 4 0 ++ body ++ le 8 (wrap64 (sizeof early t))) ++ after) (length before) w
      = Err (SerErr 0 [WrongType (tix E' u) 0 (tix E' u)])).
    { intros w. rewrite <- app_assoc. apply in_place_fails. apply zero_refused. }
    split; [|exact H]. intros Hc. unfold deserialize, constructible in *.
    destruct (recon E' u); [apply H|congruence].
  - intros f z before after Hlt.
    assert (H : forall w, deserialize_in_place early (S f) t
      (before ++ le 4 z ++ after) (length before) w = Err (SerErr 0 [WrongType 0 z 0])).
    { intros w. destruct (N.eq_dec z 0) as [->|Hne].
      - rewrite <- Hz at 2 4. apply in_place_fails. apply zero_refused.
      - rewrite <- Hz. apply in_place_fails. apply wrong_root; [exact Hlt|]. now rewrite Hz. }
    split; [|exact H]. intros Hc. unfold deserialize, constructible in *.
    destruct (recon early t); [apply H|congruence].
Qed.
Print Assumptions C61_unregistered.

(** ** Cases *)

(** The initialisers of the example program have run for these types and classes; the class
    Ring, one more class and a type follow. *)
Definition first_types : list ty :=
  [SIZE; TString; BOOL; CHAR; OINT; DBL; INT; TUnique (TClass 1); TClass 1; TClass 4; TClass 2;
   TVector (TUnique (TClass 1)); TArray 2 OINT; TPair OINT TString;
   TAssoc (AOrd false true) (TPair OINT TString)].
Definition more_types : list ty := [TClass 3; TClass 7; TVector DBL; TClass 0; TVector TString].
Definition full (b : bool) : env := program b true false (first_types ++ more_types) [2; 1; 4; 3; 7]%nat.

Lemma full_ready : forall b, ready (full b) first_types more_types [2; 1; 4]%nat [3; 7]%nat.
Proof.
  intros b. split.
  - unfold first_types, more_types. cbn [app].
    repeat (constructor; [cbn [In]; intuition discriminate|]). constructor.
  - cbn. auto 30.
  - intros t H. cbn [first_types In] in H.
    repeat (destruct H as [<-|H]; [cbn [parts CHAR BOOL]; repeat (apply Forall_nil || apply Forall_cons); cbn; auto 30|]). destruct H.
  - intros c H. cbn [first_types In] in H.
    repeat (destruct H as [H|H]; [first [discriminate H|inversion H; subst c; eexists; split; [reflexivity|];
      split; [cbn [cfields cShape cCircle cBox]; repeat (apply Forall_nil || apply Forall_cons); cbn; auto 30
             |intros p Hp; first [discriminate Hp|inversion Hp; cbn; auto 30]]]|]).
    destruct H.
  - intros c H. cbn in H. repeat (destruct H as [<-|H]; [cbn; auto 30|]). destruct H.
  - intros c H. cbn in H. repeat (destruct H as [<-|H]; [cbn; intuition discriminate|]). destruct H.
Qed.
Lemma full_wf : forall b, wf_env any (so_far (full b) first_types [2; 1; 4]%nat).
Proof.
  intros b. split.
  - intros c k p H Hp.
    do 8 (destruct c as [|c]; [first [discriminate H|inversion H; subst; cbn in Hp; try discriminate Hp;
      inversion Hp; subst;
      (split; [lia|split; [reflexivity|eexists; split; reflexivity]])]|]).
    discriminate H.
  - intros c k ls H Hl.
    do 8 (destruct c as [|c]; [first [discriminate H|inversion H; subst; cbn in Hl;
      destruct Hl as [Hl|[Hl|Hl]]; try discriminate Hl; inversion Hl; subst; clear Hl H;
      cbn; repeat (first [ constructor; [eexists; split; [reflexivity|cbn;
        repeat (first [constructor; [fields; auto|] | apply Forall2_nil])]|] | apply Forall2_nil ])]|]).
    discriminate H.
  - intros t. cbn [tix so_far].
    destruct (get_type_idx (treg_of first_types) t) as [i|] eqn:E.
    + apply find_ty_index in E. destruct E as (j & ->). split; [apply type_index_bound|].
      pose proof (type_index_valid j) as H. unfold validate_index in H.
      apply N.eqb_eq in H. symmetry. exact H.
    + split; vm_compute; reflexivity.
  - intros t v v' w w' H H'. cbn. now rewrite (ekey_same _ _ H), (ekey_same _ _ H').
  - intros t v v' w w' H H'. cbn. now rewrite (ekey_same _ _ H), (ekey_same _ _ H').
  - intros. cbn. apply Permutation.Permutation_refl.
  - intros r. cbn [oreg so_far]. rewrite or_reg_classes. apply NoDup_filter.
    repeat (constructor; [cbn; intuition lia|]). constructor.
  - exact I.
Qed.
Example C61_case : forall b, let t := TVector (TUnique (TClass 1)) in
  let v := VVec 2 [VOpt (Some v_circle); VOpt (Some v_box)] in
  let early := at_startup (full b) first_types [2; 1; 4]%nat in
  let late := at_startup (full b) (first_types ++ more_types) [2; 1; 4; 3; 7]%nat in
  In t first_types /\ wf_env any (so_far (full b) first_types [2; 1; 4]%nat) /\
  exists s v' n, serialize early 12 t v None = Ok s /\ serialize late 12 t v None = Ok s /\
    deserialize early 12 t (s_bytes s) 0 = Ok (v', n) /\ deserialize late 12 t (s_bytes s) 0 = Ok (v', n).
Proof.
  intros b. cbv zeta. split; [cbn; auto 30|]. split; [apply full_wf|].
  destruct b; eexists; eexists; eexists.
  - split; [vm_compute; reflexivity|]. split; [vm_compute; reflexivity|].
    split; [vm_compute; reflexivity|vm_compute; reflexivity].
  - split; [vm_compute; reflexivity|]. split; [vm_compute; reflexivity|].
    split; [vm_compute; reflexivity|vm_compute; reflexivity].
Qed.

(** A type whose initialiser has not run: written, but unreadable at any time. *)
Example C61_unregistered_case : forall b, let t := TVector TString in
  let early := at_startup (full b) first_types [2; 1; 4]%nat in
  let late := at_startup (full b) (first_types ++ more_types) [2; 1; 4; 3; 7]%nat in
  ~ In t first_types /\
  exists s, serialize early 9 t (VVec 1 [s_ab]) None = Ok s /\
    reported 0 (deserialize early 9 t (s_bytes s) 0) /\ reported 0 (deserialize late 9 t (s_bytes s) 0).
Proof.
  intros b. cbv zeta. split; [cbn; intuition discriminate|]. destruct b; eexists.
  - split; [vm_compute; reflexivity|]. split; [vm_compute; reflexivity|vm_compute; reflexivity].
  - split; [vm_compute; reflexivity|]. split; [vm_compute; reflexivity|vm_compute; reflexivity].
Qed.

(** A class whose initialiser has not run while those of all types have: an object behind a
    pointer is written with the index of the first class, as which it is later restored.  The
    statement in full would have the call refuse the object or the data be readable. *)
Theorem C61_class_refuted : exists E types regs regs' f t v s v' n,
  let early := at_startup E types regs in
  let late := at_startup E types (regs ++ regs') in
  NoDup types /\ NoDup (regs ++ regs') /\ In t types /\ has_ty late t v /\
  serialize early f t v None = Ok s /\
  deserialize late f t (s_bytes s) 0 = Ok (v', n) /\ ~ same v v'.
Proof.
  exists (old_program false), old_types, [4]%nat, [2; 1; 3; 7]%nat, 12%nat,
    (TUnique (TClass 1)), (VOpt (Some v_disc_old)).
  eexists. eexists. eexists. cbv zeta.
  split; [unfold old_types; repeat (constructor; [cbn [In]; intuition discriminate|]); constructor|].
  split; [cbn; repeat (constructor; [cbn; intuition congruence|]); constructor|].
  split; [cbn; auto 30|]. split; [ht|].
  split; [vm_compute; reflexivity|]. split; [vm_compute; reflexivity|].
  intros H. inversion H; subst. match goal with K : sim _ _ (VObj _ _) |- _ => inversion K end.
Qed.
Print Assumptions C61_class_refuted.

(** The serializer entries of a derived class have not all been registered: the function of
    another serializer is called. *)
Theorem C61_dispatch_refuted : exists E ops objs ss s m f d ls,
  let o := oregs_of (root E) objs in
  let r := run_sops (root E) ops in
  NoDup (regs_of ops) /\ In s ss /\ (forall c, In c (chain E d) -> In c objs) /\
  (forall c, In c (chain E d) -> c <> d -> In (c, s) (regs_of ops)) /\
  interp sizer (early_virtual_serialize E o ss s (with_ E m f) (VObj d ls) r) false 0 = Err UB.
Proof.
  exists (ex_plain false), [SReg 1 0; SReg 1 1; SReg 2 0]%nat, [1; 2]%nat, [0; 1]%nat, 1%nat,
    MSizing, 12%nat, 2%nat, [[w4 11; s_ab]; [w8 12; VSeq []]].
  cbv zeta. split; [cbn; repeat (constructor; [cbn; intuition congruence|]); constructor|].
  split; [cbn; auto|]. split; [cbn; intuition|].
  split; [cbn; intros c [<-|[<-|[]]] Hne; [auto|congruence]|]. vm_compute. reflexivity.
Qed.
Print Assumptions C61_dispatch_refuted.

(** A call that succeeds during startup may spoil calls after startup.  The class is
    serialized by an unlisted serializer too (0, for streams of another type) and its entry
    for the first listed serializer comes last.  [r1]: the registry the early call left,
    [r2]: after the remaining registration. *)
Theorem C61_later_refuted : exists E ops objs ss s s' m f d ls x r1,
  let o := oregs_of (root E) objs in
  let r := run_sops (root E) ops in
  let late v r := virtual_serialize E o ss s' (with_ E m f) v (sreg_add r (d, s')) in
  NoDup ((d, s') :: regs_of ops) /\ In s ss /\ In s' ss /\
  (forall c, In c (chain E d) -> In c objs /\
     forall y, In y ss -> In (c, y) ((d, s') :: regs_of ops)) /\
  (* the early call does what it should *)
  interp sizer (early_virtual_serialize E o ss s (with_ E m f) (VObj d ls) r) false 0 = Ok (VObj d ls, r1, false, x) /\
  (* without it the later call would have succeeded *)
  (exists r2, interp sizer (late (VObj d ls) r) false 0 = Ok (VObj d ls, r2, false, x)) /\
  interp sizer (late (VObj d ls) r1) false 0 = Err UB.
Proof.
  exists (ex_plain false), [SReg 1 0; SReg 1 1; SReg 1 2; SReg 2 0; SReg 2 2]%nat, [1; 2]%nat, [1; 2]%nat,
    2%nat, 1%nat, MSizing, 12%nat, 2%nat, [[w4 11; s_ab]; [w8 12; VSeq []]].
  eexists. eexists. cbv zeta. split; [cbn; repeat (constructor; [cbn; intuition congruence|]); constructor|].
  split; [cbn; auto|]. split; [cbn; auto|].
  split; [cbn; intros c [<-|[<-|[]]]; (split; [auto|intros y [<-|[<-|[]]]; auto 10])|].
  split; [vm_compute; reflexivity|].
  split; [eexists; vm_compute; reflexivity|vm_compute; reflexivity].
Qed.
Print Assumptions C61_later_refuted.

(** A Ring whose hierarchy is registered for both serializers. *)
Example C61_dispatch_case :
  let E := ex_plain false in
  let ops := [SReg 3 1; SReg 2 1; SReg 2 0; SReg 3 0; SReg 1 0; SReg 1 1]%nat in
  NoDup (regs_of ops) /\
  (forall c, In c (chain E 3) -> In c [3; 1; 2]%nat /\
     forall x, In x [0; 1]%nat -> In (c, x) (regs_of ops) /\ In (root E c, x) (regs_of ops)) /\
  seen (interp (logger sizer) (early_virtual_serialize E (oregs_of (root E) [3; 1; 2]%nat) [0; 1]%nat 1
     (with_ E MSizing 12) v_ring (run_sops (root E) ops)) false (0, [])) = Some [1; 2; 3]%nat.
Proof.
  cbv zeta. split; [cbn; repeat (constructor; [cbn; intuition congruence|]); constructor|].
  split; [|vm_compute; reflexivity].
  cbn. intros c [<-|[<-|[<-|[]]]]; (split; [auto|intros x [<-|[<-|[]]]; cbn; auto 10]).
Qed.
