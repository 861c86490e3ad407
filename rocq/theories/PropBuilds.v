(** C65: programs built with and without error checking. *)
From Coq Require Import List NArith Arith Bool Lia.
From Coq.Strings Require Import Byte.
From Verif Require Import Base Syntax Prog Serializers Traverse Api Registry RegistryFacts IO Spec
  ValFacts EnvFacts ProgFacts ApiFacts ApiInv Examples PropMemory PropTypes PropGrow
  Pack Foot PropFoot.
Import ListNotations.
Local Open Scope N_scope.

(** The same program built with ([b = true]) or without error checking.  The builds number
    their types on their own ([ids]): without error checking only root objects are numbered. *)
Definition build (E : env) (b : bool) (ids : ty -> N) : env := {|
  cls := cls E; szof := szof E; tix := ids; chk := b; asserts := asserts E;
  defc := defc E; copyc := copyc E; movec := movec E; less := less E; keq := keq E;
  hplace := hplace E; oreg := oreg E |}.

Lemma unflatten_one : forall E t v b, exists x, unflatten E t [v] b = [x].
Proof. intros. cbn. destruct (obj_bytes E t v); eauto. Qed.

(** A root object that is copied byte by byte: the same in every build. *)
Definition plain_root (E : env) (m : mode) (t : ty) (v : val) : prog val :=
  bind (with_type_idx E m t) (fun _ =>
  match obj_bytes E t v with
  | Some x => Contig (concat [x]) (fun b =>
      match unflatten E t [v] b with
      | [y] => bind (with_mem_used E m t 1) (fun _ => Ret y)
      | _ => Fail Stuck
      end)
  | None => Fail Stuck
  end).

Lemma plain : forall H E m f t v vf s, bytecopy E t = true ->
  interp H (with_root E m (S f) t v) vf s = interp H (plain_root E m t v) vf s.
Proof.
  intros H E m f t v vf s Hb.
  assert (Hap : forall rec, ap E m rec t [v] =
    match obj_bytes E t v with
    | Some x => Contig (concat [x]) (fun b => Ret (unflatten E t [v] b))
    | None => Fail Stuck
    end).
  { intros rec. unfold ap. rewrite Hb. cbn [map opt_all]. now destruct (obj_bytes E t v). }
  unfold with_root, plain_root. destruct (chk E) eqn:Ec.
  - unfold ser. rewrite interp_bind. cbn [with_]. unfold traverse. rewrite Ec, Hap, !interp_bind.
    destruct (interp H (with_type_idx E m t) vf s) as [[[[] vf1] s1]|e]; auto.
    rewrite interp_bind. destruct (obj_bytes E t v) as [x|]; [|reflexivity].
    cbn [catch interp]. destruct (contig H (concat [x]) s1) as [[b s2]|e]; auto.
    destruct (unflatten_one E t v b) as (y & ->). rewrite !interp_bind. cbn [length].
    destruct (interp H (with_mem_used E m t 1) vf1 s2) as [[[[] vf3] s3]|e]; auto.
  - rewrite !interp_bind. destruct (interp H (with_type_idx E m t) vf s) as [[[[] vf1] s1]|e]; auto.
    rewrite interp_bind. unfold ser. rewrite interp_bind. cbn [with_]. unfold traverse. rewrite Ec, Hap.
    destruct (obj_bytes E t v) as [x|]; [|reflexivity].
    cbn [interp]. destruct (contig H (concat [x]) s1) as [[b s2]|e]; auto.
    destruct (unflatten_one E t v b) as (y & ->). cbn [interp]. now rewrite !interp_bind.
Qed.

Section Build.
Variable E : env.
Variable b : bool.
Variable ids : ty -> N.
Local Notation E' := (build E b ids).

Lemma bytecopy_build : forall t, bytecopy E' t = bytecopy E t.
Proof.
  induction t using ty_ind'; cbn [bytecopy]; auto.
  induction H; cbn [forallb]; auto. now rewrite H, IHForall.
Qed.
Lemma chain_n_build : forall n c, chain_n n E' c = chain_n n E c.
Proof.
  induction n; intros c; cbn [chain_n]; auto. cbn [cls build].
  destruct (cls E c) as [k|]; auto. destruct (cparent k); auto. now rewrite IHn.
Qed.
Lemma level_build : forall c, level E' c = level E c.
Proof. intros c. unfold level, chain. now rewrite chain_n_build. Qed.
Lemma map_build : forall A B (f g : A -> B) l, Forall (fun a => f a = g a) l -> map f l = map g l.
Proof. intros A B f g l H. induction H; cbn [map]; congruence. Qed.
Lemma dflt_build : forall t, dflt E' t = dflt E t.
Proof.
  induction t using ty_ind'; cbn [dflt]; auto.
  - now rewrite IHt.
  - now rewrite IHt1, IHt2.
  - now rewrite (map_build _ _ _ _ _ H).
  - rewrite bytecopy_build. destruct (bytecopy E (TVariant l)); auto.
    destruct l as [|t0 r]; auto. inversion H; subst. now rewrite H2.
Qed.
Lemma recon_build : forall t, recon E' t = recon E t.
Proof.
  induction t using ty_ind'; cbn [recon]; auto using dflt_build.
  now rewrite (map_build _ _ _ _ _ H).
Qed.
Lemma obj_bytes_build : forall t v, obj_bytes E' t v = obj_bytes E t v.
Proof. intros t v. destruct t; try reflexivity. cbn [obj_bytes]. now rewrite level_build. Qed.
Lemma obj_setbytes_build : forall t v x, obj_setbytes E' t v x = obj_setbytes E t v x.
Proof. intros t v x. destruct t; try reflexivity. cbn [obj_setbytes]. now rewrite level_build. Qed.
Lemma unflatten_build : forall t vs x, unflatten E' t vs x = unflatten E t vs x.
Proof.
  intros t. induction vs as [|v vs IH]; intros x; cbn [unflatten]; auto.
  rewrite obj_bytes_build. destruct (obj_bytes E t v); rewrite IH; auto. now rewrite obj_setbytes_build.
Qed.

Lemma plain_build : forall t H m f v vf s, bytecopy E t = true -> ids t = tix E t ->
  interp H (with_root E' m (S f) t v) vf s = interp H (with_root E m (S f) t v) vf s.
Proof.
  intros t H m f v vf s Hb Hid. rewrite (plain H E'), (plain H E) by (rewrite ?bytecopy_build; exact Hb).
  unfold plain_root, with_type_idx, with_mem_used. cbn [tix build]. rewrite Hid, obj_bytes_build, !interp_bind.
  change (sizeof E' t) with (sizeof E t).
  set (hd := match m with MPacking | MSizing => _ | _ => _ end).
  destruct (interp H hd vf s) as [[[[] vf1] s1]|e]; auto.
  destruct (obj_bytes E t v) as [x|]; auto. cbn [interp].
  destruct (contig H (concat [x]) s1) as [[y s2]|e]; auto. now rewrite unflatten_build.
Qed.

(** What an object takes does not depend on the build. *)
Lemma chain_build : forall c, chain E' c = chain E c.
Proof. intros c. apply chain_n_build. Qed.
Lemma obj_idx_build : forall c, obj_idx E' c = obj_idx E c.
Proof. intros c. unfold obj_idx, root. now rewrite chain_build. Qed.
Lemma visited_build : forall t l, visited E' t l = visited E t l.
Proof. reflexivity. Qed.

Lemma takes_build : forall f v, (depth v < f)%nat -> forall t n, takes E t v n -> takes E' t v n.
Proof.
  induction f as [|f IH]; [intros; lia|]. intros v Hd t n Ht.
  assert (L : forall t l ns, shallow f l -> Forall2 (takes E t) l ns -> Forall2 (takes E' t) l ns).
  { intros t0 l ns Hs H. induction H; constructor; inversion Hs; subst; auto. }
  assert (V : forall t l ns, shallow f l -> Forall2 (takes E t) (visited E t l) ns ->
    Forall2 (takes E' t) (visited E' t l) ns).
  { intros t0 l ns Hs. rewrite visited_build. apply L. unfold visited. destruct (is_virtual E t0); auto.
    destruct l; cbn [firstn]; auto. inversion Hs; subst. constructor; auto. }
  assert (D : forall l, (depth (VSeq l) < S f)%nat -> shallow f l).
  { intros l H. cbn [depth] in H. destruct (fold_depth l f); [lia|auto]. }
  destruct Ht; try (now constructor); try (constructor; auto; now rewrite bytecopy_build);
    try (now first [apply (TkString E')|apply (TkVecBool E')|apply (TkQueue E')|apply (TkAdaptor E')|apply (TkNone E')
      |apply (TkSome E')|apply (TkNull E')|apply (TkSharedNull E')|apply (TkRawNull E')]).
  - apply (TkVector E'); auto.
  - apply (TkList E'); auto.
  - apply (TkOrd E'); auto.
  - apply (TkHash E'); auto.
  - cbn [depth fold_right] in Hd. apply (TkPair E'); apply IH; auto; lia.
  - apply (TkTuple E'); auto. specialize (D l Hd). clear - H0 D IH. revert l D H0. generalize ns.
    induction ts as [|t ts IHts]; intros ns0 l D H; [cbn in *; inversion H; constructor|].
    destruct l as [|x l]; [cbn in *; inversion H; constructor|]. cbn [combine] in *. inversion H; subst.
    inversion D; subst. constructor; auto.
  - cbn [depth] in Hd. eapply (TkVariant E'); eauto; [now rewrite bytecopy_build|]. apply IH; auto. lia.
  - cbn [depth] in Hd. apply (TkUnique E'); auto. apply IH; auto. lia.
  - apply (TkUniqueV E'); [exact H|now rewrite obj_idx_build|]. apply IH; auto. change (S (Nat.max 1 (depth (VObj d ls))) < S f)%nat in Hd. lia.
  - cbn [depth] in Hd. apply (TkShared E'). apply IH; auto. lia.
  - cbn [depth] in Hd. apply (TkRaw E'). apply IH; auto. lia.
  - apply (TkClass E'); rewrite ?chain_build; auto.
    cbn [depth] in Hd. destruct (fold_depth2 ls f) as (Hsh & _); [lia|].
    clear - IH H2 Hsh. revert ls ns Hsh H2. induction (chain E d) as [|c1 cs IHc]; intros ls ns Hsh Hn;
      [cbn in *; inversion Hn; constructor|].
    destruct ls as [|fs ls]; [cbn in *; inversion Hn; constructor|]. cbn [combine] in *.
    inversion Hn as [|? n0 ? ns1 Hn1 Hn2]; subst. inversion Hsh as [|? ? Hsh1 Hsh2]; subst. constructor; auto.
    destruct Hn1 as (k & ms & Hk & Hb & -> & Hms). exists k, ms. repeat split; auto. cbn [fst snd] in *.
    clear - IH Hms Hsh1. induction Hms as [|i m0 is ms (t & x & Ht & Hx & Hm) _ IHm]; constructor; auto.
    exists t, x. repeat split; auto. apply IH; auto. eapply shallow_in; eauto. eapply nth_error_In; eauto.
Qed.
(** Values of a type, and well-formed programs, do not depend on the build. *)
Lemma constructible_build : forall t, constructible E t -> constructible E' t.
Proof. intros t. unfold constructible. now rewrite recon_build. Qed.
Lemma elem_constructible_build : forall t, elem_constructible E t -> elem_constructible E' t.
Proof. intros t. unfold elem_constructible, constructible. cbn [defc build]. now rewrite recon_build, ?dflt_build. Qed.
Lemma root_build : forall c, root E' c = root E c.
Proof. intros c. unfold root. now rewrite chain_build. Qed.

Lemma has_ty_build : forall f v, (depth v < f)%nat -> forall t, has_ty E t v -> has_ty E' t v.
Proof.
  induction f as [|f IH]; [intros; lia|]. intros v Hd t Ht.
  assert (L : forall t l, shallow f l -> Forall (has_ty E t) l -> Forall (has_ty E' t) l).
  { intros t0 l Hs H. induction H; constructor; inversion Hs; subst; auto. }
  assert (L2 : forall ts l, shallow f l -> Forall2 (has_ty E) ts l -> Forall2 (has_ty E') ts l).
  { intros ts l Hs H. induction H; constructor; inversion Hs; subst; auto. }
  assert (D : forall l, (depth (VSeq l) < S f)%nat -> shallow f l).
  { intros l H. cbn [depth] in H. destruct (fold_depth l f); [lia|auto]. }
  pose proof constructible_build as K. pose proof elem_constructible_build as K1.
  destruct Ht; try (specialize (D l Hd)); try (cbn [depth] in Hd).
  - now apply (HtPrim E').
  - now apply (HtEnum E').
  - now apply (HtChrono E').
  - now apply (HtString E').
  - apply (HtVector E'); auto.
  - now apply (HtVecBool E').
  - apply (HtArray E'); auto.
  - apply (HtList E'); auto.
  - apply (HtQueue E'); auto.
  - apply (HtOrd E'); auto.
  - apply (HtHash E'); auto.
  - cbn [fold_right] in Hd. apply (HtPair E'); apply IH; auto; lia.
  - apply (HtTuple E'); auto.
  - apply (HtNone E').
  - apply (HtSome E'); auto. apply IH; auto; lia.
  - eapply (HtVariant E'); eauto; [now rewrite bytecopy_build|]. apply IH; auto; lia.
  - apply (HtVariantB E'); auto. now rewrite bytecopy_build.
  - apply (HtNull E').
  - apply (HtUnique E'); auto. apply IH; auto; lia.
  - change (S (Nat.max 1 (depth (VObj d ls))) < S f)%nat in Hd.
    eapply (HtUniqueV E'); eauto; rewrite ?chain_build, ?obj_idx_build, ?root_build; auto. apply IH; auto; lia.
  - eapply (HtClassB E'); eauto.
  - destruct (fold_depth2 ls f) as (Hsh & _); [lia|].
    apply (HtClass E'); rewrite chain_build; auto. clear - L2 H0 Hsh.
    induction H0 as [|c1 fs cs ls (k & Hk & Hb & Hw & Hf) _ IHc]; constructor; inversion Hsh; subst; auto.
    exists k. repeat split; auto; apply Hw.
Qed.

Lemma fresh_build : forall F f v, (depth v < f)%nat -> forall t, fresh F E t v -> fresh F E' t v.
Proof.
  intros F. induction f as [|f IH]; [intros; lia|]. intros v Hd t Ht.
  assert (L : forall t l, shallow f l -> Forall (fresh F E t) l -> Forall (fresh F E' t) l).
  { intros t0 l Hs H. induction H; constructor; inversion Hs; subst; auto. }
  assert (L2 : forall ts l, shallow f l -> Forall2 (fresh F E) ts l -> Forall2 (fresh F E') ts l).
  { intros ts l Hs H. induction H; constructor; inversion Hs; subst; auto. }
  assert (D : forall l, (depth (VSeq l) < S f)%nat -> shallow f l).
  { intros l H. cbn [depth] in H. destruct (fold_depth l f); [lia|auto]. }
  destruct Ht; try (specialize (D l Hd)); try (cbn [depth] in Hd).
  - now apply (FrPrim F E').
  - now apply (FrEnum F E').
  - now apply (FrChrono F E').
  - now apply (FrString F E').
  - apply (FrVector F E'); auto.
  - now apply (FrVecBool F E').
  - apply (FrArray F E'); auto.
  - apply (FrList F E'); auto.
  - apply (FrQueue F E').
  - apply (FrOrd F E').
  - apply (FrHash F E').
  - cbn [fold_right] in Hd. apply (FrPair F E'); apply IH; auto; lia.
  - apply (FrTuple F E'); auto.
  - apply (FrOptional F E').
  - apply (FrVariant F E'). now rewrite bytecopy_build.
  - apply (FrVariantNone F E'). now rewrite bytecopy_build.
  - apply (FrVariantB F E'); auto. now rewrite bytecopy_build.
  - apply (FrNull F E').
  - apply (FrUnique F E'); auto. apply IH; auto; lia.
  - eapply (FrClassB F E'); eauto.
  - destruct (fold_depth2 ls f) as (Hsh & _); [lia|].
    eapply (FrClass F E'); eauto. rewrite chain_build. clear - L2 H1 Hsh.
    induction H1 as [|c1 fs cs ls (k1 & Hk & Hf) _ IHc]; constructor; inversion Hsh; subst; auto.
    exists k1. auto.
Qed.

Lemma wf_build : forall F, wf_env F E ->
  (forall t, ids t < 2 ^ 32 /\ N.land (ids t) 4278190335 = 3724542125) -> wf_env F E'.
Proof.
  intros F wf Hids. constructor; cbn [cls tix less keq hplace oreg build]; try apply wf; auto.
  intros c k ls Hk Hc. rewrite chain_build. pose proof (wf_ctor _ _ wf c k ls Hk Hc) as H.
  clear Hk Hc. induction H as [|c1 fs cs ls (k1 & Hk1 & Hf) _ IH]; constructor; auto.
  exists k1. split; auto. induction Hf as [|t x ts fs Hx _ IHf]; constructor; auto.
  exact (fresh_build F (S (depth x)) x (Nat.lt_succ_diag_r _) t Hx).
Qed.
End Build.

(** Objects that are copied byte by byte: every call does the same in both builds, on every
    input, if both give the type the same number. *)
Theorem C65_byte_copied_partial : forall E b ids t f, bytecopy E t = true -> ids t = tix E t ->
  let E' := build E b ids in
  (forall v, get_size E' (S f) t v = get_size E (S f) t v) /\
  (forall v fn, serialize E' (S f) t v fn = serialize E (S f) t v fn) /\
  (forall mem off, deserialize E' (S f) t mem off = deserialize E (S f) t mem off) /\
  (forall mem off w, deserialize_in_place E' (S f) t mem off w = deserialize_in_place E (S f) t mem off w) /\
  (forall v o, serialize_to_stream E' (S f) t v o = serialize_to_stream E (S f) t v o) /\
  (forall i, deserialize_from_stream E' (S f) t i = deserialize_from_stream E (S f) t i) /\
  (forall i w, deserialize_in_place_from_stream E' (S f) t i w = deserialize_in_place_from_stream E (S f) t i w) /\
  (forall oracle hf page v w,
     serialize_to_file oracle hf page E' (S f) t v w = serialize_to_file oracle hf page E (S f) t v w) /\
  (forall oracle page w,
     deserialize_from_file oracle page E' (S f) t w = deserialize_from_file oracle page E (S f) t w) /\
  (forall oracle page x w,
     deserialize_in_place_from_file oracle page E' (S f) t x w =
     deserialize_in_place_from_file oracle page E (S f) t x w).
Proof.
  intros E b ids t f Hb Hid E'.
  assert (P : forall H m v vf s, interp H (with_root E' m (S f) t v) vf s = interp H (with_root E m (S f) t v) vf s)
    by (intros; now apply plain_build).
  assert (Hsz : forall v, get_size E' (S f) t v = get_size E (S f) t v)
    by (intros v; unfold get_size; now rewrite P).
  assert (Hun : forall mem off w, unpack_memory E' (S f) t mem off w = unpack_memory E (S f) t mem off w)
    by (intros; unfold unpack_memory; now rewrite P).
  assert (Hst : forall i w, deserialize_in_place_from_stream E' (S f) t i w =
                            deserialize_in_place_from_stream E (S f) t i w)
    by (intros; unfold deserialize_in_place_from_stream; now rewrite P).
  assert (Hfi : forall oracle page x w, deserialize_in_place_from_file oracle page E' (S f) t x w =
                            deserialize_in_place_from_file oracle page E (S f) t x w).
  { intros. unfold deserialize_in_place_from_file, ibind, scoped, unpack_file. destruct (setup_for_read oracle w) as [[[]|e] w1]; auto.
    now rewrite Hun. }
  split; [exact Hsz|].
  assert (Hpk : forall v n mg cs r, pack_memory E' (S f) t v n mg cs r = pack_memory E (S f) t v n mg cs r)
    by (intros; unfold pack_memory; rewrite P; cbn [tix E' build]; now rewrite Hid).
  split. { intros v fn. unfold serialize. rewrite Hsz. destruct (get_size E (S f) t v) as [[v1 n]|e]; auto.
    destruct (match fn with Some g => (g n, [n]) | None => (None, []) end) as [[r|] cs]; apply Hpk. }
  split. { intros mem off. unfold deserialize. unfold E' at 1. rewrite recon_build.
    destruct (recon E t); auto. }
  split; [exact Hun|].
  split. { intros v o. unfold serialize_to_stream. rewrite Hsz. destruct (get_size E (S f) t v) as [[v1 n]|e]; auto.
    now rewrite P. }
  split. { intros i. unfold deserialize_from_stream. unfold E' at 1. rewrite recon_build. destruct (recon E t); auto. }
  split; [exact Hst|].
  split. { intros oracle hf page v w. unfold serialize_to_file. rewrite Hsz.
    destruct (get_size E (S f) t v) as [[v1 n]|e]; auto.
    unfold ibind, scoped, pack_file, pack_mapping. destruct (setup_for_write oracle hf n w) as [[[]|e] w1]; auto.
    now rewrite P. }
  split; [|exact Hfi].
  intros oracle page w. unfold deserialize_from_file. unfold E' at 1. rewrite recon_build. destruct (recon E t); auto.
Qed.
Print Assumptions C65_byte_copied_partial.

(** If the builds give the type different numbers, the data is refused, whatever its type. *)
Theorem C65_other_number : forall E b ids t f v s f' before after,
  serialize E f t v None = Ok s -> tix E t < 2 ^ 32 -> ids t <> tix E t ->
  let E' := build E b ids in let e := SerErr 0 [WrongType (ids t) (tix E t) (ids t)] in
  (forall w, deserialize_in_place E' (S f') t (before ++ s_bytes s ++ after) (length before) w = Err e) /\
  (constructible E t ->
   deserialize E' (S f') t (before ++ s_bytes s ++ after) (length before) = Err e).
Proof.
  intros E b ids t f v s f' before after Hs Hlt Hne E' e.
  apply serialize_inv in Hs. destruct Hs as (v1 & n & v2 & vf2 & _ & He & _).
  apply root_inv in He; [|now left]. destruct He as (body & ->).
  assert (H : forall w, deserialize_in_place E' (S f') t
    (before ++ root_frame E t body ++ after) (length before) w = Err e).
  { intros w. unfold root_frame. rewrite <- app_assoc. apply in_place_fails.
    apply (wrong_root E' t (tix E t) f' w Hlt). cbn [tix E' build]. congruence. }
  split; [exact H|]. intros Hc. unfold deserialize, constructible in *. unfold E' at 1. rewrite recon_build.
  destruct (recon E t) as [o|]; [apply H|congruence].
Qed.
Print Assumptions C65_other_number.

(** ** The other build can read an object as another one *)

Definition t_four : ty := TTuple [SIZE; SIZE; SIZE; TString].
(** What a build numbers: all types, or only the type of the root object. *)
Definition build_types (checking : bool) : list ty :=
  if checking then [t_four; SIZE; TString; CHAR] else [t_four].
Definition four_build (checking : bool) : env := program checking true false (build_types checking) old_regs.

Definition v_checked : val := VSeq [w8 1; w8 60; w8 3; VStr 15 []].
Definition v_unchecked : val :=
  match serialize (four_build true) 4 t_four v_checked None with
  | Ok s => match deserialize (four_build false) 4 t_four (s_bytes s) 0 with Ok (v, _) => v | Err _ => VSeq [] end
  | Err _ => VSeq []
  end.

(** The memory footprint is the same in both builds. *)
Theorem C65_footprint : forall E b ids f t v n k,
  let E' := build E b ids in
  wf_env any E -> (forall t, ids t < 2 ^ 32 /\ N.land (ids t) 4278190335 = 3724542125) ->
  takes E t v n -> (depth v < f)%nat ->
  exists r, get_footprint E f t v k = Ok (v, r) /\ get_footprint E' f t v k = Ok (v, r).
Proof.
  intros E b ids f t v n k E' wf Hids Ht Hd.
  pose proof (wf_build E b ids any wf Hids) as wf'. eexists. split.
  - eapply C27_footprint; eauto.
  - rewrite (C27_footprint E' f t v n k wf'); auto. apply (takes_build E b ids f v Hd t n Ht).
Qed.
Print Assumptions C65_footprint.
Example C65_footprint_case : forall b,
  wf_env any (ex b) /\
  (forall t, tix (ex b) t < 2 ^ 32 /\ N.land (tix (ex b) t) 4278190335 = 3724542125) /\
  (exists n, takes (ex b) t_foot v_foot n) /\ exists r, 1000 < r /\
  get_footprint (ex b) 12 t_foot v_foot 1000 = Ok (v_foot, r) /\
  get_footprint (build (ex b) (negb b) (tix (ex b))) 12 t_foot v_foot 1000 = Ok (v_foot, r).
Proof.
  intros b. split; [apply ex_wf; exact I|]. split; [apply (wf_tix any), ex_wf; exact I|].
  split; [destruct (C27_case b) as (n & H & _); eauto|].
  destruct b; eexists; (split; [|split; vm_compute; reflexivity]); reflexivity.
Qed.

(** Whichever build writes ([b]): the bytes it writes are accepted by the other one as another
    object. *)
Theorem C65_refuted : forall b, exists E ids types types' f t v s v' n,
  chk E = b /\ let E' := build E (negb b) ids in
  (forall u, In u types -> get_type_idx (treg_of types) u = Some (tix E u)) /\
  (forall u, In u types' -> get_type_idx (treg_of types') u = Some (ids u)) /\
  In t types /\ In t types' /\ has_ty E t v /\ constructible E t /\
  serialize E f t v None = Ok s /\ n = len (s_bytes s) /\
  deserialize E' f t (s_bytes s) 0 = Ok (v', n) /\ ~ same v v'.
Proof.
  intros b. exists (four_build b), (tix (four_build (negb b))), (build_types b), (build_types (negb b)), 4%nat, t_four,
    (if b then v_checked else v_unchecked).
  enough (H : let E := four_build b in let v := if b then v_checked else v_unchecked in
    let v' := if b then v_unchecked else v_checked in
    has_ty E t_four v /\ constructible E t_four /\ exists s, serialize E 4 t_four v None = Ok s /\
    deserialize (build E (negb b) (tix (four_build (negb b)))) 4 t_four (s_bytes s) 0 = Ok (v', len (s_bytes s)) /\
    ~ same v v').
  { destruct H as (Ht & Hc & s & Hs & Hd & Hn). exists s, (if b then v_unchecked else v_checked), (len (s_bytes s)).
    split; [reflexivity|]. intros E'.
    split; [intros u Hu; destruct b; cbn in Hu; repeat (destruct Hu as [<-|Hu]; [vm_compute; reflexivity|]); destruct Hu|].
    split; [intros u Hu; destruct b; cbn in Hu; repeat (destruct Hu as [<-|Hu]; [vm_compute; reflexivity|]); destruct Hu|].
    split; [destruct b; now left|]. split; [destruct b; now left|]. now repeat split. }
  intros E v v'. subst E v v'. split. { destruct b; [unfold v_checked|let v := eval vm_compute in v_unchecked in change v_unchecked with v];
    unfold t_four; ht. }
  split; [vm_compute; discriminate|].
  destruct b; eexists; (split; [vm_compute; reflexivity|]); (split; [vm_compute; reflexivity|]);
    let v := eval vm_compute in v_unchecked in change v_unchecked with v; unfold v_checked;
    intros H; inversion H as [| | |? ? Hl| | | | | |]; subst; inversion Hl as [|? ? ? ? Hx]; subst; inversion Hx.
Qed.
Print Assumptions C65_refuted.

(** Cases for the other theorems: Pod is copied byte by byte; a string is numbered differently. *)
Example C65_case : forall b, bytecopy (ex b) (TClass 5) = true /\
  exists s, serialize (ex b) 1 (TClass 5) (VB (le 8 77)) None = Ok s /\
    deserialize (build (ex b) (negb b) (tix (ex b))) 1 (TClass 5) (s_bytes s) 0 = Ok (VB (le 8 77), 20).
Proof.
  intros b. split; [reflexivity|]. destruct b; eexists; (split; [vm_compute; reflexivity|vm_compute; reflexivity]).
Qed.
Example C65_number_case : forall b,
  let ids := tix (program (negb b) true false [SIZE; TString] old_regs) in
  exists s, serialize (ex b) 4 TString (VStr 15 [x61]) None = Ok s /\
    tix (ex b) TString < 2 ^ 32 /\ ids TString <> tix (ex b) TString /\ constructible (ex b) TString /\
    deserialize (build (ex b) (negb b) ids) 4 TString (s_bytes s) 0
    = Err (SerErr 0 [WrongType (ids TString) (tix (ex b) TString) (ids TString)]).
Proof.
  intros b ids. destruct b; eexists; (split; [vm_compute; reflexivity|]); (split; [reflexivity|]);
    (split; [vm_compute; discriminate|]); (split; [vm_compute; discriminate|vm_compute; reflexivity]).
Qed.
