(** C70: serializers with a dispatcher of their own. *)
From Coq Require Import List NArith Arith Bool Lia.
From Coq.Strings Require Import Byte.
From Verif Require Import Base Syntax Prog Serializers Traverse Api Streams Custom Dispatchers Spec Cells
  ValFacts EnvFacts ProgFacts ApiFacts Examples Pack DispatchFacts Conc PropVirtual PropStream PropBuilds PropCustom.
Import ListNotations.
Local Open Scope N_scope.

(** ** Specification *)

(** The calls of contiguousBytes and of the specialised dispatcher. *)
Inductive call := CBytes (b : bytes) | CHand (t : ty) (v : val).
Definition flat (calls : list call) : list cell :=
  flat_map (fun c => match c with CBytes b => raw b | CHand t v => [Handed t v] end) calls.
Fixpoint receive {S} (step : bytes -> S -> res S) (hand : ty -> val -> S -> S) (calls : list call) (s : S)
  : res S :=
  match calls with
  | [] => Ok s
  | CBytes b :: r => match step b s with Ok s' => receive step hand r s' | Err e => Err e end
  | CHand t v :: r => receive step hand r (hand t v s)
  end.

(** The mode is None, Packing or Sizing, and the user's serialize functions visit in it what they
    visit when packing. *)
Definition writing (E : env) (m : mode) : Prop :=
  (m = MPacking \/ m = MSizing \/ m = MNone) /\
  forall c k, cls E c = Some k -> cser k m = cser k MPacking.

(** What the recorder sees decides what every serializer with a dispatcher is handed. *)
Lemma receives : forall A (p : prog A) vf s0 a vf' s1,
  interp recorder p vf s0 = Ok (a, vf', s1) ->
  exists calls, s1 = s0 ++ flat calls /\
  forall S (step : bytes -> S -> res S) hand s, interp (receiver step hand) p vf s =
    match receive step hand calls s with Ok s' => Ok (a, vf', s') | Err e => Err e end.
Proof.
  intros A p. induction p; intros vf s0 a0 vf' s1 Hi; cbn [interp] in Hi; try discriminate;
    try (destruct (H _ _ _ _ _ _ Hi) as (calls & Hc & Hv); exists calls; split; [exact Hc|exact Hv]);
    try (destruct (IHp _ _ _ _ _ Hi) as (calls & Hc & Hv); exists calls; split; [exact Hc|exact Hv]).
  - inversion Hi; subst. exists []. split; [now rewrite app_nil_r|]. reflexivity.
  - destruct (H _ _ _ _ _ _ Hi) as (calls & Hc & Hv). exists (CBytes b :: calls).
    cbn [flat flat_map recorder contig] in *. split; [now rewrite app_assoc|]. intros S step hand s.
    cbn [interp receiver contig receive]. destruct (step b s) as [s'|e]; [apply Hv|reflexivity].
  - destruct (IHp _ _ _ _ _ Hi) as (calls & Hc & Hv). destruct e; try (exists calls; split; [exact Hc|exact Hv]).
    exists (CHand t v :: calls). cbn [flat flat_map recorder note] in *. split; [now rewrite Hc, <- app_assoc|].
    intros S step hand s. cbn [interp receiver note receive]. apply Hv.
Qed.

Lemma handed : forall E m special f t v, wf_env any E -> writing E m ->
  has_ty E t v -> (depth v < f)%nat ->
  exists calls, flat calls = root_cells E m special t v /\
  forall S (step : bytes -> S -> res S) hand s,
    interp (receiver step hand) (dispatch_root E m special f t v) false s =
    match receive step hand calls s with Ok s' => Ok (v, false, s') | Err e => Err e end.
Proof.
  intros E m special f t v wf (Hm & Hc) Ht Hd.
  destruct (receives _ (dispatch_root E m special f t v) false [] v false (root_cells E m special t v))
    as (calls & Hf & Hv).
  - exact (dispatch_root_emits any E wf m special Hm Hc f t v Ht Hd []).
  - exists calls. split; [symmetry; exact Hf|exact Hv].
Qed.

(** ** C70 *)

(** In all programs: unless the call comes to an object of a class derived from a polymorphic
    class, in which case it fails an assertion or calls an empty function, the serializer and its
    dispatcher are handed exactly the cells of the object, in order, until the serializer
    throws, and the object is left as it is. *)
Theorem C70_dispatchers : forall E m special f t v,
  wf_env any E -> writing E m -> has_ty E t v -> (depth v < f)%nat ->
  exists calls, flat calls = root_cells E m special t v /\
  forall S (step : bytes -> S -> res S) hand s, dispatched_traverse E m special step hand f t v s =
    if existsb (derived_event E)
         (trace (receiver step hand) _ (dispatch_root E m special f t v) false s)
    then Err (if asserts E then AssertErr else CallErr)
    else match receive step hand calls s with Ok s' => Ok (v, s') | Err e => Err e end.
Proof.
  intros E m special f t v wf Hw Ht Hd. destruct (handed E m special f t v wf Hw Ht Hd) as (calls & Hc & Hv).
  exists calls. split; [exact Hc|]. intros S step hand s. unfold dispatched_traverse.
  rewrite interp_unlisted, Hv. unfold missing. destruct (existsb _ _); [reflexivity|].
  destruct (receive step hand calls s); reflexivity.
Qed.
Print Assumptions C70_dispatchers.

(** Without hierarchies of polymorphic classes it never fails. *)
Lemma no_derived : forall E, wf_env any E -> no_hierarchy E -> forall e, derived_event E e = false.
Proof.
  intros E wf nh e. destruct e; try reflexivity. cbn [derived_event]. unfold derived.
  destruct (cls E c) as [k|] eqn:Hk; [|reflexivity]. destruct (cparent k) as [p|] eqn:Hp; [|reflexivity].
  destruct (wf_parent _ _ wf c k p Hk Hp) as (_ & Hcv & _).
  assert (Hv : is_virtual E (TClass c) = true) by (cbn [is_virtual]; now rewrite Hk).
  apply nh in Hv. unfold derived in Hv. now rewrite Hk, Hp in Hv.
Qed.
Theorem C70_without_hierarchies : forall E m special f t v,
  wf_env any E -> no_hierarchy E -> writing E m -> has_ty E t v -> (depth v < f)%nat ->
  exists calls, flat calls = root_cells E m special t v /\
  forall S (step : bytes -> S -> res S) hand s, dispatched_traverse E m special step hand f t v s =
    match receive step hand calls s with Ok s' => Ok (v, s') | Err e => Err e end.
Proof.
  intros E m special f t v wf nh Hw Ht Hd.
  destruct (C70_dispatchers E m special f t v wf Hw Ht Hd) as (calls & Hc & Hv).
  exists calls. split; [exact Hc|]. intros S step hand s. rewrite Hv.
  replace (existsb _ _) with false; [reflexivity|]. symmetry. apply not_true_iff_false. intros Hx.
  apply existsb_exists in Hx. destruct Hx as (e & _ & He). now rewrite (no_derived E wf nh) in He.
Qed.
Print Assumptions C70_without_hierarchies.

(** ** What is handed over stands for the bytes of the object *)

(** The build whose records the mode makes: none in mode None. *)
Definition recorded (E : env) (m : mode) : env := if records m then E else build E false (tix E).
Definition expand (E' : env) (c : cell) : bytes :=
  match c with Raw b => [b] | Handed t v => encb E' t v end.
Definition expanded (E : env) (m : mode) (l : list cell) : bytes := flat_map (expand (recorded E m)) l.
Definition expand_root (E : env) (m : mode) (t : ty) (v : val) : bytes :=
  if records m then enc_root E t v else unrecorded E t v.

Section Expand.
Variable E : env.
Variable m : mode.
Variable special : ty -> bool.
Hypothesis Hsp : forall c, is_virtual E (TClass c) = true -> special (TClass c) = false.
Local Notation E' := (recorded E m).
Local Notation X := (expanded E m).

Lemma x_raw : forall b, X (raw b) = b.
Proof. intros b. unfold expanded, raw. induction b as [|x b IH]; cbn; [reflexivity|]. now rewrite IH. Qed.
Lemma x_app : forall a b, X (a ++ b) = X a ++ X b.
Proof. intros. unfold expanded. apply flat_map_app. Qed.
Lemma x_concat : forall l, X (concat l) = concat (map X l).
Proof. induction l as [|x l IH]; cbn [concat map]; [reflexivity|]. now rewrite x_app, IH. Qed.
Lemma rec_chain : forall c, chain E' c = chain E c.
Proof. intros c. unfold recorded. destruct (records m); [reflexivity|]. apply chain_build. Qed.
Lemma rec_virtual : forall t, is_virtual E' t = is_virtual E t.
Proof. intros c. unfold recorded. destruct (records m); reflexivity. Qed.
Lemma rec_cls : forall c, cls E' c = cls E c.
Proof. intros c. unfold recorded. destruct (records m); reflexivity. Qed.
Lemma rec_idx : forall c, obj_idx E' c = obj_idx E c.
Proof. intros c. unfold recorded. destruct (records m); [reflexivity|]. apply obj_idx_build. Qed.
Lemma rec_fields : forall c, wfields E' c = wfields E c.
Proof. intros c. unfold wfields. now rewrite rec_cls. Qed.

Lemma x_framed : forall t n c b, X c = b -> X (cframed E m t n c) = framed E' t n b.
Proof.
  intros t n c b <-. unfold cframed, noted, framed. unfold recorded. destruct (records m) eqn:Er.
  - destruct (chk E); [|reflexivity]. now rewrite !x_app, !x_raw.
  - destruct (chk E); reflexivity.
Qed.
Lemma x_size : forall n, X (csize_ E m n) = wsize E' n.
Proof. intros. apply x_framed, x_raw. Qed.
Lemma x_int : forall n, X (cint E m n) = wint E' n.
Proof. intros. apply x_framed, x_raw. Qed.
Lemma x_bool : forall b, X (cbool E m b) = wbool E' b.
Proof. intros. apply x_framed, x_raw. Qed.
Lemma x_array : forall t l l', map X l = l' -> X (carray E m t l) = warray E' t l'.
Proof.
  intros t l l' <-. unfold carray, warray. destruct l as [|x l]; [reflexivity|]. cbn [map].
  rewrite <- (map_cons X x l), map_length. apply x_framed. apply x_concat.
Qed.
Lemma x_members : forall c l l', map X l = l' -> X (cmembers E (c, l)) = wmembers E' (c, l').
Proof.
  intros c l l' <-. unfold cmembers, wmembers. cbn [fst snd]. rewrite rec_cls.
  destruct (cls E c) as [k|]; [|reflexivity]. rewrite x_concat, map_map. f_equal. apply map_ext.
  intros i. change (@nil byte) with (X []). now rewrite map_nth.
Qed.
Lemma x_pick : forall t v c, X c = encb E' t v -> X (pick E special t v c) = encb E' t v.
Proof.
  intros t v c Hc. unfold pick. destruct (taken E special t); [|exact Hc].
  unfold expanded. cbn [flat_map expand]. apply app_nil_r.
Qed.
Lemma x_pick_framed : forall t v, X (cellb E m special t v) = encb E' t v ->
  X (cframed E m t 1 (pick E special t v (cellb E m special t v))) = framed E' t 1 (encb E' t v).
Proof. intros t v Hv. now apply x_framed, x_pick. Qed.

Lemma x_list : forall t l, Forall (fun v => forall t, X (cellb E m special t v) = encb E' t v) l ->
  X (concat (map (fun x => cframed E m t 1 (pick E special t x (cellb E m special t x))) l)) =
  concat (map (fun x => framed E' t 1 (encb E' t x)) l).
Proof.
  intros t l Hl. rewrite x_concat, map_map. f_equal. apply map_ext_in. intros x Hx.
  rewrite Forall_forall in Hl. now apply x_pick_framed, Hl.
Qed.
Lemma x_elems : forall t l, Forall (fun v => forall t, X (cellb E m special t v) = encb E' t v) l ->
  map X (map (fun x => pick E special t x (cellb E m special t x)) l) = map (encb E' t) l.
Proof.
  intros t l Hl. rewrite map_map. apply map_ext_in. intros x Hx.
  rewrite Forall_forall in Hl. now apply x_pick, Hl.
Qed.
Lemma x_zip : forall l, Forall (fun v => forall t, X (cellb E m special t v) = encb E' t v) l ->
  forall ts, map X (zipcell E m special ts l) = zipenc E' ts l.
Proof.
  intros l Hl. induction Hl as [|x l Hx Hl IH]; intros ts; cbn [zipcell zipenc map]; [reflexivity|].
  destruct ts as [|t ts]; [reflexivity|]. cbn [map]. rewrite IH. f_equal. now apply x_pick_framed.
Qed.

Lemma x_cellb : forall v t, X (cellb E m special t v) = encb E' t v.
Proof.
  induction v using val_ind'; intros t.
  - destruct t; cbn [cellb encb]; try apply x_raw; apply x_framed, x_raw.
  - cbn [cellb encb]. rewrite x_app, x_size. f_equal. apply x_array. rewrite map_map. reflexivity.
  - cbn [cellb encb].
    destruct t; rewrite !x_app, !x_size; do 2 f_equal; try (apply (x_list BOOL); assumption).
    apply x_array. now apply x_elems.
  - destruct t; try reflexivity.
    + cbn [cellb encb]. apply x_array. now apply x_elems.
    + cbn [cellb encb]. rewrite x_app, x_size. f_equal. now apply x_list.
    + cbn [cellb encb]. rewrite x_app, x_size. f_equal. now apply x_list.
    + cbn [cellb encb]. rewrite x_app, x_size. f_equal. now apply x_list.
    + cbn [cellb encb]. destruct l as [|x [|y [|z l]]]; try reflexivity.
      inversion H as [|? ? Hx Hr]; subst. inversion Hr as [|? ? Hy _]; subst.
      rewrite x_app. f_equal; now apply x_pick_framed.
    + rewrite cellb_tuple, encb_tuple, x_concat. f_equal. now apply x_zip.
  - destruct t; try reflexivity. cbn [cellb encb]. rewrite x_app, x_size. f_equal. now apply x_list.
  - destruct t; try reflexivity; cbn [cellb encb]; apply x_bool.
  - destruct t; try reflexivity; cbn [cellb encb].
    + rewrite x_app, x_bool. f_equal. now apply x_pick_framed.
    + rewrite !x_app, x_bool, rec_virtual. f_equal. f_equal; [|now apply x_pick_framed].
      destruct (is_virtual E t); [|reflexivity]. destruct v; try reflexivity. rewrite rec_idx.
      destruct (obj_idx E c); [apply x_int|reflexivity].
  - destruct t; try reflexivity; cbn [cellb encb]. rewrite x_app, x_size. f_equal.
    destruct (nth_error ts i); [|reflexivity]. now apply x_pick_framed.
  - cbn [cellb encb]. destruct t; apply x_size.
  - rewrite cellb_obj, encb_obj, rec_virtual, rec_chain.
    assert (G : forall (g : nat * list (list cell) -> list cell) (h : nat * list bytes -> bytes),
      (forall c' l, X (g (c', l)) = h (c', map X l)) ->
      X (concat (map g (levelcell E m special (chain E c) ls))) =
      concat (map h (levelenc E' (chain E c) ls))).
    { intros g h Hg. rewrite x_concat, map_map. f_equal.
      generalize (chain E c). clear - H Hg. induction H as [|fs ls Hfs Hls IH]; intros cs; [reflexivity|].
      destruct cs as [|c cs]; [reflexivity|]. cbn [levelcell levelenc map]. rewrite Hg.
      rewrite rec_fields, x_zip by assumption. f_equal. apply IH. }
    destruct (is_virtual E t) eqn:Hv.
    + apply G. intros c' l. unfold part. cbn [fst]. apply x_framed.
      destruct (is_virtual E (TClass c')) eqn:Hc'; [rewrite (Hsp c' Hc')|]; cbn [andb]; now apply x_members.
    + apply G. intros c' l. now apply x_members.
Qed.
End Expand.

(** With the bytes of the objects that were handed over in their places, the bytes are those that
    the library's own serializers write for the object; in mode None without any record of types
    and sizes.  For dispatchers that are not specialised for polymorphic classes. *)
Theorem C70_same_data : forall E m special t v,
  (forall c, is_virtual E (TClass c) = true -> special (TClass c) = false) ->
  expanded E m (root_cells E m special t v) = expand_root E m t v.
Proof.
  intros E m special t v Hsp.
  assert (Hw : expanded E m (whole E m special t v) = encb (recorded E m) t v).
  { apply x_pick. now apply x_cellb. }
  unfold root_cells, noted, expand_root, unrecorded, enc_root, enc, framed, recorded in *.
  destruct (records m) eqn:Er; [|exact Hw]. rewrite !x_app, !x_raw, Hw, N.mul_1_r. destruct (chk E); reflexivity.
Qed.
Print Assumptions C70_same_data.

(** ** Only objects of specialised types are handed over *)

Section Only.
Variable E : env.
Variable m : mode.
Variable special : ty -> bool.
Definition due (c : cell) : Prop :=
  match c with
  | Raw _ => True
  | Handed t _ => special t = true /\ (forall id u n, t <> TEnum id u n) /\
                  (bytecopy E t = false \/ is_virtual E t = true)
  end.
Local Notation D := (Forall due).

Lemma d_raw : forall b, D (raw b).
Proof. intros b. apply Forall_forall. intros c Hc. apply in_map_iff in Hc. destruct Hc as (x & <- & _). exact I. Qed.
Lemma d_framed : forall t n c, D c -> D (cframed E m t n c).
Proof.
  intros t n c Hc. unfold cframed, noted. destruct (chk E); [|exact Hc]. destruct (records m); [|exact Hc].
  repeat (apply Forall_app; split); auto using d_raw.
Qed.
Lemma d_size : forall n, D (csize_ E m n).
Proof. intros. apply d_framed, d_raw. Qed.
Lemma d_int : forall n, D (cint E m n).
Proof. intros. apply d_framed, d_raw. Qed.
Lemma d_bool : forall n, D (cbool E m n).
Proof. intros. apply d_framed, d_raw. Qed.
Lemma d_concat : forall l, Forall D l -> D (concat l).
Proof. intros l Hl. induction Hl; cbn [concat]; [constructor|]. now apply Forall_app. Qed.
Lemma d_array : forall t l, Forall D l -> D (carray E m t l).
Proof. intros t l Hl. unfold carray. destruct l; [constructor|]. now apply d_framed, d_concat. Qed.
Lemma d_pick : forall t v c, D c -> D (pick E special t v c).
Proof.
  intros t v c Hc. unfold pick, taken. destruct (special t) eqn:Es; cbn [andb]; [|exact Hc].
  destruct (bytecopy E t) eqn:Eb; cbn [negb andb]; [exact Hc|].
  destruct (is_virtual E t) eqn:Ev; cbn [negb andb]; [exact Hc|].
  destruct t; try exact Hc; (constructor; [|constructor]); (split; [exact Es|]); (split; [discriminate|]); now left.
Qed.
Lemma d_members : forall p, Forall D (snd p) -> D (cmembers E p).
Proof.
  intros [c l] Hl. unfold cmembers. cbn [fst snd] in *. destruct (cls E c); [|constructor].
  apply d_concat. apply Forall_forall. intros x Hx. apply in_map_iff in Hx. destruct Hx as (i & <- & _).
  destruct (nth_in_or_default i l []) as [Hi|Hi]; [|rewrite Hi; constructor].
  rewrite Forall_forall in Hl. now apply Hl.
Qed.
Lemma d_map : forall A (g : A -> list cell) l, (forall x, In x l -> D (g x)) -> Forall D (map g l).
Proof. intros A g l Hg. apply Forall_forall. intros y Hy. apply in_map_iff in Hy. destruct Hy as (x & <- & Hx). auto. Qed.
Lemma d_zip : forall l, Forall (fun v => forall t, D (cellb E m special t v)) l ->
  forall ts, Forall D (zipcell E m special ts l).
Proof.
  intros l Hl. induction Hl as [|x l Hx Hl IH]; intros [|t ts]; cbn [zipcell]; constructor; auto.
  apply d_framed, d_pick, Hx.
Qed.
Lemma d_cellb : forall v t, D (cellb E m special t v).
Proof.
  induction v using val_ind'; intros t.
  all: try (rewrite Forall_forall in H).
  - destruct t; cbn [cellb]; auto using d_framed, d_raw.
  - cbn [cellb]. apply Forall_app. split; [apply d_size|]. apply d_array, d_map. intros. apply (d_raw [x]).
  - cbn [cellb]. destruct t; repeat (apply Forall_app; split); auto using d_size.
    all: try (apply d_array || apply d_concat); apply d_map; intros x Hx; try apply d_framed; apply d_pick; auto.
  - destruct t; try constructor; cbn [cellb].
    + apply d_array, d_map. intros x Hx. apply d_pick. auto.
    + apply Forall_app. split; [apply d_size|]. apply d_concat, d_map. intros x Hx. apply d_framed, d_pick. auto.
    + apply Forall_app. split; [apply d_size|]. apply d_concat, d_map. intros x Hx. apply d_framed, d_pick. auto.
    + apply Forall_app. split; [apply d_size|]. apply d_concat, d_map. intros x Hx. apply d_framed, d_pick. auto.
    + destruct l as [|x [|y [|z l]]]; try constructor. apply Forall_app.
      split; apply d_framed, d_pick, H; [now left|right; now left].
    + change (D (concat (zipcell E m special ts l))). apply d_concat, d_zip. apply Forall_forall. exact H.
  - destruct t; try constructor. cbn [cellb]. apply Forall_app. split; [apply d_size|]. apply d_concat, d_map.
    intros x Hx. apply d_framed, d_pick. auto.
  - destruct t; try constructor; cbn [cellb]; apply d_bool.
  - destruct t; try constructor; cbn [cellb].
    + apply Forall_app. split; [apply d_bool|]. apply d_framed, d_pick. auto.
    + repeat (apply Forall_app; split); [apply d_bool| |apply d_framed, d_pick; auto].
      destruct (is_virtual E t); [|constructor]. destruct v; try constructor.
      destruct (obj_idx E c); [apply d_int|constructor].
  - destruct t; try constructor; cbn [cellb]. apply Forall_app. split; [apply d_size|].
    destruct (nth_error ts i); [|constructor]. apply d_framed, d_pick. auto.
  - cbn [cellb]. destruct t; apply d_size.
  - rewrite cellb_obj.
    assert (G : forall cs, Forall (fun p => Forall D (snd p)) (levelcell E m special cs ls)).
    { assert (H' : Forall (Forall (fun v => forall t, D (cellb E m special t v))) ls)
        by (apply Forall_forall; exact H). clear - H'.
      induction H' as [|fs ls Hfs Hls IH]; intros [|c cs]; cbn [levelcell]; constructor; auto.
      cbn [snd]. now apply d_zip. }
    specialize (G (chain E c)). rewrite Forall_forall in G.
    destruct (is_virtual E t); apply d_concat, d_map; intros p Hp.
    + unfold part. apply d_framed. destruct (is_virtual E (TClass (fst p))) eqn:Ev; cbn [andb].
      * destruct (special (TClass (fst p))) eqn:Es; [|apply d_members; auto]. constructor; [|constructor].
        split; [exact Es|]. split; [discriminate|now right].
      * apply d_members; auto.
    + apply d_members; auto.
Qed.
End Only.

(** What is handed over is of a type that the dispatcher is specialised for, no enumeration, and
    not byte-copyable unless it is polymorphic. *)
Theorem C70_only_specialised : forall E m special t v t' v',
  In (Handed t' v') (root_cells E m special t v) ->
  special t' = true /\ (forall id u n, t' <> TEnum id u n) /\
  (bytecopy E t' = false \/ is_virtual E t' = true).
Proof.
  intros E m special t v t' v' Hin.
  assert (Hd : Forall (due E special) (root_cells E m special t v)).
  { unfold root_cells, noted. destruct (records m); repeat (apply Forall_app; split); try apply d_raw;
      apply d_pick, d_cellb. }
  rewrite Forall_forall in Hd. apply (Hd _ Hin).
Qed.
Print Assumptions C70_only_specialised.

(** A dispatcher that is specialised for nothing changes nothing. *)
Theorem C70_nothing_special : forall E m t v,
  root_cells E m (fun _ => false) t v = raw (expand_root E m t v).
Proof.
  intros E m t v.
  rewrite <- (C70_same_data E m (fun _ => false) t v (fun _ _ => eq_refl)).
  assert (Hr : forall l, (forall t v, ~ In (Handed t v) l) -> raw (expanded E m l) = l).
  { induction l as [|[b|t' v'] l IH]; intros Hl; [reflexivity| |].
    - unfold expanded in *. cbn [flat_map expand app raw map]. f_equal. apply IH. intros t' v' Hin.
      eapply Hl. right. exact Hin.
    - exfalso. eapply Hl. left. reflexivity. }
  symmetry. apply Hr. intros t' v' Hin. apply C70_only_specialised in Hin. destruct Hin; discriminate.
Qed.
Print Assumptions C70_nothing_special.

(** ** Concrete cases *)

(** tests/unit/test_traversal.cc:113-149, 171-186: specialised for vectors, which are counted
    together with their elements. *)
Definition vectors (t : ty) : bool := match t with TVector _ => true | _ => false end.
Definition counts_vectors (t : ty) (v : val) (s : N * N * N) : N * N * N :=
  match s, v with
  | (nv, ne, nb), VVec _ l => (nv + 1, ne + len l, nb)
  | _, _ => s
  end.
Definition counts_bytes (b : bytes) (s : N * N * N) : res (N * N * N) :=
  let '(nv, ne, nb) := s in Ok (nv, ne, nb + len b).
Example C70_case : forall b, wf_env any (test_env b) /\ no_hierarchy (test_env b) /\
  writing (test_env b) MNone /\ writing (test_env b) MPacking /\
  has_ty (test_env b) (TClass 1) v_test /\ (depth v_test < 12)%nat /\
  dispatched_traverse (test_env b) MNone vectors counts_bytes counts_vectors 12 (TClass 1) v_test (0, 0, 0)
    = Ok (v_test, (3, 120, 8)) /\
  dispatched_traverse (test_env b) MPacking vectors counts_bytes counts_vectors 12 (TClass 1) v_test (0, 0, 0)
    = Ok (v_test, (3, 120, if b then 8 + 7 * 12 else 8 + 12)).
Proof.
  intros b. split; [apply test_wf|]. split; [|split; [|split; [|split; [|split; [|split]]]]].
  - intros c Hv. destruct c as [|[|c]]; discriminate.
  - split; [auto|]. intros c k Hk. destruct c as [|[|c]]; inversion Hk; subst; reflexivity.
  - split; [auto|]. intros c k Hk. reflexivity.
  - apply test_ty.
  - vm_compute. lia.
  - destruct b; vm_compute; reflexivity.
  - destruct b; vm_compute; reflexivity.
Qed.

(** Vectors of vectors: the inner ones are not visited once the outer one is handed over; in a pair
    and in a map each is handed over where its bytes would be. *)
Example C70_outermost : forall b,
  let vv := VVec 2 [VVec 1 [w4 7]; VVec 1 []] in
  root_cells (test_env b) MNone vectors (TPair OINT (TVector (TVector OINT))) (VSeq [w4 5; vv]) =
    raw (le 4 5) ++ [Handed (TVector (TVector OINT)) vv] /\
  root_cells (test_env b) MNone vectors (TList false (TVector OINT)) (VSeq [VVec 1 [w4 7]; VVec 1 []]) =
    raw (le 8 2) ++ [Handed (TVector OINT) (VVec 1 [w4 7]); Handed (TVector OINT) (VVec 1 [])].
Proof. intros b. destruct b; vm_compute; split; reflexivity. Qed.

(** Polymorphic objects: with the dispatcher of C70 too the first derived class ends the call. *)
Example C70_hierarchies_fail : dispatched_traverse (ex true) MNone vectors counts_bytes counts_vectors 12
    (TList false (TUnique (TClass 1))) (VSeq (match v_shapes with VVec _ l => l | _ => [] end)) (0, 0, 0) = Err AssertErr.
Proof. vm_compute. reflexivity. Qed.
