(** Properties C11-C15 and C38: type identifiers and what they protect from. *)
From Coq Require Import List NArith Arith Bool Lia.
From Coq.Strings Require Import Byte.
From Verif Require Import Base Syntax Prog Serializers Traverse Spec Message Layout ProgFacts EnvFacts
  ValFacts Pack Unpack Api ApiFacts Registry RegistryFacts Examples Fails ApiInv LayoutFacts.
Import ListNotations.
Local Open Scope N_scope.

(** ** C14: type identifiers *)

(** [id_of ts t]: the identifier of [t] in a program whose static initialisers
    register the types [ts] in this order. *)
Definition id_of (ts : list ty) (t : ty) : option N := get_type_idx (treg_of ts) t.

Lemma id_nth : forall ts i t, NoDup ts -> nth_error ts i = Some t ->
  id_of ts t = Some (type_index (N.of_nat i)).
Proof. intros. now apply treg_idx. Qed.

Lemma nth_small : forall A (ts : list A) i t, len ts <= 65536 -> nth_error ts i = Some t ->
  N.of_nat i < 65536.
Proof.
  intros A ts i t Hl Hi. assert (i < length ts)%nat by (apply nth_error_Some; congruence).
  unfold len in Hl. lia.
Qed.

(** Every registered type has a 32-bit identifier that passes the validity check
    and by which its name is found; no two types share one. *)
Theorem C14_unique : forall ts, NoDup ts -> len ts <= 65536 ->
  (forall t, In t ts -> exists i, id_of ts t = Some i /\ i < 2 ^ 32 /\ validate_index i = true /\
     get_type_name i (tr_names (treg_of ts)) = Some t) /\
  (forall t u i, In t ts -> In u ts -> id_of ts t = Some i -> id_of ts u = Some i -> t = u).
Proof.
  intros ts Hn Hl. split.
  - intros t Ht. apply In_nth_error in Ht. destruct Ht as (i & Hi).
    exists (type_index (N.of_nat i)). split; [now apply id_nth|].
    split; [apply type_index_bound|]. split; [apply type_index_valid|]. now apply treg_names.
  - intros t u k Ht Hu. apply In_nth_error in Ht. apply In_nth_error in Hu.
    destruct Ht as (i & Hi), Hu as (j & Hj).
    rewrite (id_nth _ _ _ Hn Hi), (id_nth _ _ _ Hn Hj). intros H1 H2.
    assert (He : N.of_nat i = N.of_nat j).
    { apply type_index_inj; [eapply nth_small; eauto..|congruence]. }
    apply Nat2N.inj in He. subst. congruence.
Qed.
Print Assumptions C14_unique.

(** The words that pass the validity check are those whose little-endian
    representation begins with AD and ends with DE. *)
Lemma byte_of_iff : forall n b, byte_of n = b <-> n mod 256 = Byte.to_N b.
Proof.
  intros n b. rewrite <- byte_of_to_N. split; [now intros ->|].
  intros H. now rewrite <- (to_N_byte_of (byte_of n)), H, to_N_byte_of.
Qed.
Theorem C14_marker : forall w, w < 2 ^ 32 ->
  (validate_index w = true <-> exists x y, le 4 w = [xad; x; y; xde]).
Proof.
  intros w Hw. rewrite validate_iff by exact Hw.
  assert (Hd : w / 256 / 256 / 256 = w / 16777216) by (rewrite !N.div_div by discriminate; reflexivity).
  assert (Hs : (w / 16777216) mod 256 = w / 16777216).
  { apply N.mod_small. apply N.div_lt_upper_bound; [discriminate|exact Hw]. }
  cbn [le]. rewrite Hd. split.
  - intros [H1 H2]. exists (byte_of (w / 256)), (byte_of (w / 256 / 256)).
    rewrite (proj2 (byte_of_iff w xad) H1).
    rewrite (proj2 (byte_of_iff (w / 16777216) xde)); [reflexivity|]. now rewrite Hs.
  - intros (x & y & H). inversion H as [[H1 H2 H3 H4]]. split.
    + now apply byte_of_iff in H1.
    + apply byte_of_iff in H4. now rewrite Hs in H4.
Qed.
Print Assumptions C14_marker.

(** The bound is sharp: with one more type the 16-bit counter wraps around and
    the first and the last type share an identifier. *)
Theorem C14_limit : exists ts t u, NoDup ts /\ len ts = 65537 /\ In t ts /\ In u ts /\ t <> u /\
  exists i, id_of ts t = Some i /\ id_of ts u = Some i.
Proof.
  set (n := N.to_nat 65537). set (g := fun i => TArray i BOOL).
  assert (Hn : NoDup (map g (seq 0 n))).
  { apply FinFun.Injective_map_NoDup; [|apply seq_NoDup]. intros x y H. now inversion H. }
  assert (Hlen : length (map g (seq 0 n)) = n) by now rewrite map_length, seq_length.
  assert (Hnth : forall i, (i < n)%nat -> nth_error (map g (seq 0 n)) i = Some (g i)).
  { intros i Hi. apply map_nth_error. rewrite nth_error_nth' with (d := O) by now rewrite seq_length.
    now rewrite seq_nth. }
  assert (H0 : (0 < n)%nat) by (unfold n; lia).
  assert (H1 : (N.to_nat 65536 < n)%nat) by (unfold n; lia).
  exists (map g (seq 0 n)), (g O), (g (N.to_nat 65536)).
  split; [exact Hn|]. split; [unfold len; rewrite Hlen; unfold n; lia|].
  split; [eapply nth_error_In; apply (Hnth O); exact H0|].
  split; [eapply nth_error_In; apply (Hnth (N.to_nat 65536)); exact H1|].
  split; [unfold g; intros H; injection H; intros H'; lia|].
  exists (type_index 0). split.
  - apply (id_nth _ O _ Hn). now apply Hnth.
  - rewrite (id_nth _ _ _ Hn (Hnth _ H1)). rewrite N2Nat.id. f_equal.

Qed.
Print Assumptions C14_limit.

(** The types of the example program meet the hypotheses of [C14_unique]. *)
Lemma ex_types_nodup : NoDup ex_types.
Proof. unfold ex_types. repeat (constructor; [cbn [In]; intuition discriminate|]). constructor. Qed.
Example C14_example : NoDup ex_types /\ len ex_types <= 65536 /\ id_of ex_types TString = Some 3724542637.
Proof.
  split; [exact ex_types_nodup|]. split; [vm_compute; discriminate|vm_compute; reflexivity].
Qed.

(** ** C11: the root type *)

(** [E] is the environment of a program with the types [ts]. *)
Definition registered (E : env) (ts : list ty) : Prop :=
  NoDup ts /\ len ts <= 65536 /\ forall t, In t ts -> id_of ts t = Some (tix E t).

Lemma tix_bound : forall E ts t, registered E ts -> In t ts -> tix E t < 2 ^ 32.
Proof.
  intros E ts t (Hn & Hl & Hr) Ht. destruct (proj1 (C14_unique ts Hn Hl) t Ht) as (i & Hi & Hb & _).
  rewrite (Hr t Ht) in Hi. inversion Hi; subst. exact Hb.
Qed.
Lemma tix_inj : forall E ts t u, registered E ts -> In t ts -> In u ts ->
  tix E t = tix E u -> t = u.
Proof.
  intros E ts t u (Hn & Hl & Hr) Ht Hu He. apply (proj2 (C14_unique ts Hn Hl) t u (tix E t)); auto.
  rewrite He. auto.
Qed.

(** A root object of another type is refused. *)
Lemma wrong_root : forall E u z f w, z < 2 ^ 32 -> z <> tix E u ->
  fails (with_root E MUnpacking (S f) u w) false (le 4 z)
    (SerErr 0 [WrongType (tix E u) z (tix E u)]).
Proof.
  intros E u z f w Hz Hn. unfold with_root. destruct (chk E) eqn:Ec.
  - apply fl_ser. cbn [with_]. unfold traverse. rewrite Ec. apply fails_bind_l. now apply fl_header.
  - apply fails_bind_l. now apply fl_header.
Qed.

(** The error that says so: "#0" is the type that was asked for.  (It is also the one after
    "got=", and the one that was found is the one after "expected=", see C62.) *)
Definition wrong_root_error (E : env) (t u : ty) : fail :=
  SerErr 0 [WrongType (tix E u) (tix E t) (tix E u)].

Theorem C11_memory : forall E ts t u f v s, registered E ts -> In t ts -> In u ts -> t <> u ->
  serialize E f t v None = Ok s ->
  forall f' before after,
    (constructible E u ->
     deserialize E (S f') u (before ++ s_bytes s ++ after) (length before) = Err (wrong_root_error E t u)) /\
    (forall w, deserialize_in_place E (S f') u (before ++ s_bytes s ++ after) (length before) w
               = Err (wrong_root_error E t u)).
Proof.
  intros E ts t u f v s Hr Ht Hu Hne Hs f' before after.
  apply serialize_inv in Hs. destruct Hs as (v1 & n & v2 & vf2 & _ & He & _).
  apply root_inv in He; [|now left]. destruct He as (body & ->).
  assert (H : forall w, deserialize_in_place E (S f') u
    (before ++ root_frame E t body ++ after) (length before) w = Err (wrong_root_error E t u)).
  { intros w. unfold root_frame. rewrite <- app_assoc. apply in_place_fails. apply wrong_root.
    - eapply tix_bound; eauto.
    - intros Hx. apply Hne. eapply tix_inj; eauto. }
  split; [|exact H]. intros Hc. unfold deserialize, constructible in *.
  destruct (recon E u) as [o|]; [apply H|congruence].
Qed.
Print Assumptions C11_memory.

Theorem C11_stream : forall E ts t u f v d n0 v' o, registered E ts -> In t ts -> In u ts -> t <> u ->
  serialize_to_stream E f t v {| o_data := d; o_room := None; o_bad := false; o_nbytes := n0 |}
    = Ok (v', o) ->
  exists out, o_data o = d ++ out /\
  forall f' after n1,
    (constructible E u ->
     deserialize_from_stream E (S f') u {| i_data := out ++ after; i_nbytes := wrap64 n1 |}
       = Err (wrong_root_error E t u)) /\
    (forall w, deserialize_in_place_from_stream E (S f') u
                 {| i_data := out ++ after; i_nbytes := wrap64 n1 |} w = Err (wrong_root_error E t u)).
Proof.
  intros E ts t u f v d n0 v' o Hr Ht Hu Hne Hs.
  apply to_stream_inv in Hs. destruct Hs as (v1 & n & vf2 & out & _ & He & Ho).
  exists out. split; [exact Ho|]. intros f' after n1.
  apply root_inv in He; [|now left]. destruct He as (body & ->).
  assert (H : forall w, deserialize_in_place_from_stream E (S f') u
    {| i_data := root_frame E t body ++ after; i_nbytes := wrap64 n1 |} w = Err (wrong_root_error E t u)).
  { intros w. unfold root_frame. rewrite <- app_assoc. apply in_place_stream_fails. apply wrong_root.
    - eapply tix_bound; eauto.
    - intros Hx. apply Hne. eapply tix_inj; eauto. }
  split; [|exact H]. intros Hc. unfold deserialize_from_stream, constructible in *.
  destruct (recon E u) as [x|]; [apply H|congruence].
Qed.
Print Assumptions C11_stream.

Lemma ex_registered : forall b, registered (ex b) ex_types.
Proof.
  intros b. split; [exact ex_types_nodup|]. split; [vm_compute; discriminate|].
  intros t Ht. cbn [tix ex ex_with]. unfold id_of.
  apply In_nth_error in Ht. destruct Ht as (i & Hi).
  now rewrite (treg_idx _ _ _ ex_types_nodup Hi).
Qed.
(** A linked list of nodes, read as a string and as a polymorphic object, without
    and with error checking. *)
Example C11_example : forall b, registered (ex b) ex_types /\
  In (TClass 0) ex_types /\ In TString ex_types /\ In (TClass 2) ex_types /\
  (exists s, serialize (ex b) 10 (TClass 0) v_node None = Ok s) /\
  constructible (ex b) TString /\ constructible (ex b) (TClass 2).
Proof.
  intros b. split; [apply ex_registered|]. split; [cbn; tauto|]. split; [cbn; tauto|].
  split; [cbn; tauto|]. split; [destruct b; vm_compute; eexists; reflexivity|].
  split; destruct b; vm_compute; discriminate.
Qed.

(** ** C12, C13: mismatches inside an object *)

(** An error at the end of a path, as the caller of the API sees it. *)
Lemma path_api : forall E t w b dyn t' ws' us l j,
  wf_env any E -> chk E = true -> path E false t [w] b dyn t' ws' us ->
  (exists f1, forall f, (f1 <= f)%nat -> fails (with_ E MUnpacking f t' ws') dyn j (SerErr 0 [l])) ->
  exists f0, forall f, (f0 <= f)%nat ->
    fails (with_root E MUnpacking f t w) false (b ++ j) (SerErr (length us) (l :: frames E 1 us)).
Proof.
  intros E t w b dyn t' ws' us l j wf Hc Hp (f1 & H1).
  destruct (path_fails E wf Hc _ _ _ _ _ _ _ _ Hp) as (f0 & H).
  exists (length us + Nat.max f0 f1)%nat. intros f Hf. unfold with_root. rewrite Hc.
  apply fl_ser. replace f with (length us + (f - length us))%nat by lia.
  assert (Hx : fails (with_ E MUnpacking (f - length us) t' ws') dyn j (SerErr 0 [l])) by (apply H1; lia).
  apply H in Hx; [|lia]. rewrite Nat.add_0_r in Hx. exact Hx.
Qed.

(** The results of all ways to read [i] in place into [w], followed by anything. *)
Definition refused (E : env) (f : nat) (t : ty) (w : val) (i : bytes) (x : fail) : Prop :=
  (forall before after,
     deserialize_in_place E f t (before ++ i ++ after) (length before) w = Err x) /\
  (forall after n,
     deserialize_in_place_from_stream E f t {| i_data := i ++ after; i_nbytes := wrap64 n |} w = Err x).

Lemma fails_refused : forall E f t w i x, fails (with_root E MUnpacking f t w) false i x ->
  refused E f t w i x.
Proof.
  intros E f t w i x H. split.
  - intros. now apply in_place_fails.
  - intros. now apply in_place_stream_fails.
Qed.

(** deserialize and deserializeFromStream construct the object they read into. *)
Lemma refused_new : forall E f t w i x, refused E f t w i x -> recon E t = Some w ->
  (forall before after, deserialize E f t (before ++ i ++ after) (length before) = Err x) /\
  (forall after n,
     deserialize_from_stream E f t {| i_data := i ++ after; i_nbytes := wrap64 n |} = Err x).
Proof.
  intros E f t w i x (H1 & H2) Hw. unfold deserialize, deserialize_from_stream. rewrite Hw.
  split; [apply H1|apply H2].
Qed.

(** The reader stands in front of an object (or array) of type [t']; the writer
    wrote one of another type [u] there.  The outcome does not depend on the bytes
    behind the type index [u], not even on whether there are any.  The error has the depth
    of the object, and its message names the two types and those of the enclosing objects. *)
Theorem C12_mismatch : forall E ts t w b dyn t' ws' us u,
  wf_env any E -> registered E ts -> chk E = true ->
  path E false t [w] b dyn t' ws' us -> In t' ts -> In u ts -> u <> t' ->
  exists f0, forall f, (f0 <= f)%nat ->
    let e := SerErr (length us) (WrongType (tix E t') (tix E u) (tix E t') :: frames E 1 us) in
    refused E f t w (b ++ le 4 (tix E u)) e /\
    forall k body rest, refused E f t w (b ++ framed E u k body ++ rest) e.
Proof.
  intros E ts t w b dyn t' ws' us u wf Hr Hc Hp Ht' Hu Hne.
  destruct (path_api E t w b dyn t' ws' us (WrongType (tix E t') (tix E u) (tix E t')) (le 4 (tix E u)) wf Hc Hp) as (f0 & H).
  { apply (damaged_fails E wf Hc). apply DaHeader; [eapply tix_bound; eauto|].
    intros Hx. apply Hne. eapply tix_inj; eauto. }
  exists f0. intros f Hf. cbv zeta.
  pose proof (fails_refused _ _ _ _ _ _ (H f Hf)) as HR. split; [exact HR|].
  intros k body rest. unfold framed. rewrite Hc. destruct HR as (H1 & H2). split.
  - intros before after.
    specialize (H1 before (body ++ le 8 (wrap64 (sizeof E u * N.of_nat k)) ++ rest ++ after)).
    rewrite <- !app_assoc in *. exact H1.
  - intros after m.
    specialize (H2 (body ++ le 8 (wrap64 (sizeof E u * N.of_nat k)) ++ rest ++ after) m).
    rewrite <- !app_assoc in *. exact H2.
Qed.
Print Assumptions C12_mismatch.

(** The same for words that are no type index at all, and for objects whose
    contents are intact but whose size differs: as many enclosing objects as the depth says,
    and all of them in the message. *)
Theorem C13_depth : forall E t w b dyn t' ws' us i l,
  wf_env any E -> chk E = true ->
  path E false t [w] b dyn t' ws' us -> damaged E dyn t' ws' i l ->
  exists f0, forall f, (f0 <= f)%nat ->
    refused E f t w (b ++ i) (SerErr (length us) (l :: frames E 1 us)).
Proof.
  intros E t w b dyn t' ws' us i l wf Hc Hp Hd.
  destruct (path_api E t w b dyn t' ws' us l i wf Hc Hp) as (f0 & H).
  { now apply (damaged_fails E wf Hc). }
  exists f0. intros f Hf. apply fails_refused. auto.
Qed.
Print Assumptions C13_depth.

(** Node > unique_ptr > Node > vector<string> > string > characters: the reader
    stands before the characters of the second string, five objects deep. *)
Definition ex_node0 : val := VObj 0 [[VB (zeros 8); VVec 0 []; VOpt None]].
Definition ex_prefix (E : env) : bytes :=
  le 4 (tix E (TClass 0)) ++
  (enc E DBL (VB (zeros 8)) ++ enc E (TVector TString) (VVec 0 []) ++ []) ++
  le 4 (tix E (TUnique (TClass 0))) ++ wbool E false ++
  le 4 (tix E (TClass 0)) ++ (enc E DBL (VB (zeros 8)) ++ []) ++
  le 4 (tix E (TVector TString)) ++ (wsize E 2 ++ wsize E 2) ++
  le 4 (tix E TString) ++ encb E TString (VStr 15 [x41; x42]) ++ wsize E 3.

Lemma path_one : forall E t w p t1 ws1 b dyn2 t2 ws2 us,
  is_virtual E t = false -> step E t w p t1 ws1 -> path E false t1 ws1 b dyn2 t2 ws2 us ->
  path E false t [w] (le 4 (tix E t) ++ p ++ b) dyn2 t2 ws2 (us ++ [t]).
Proof.
  intros E t w p t1 ws1 b dyn2 t2 ws2 us Hv Hs Hp. eapply PaDown; [|exact Hp].
  apply (WiElem E t [] [] w []); auto.
Qed.
(** The types of the objects around it, from the inside out. *)
Definition ex_types_above : list ty :=
  [TString; TVector TString; TClass 0; TUnique (TClass 0); TClass 0].
Lemma ex_prefix_path :
  path (ex true) false (TClass 0) [ex_node0] (ex_prefix (ex true)) false CHAR
    (map (fun c => VB [c]) (sized 3 x00 [])) ex_types_above.
Proof.
  unfold ex_prefix.
  assert (Hd : intact (ex true) DBL (VB (zeros 8)) (VB (zeros 8))).
  { split; constructor; reflexivity. }
  assert (Hv : intact (ex true) (TVector TString) (VVec 0 []) (VVec 0 [])).
  { split; [ht|]. constructor; [exact I|now left|constructor]. }
  assert (Hs : intact (ex true) TString (VStr 15 [x41; x42]) (VStr 15 [])).
  { split; [ht|]. constructor. }
  apply (path_one (ex true) (TClass 0) ex_node0 _ (TUnique (TClass 0)) [VOpt None] _ _ _ _
    [TString; TVector TString; TClass 0; TUnique (TClass 0)]); [reflexivity| |].
  { apply (StMember (ex true) 0 cNode 0 [[VB (zeros 8); VVec 0 []; VOpt None]]
      [VB (zeros 8); VVec 0 []; VOpt None] [0; 1]%nat 2 []); try reflexivity.
    - apply (ShCons _ _ _ 0 _ DBL _ (VB (zeros 8))); [reflexivity|reflexivity|exact Hd|cbn; intuition lia|].
      apply (ShCons _ _ _ 1 _ (TVector TString) _ (VVec 0 []));
        [reflexivity|reflexivity|exact Hv|cbn; intuition lia|]. constructor.
    - cbn. intuition lia. }
  apply (path_one (ex true) (TUnique (TClass 0)) (VOpt None) _ (TClass 0) [ex_node0] _ _ _ _
    [TString; TVector TString; TClass 0]); [reflexivity| |].
  { apply StPointedNew; reflexivity. }
  apply (path_one (ex true) (TClass 0) ex_node0 _ (TVector TString) [VVec 0 []] _ _ _ _
    [TString; TVector TString]); [reflexivity| |].
  { apply (StMember (ex true) 0 cNode 0 [[VB (zeros 8); VVec 0 []; VOpt None]]
      [VB (zeros 8); VVec 0 []; VOpt None] [0]%nat 1 [2]%nat); try reflexivity.
    - apply (ShCons _ _ _ 0 _ DBL _ (VB (zeros 8))); [reflexivity|reflexivity|exact Hd|cbn; intuition lia|].
      constructor.
    - cbn. intuition lia. }
  apply (path_one (ex true) (TVector TString) (VVec 0 []) _ TString [VStr 15 []; VStr 15 []] _ _ _ _
    [TString]); [reflexivity| |].
  { apply (StVecData (ex true) TString 0 [] 2 2 (VStr 15 [])); [reflexivity|lia|reflexivity|reflexivity|now left]. }
  pose proof (PaDown (ex true) false TString [VStr 15 []; VStr 15 []]
    (concat (map (encb (ex true) TString) [VStr 15 [x41; x42]]) ++ wsize (ex true) 3) false CHAR
    (map (fun c => VB [c]) (sized 3 x00 [])) [] false CHAR (map (fun c => VB [c]) (sized 3 x00 [])) []) as H.
  cbn [map concat] in H. rewrite !app_nil_r in H. apply H; [|apply PaHere].
  pose proof (WiElem (ex true) TString [VStr 15 [x41; x42]] [VStr 15 []] (VStr 15 []) []
    (wsize (ex true) (N.of_nat 3)) CHAR (map (fun c => VB [c]) (sized 3 x00 []))) as H'.
  cbn [map concat] in H'. rewrite app_nil_r in H'. apply H'; [reflexivity| |].
  - constructor; [exact Hs|constructor].
  - apply (StStrChars (ex true) 15 [] 3); [lia|reflexivity].
Qed.
(** There a double instead, and what the API then does. *)
Example C12_example :
  path (ex true) false (TClass 0) [ex_node0] (ex_prefix (ex true)) false CHAR
    (map (fun c => VB [c]) (sized 3 x00 [])) ex_types_above /\
  In CHAR ex_types /\ In DBL ex_types /\ DBL <> CHAR /\
  deserialize (ex true) 20 (TClass 0) (ex_prefix (ex true) ++ enc (ex true) DBL (VB (zeros 8))) 0
    = Err (SerErr 5 (WrongType (tix (ex true) CHAR) (tix (ex true) DBL) (tix (ex true) CHAR)
                     :: frames (ex true) 1 ex_types_above)).
Proof.
  split; [exact ex_prefix_path|]. split; [cbn; tauto|]. split; [cbn; tauto|].
  split; [discriminate|vm_compute; reflexivity].
Qed.
Example C13_example :
  path (ex true) false (TClass 0) [ex_node0] (ex_prefix (ex true)) false CHAR
    (map (fun c => VB [c]) (sized 3 x00 [])) ex_types_above /\
  damaged (ex true) false CHAR (map (fun c => VB [c]) (sized 3 x00 []))
    (le 4 (tix (ex true) CHAR) ++ concat (map (encb (ex true) CHAR) [VB [x61]; VB [x62]; VB [x63]]) ++ le 8 4)
    (MemUsed (tix (ex true) CHAR) 4 3) /\
  deserialize (ex true) 20 (TClass 0) (ex_prefix (ex true) ++
    (le 4 (tix (ex true) CHAR) ++ concat (map (encb (ex true) CHAR) [VB [x61]; VB [x62]; VB [x63]]) ++ le 8 4)) 0
    = Err (SerErr 5 (MemUsed (tix (ex true) CHAR) 4 3 :: frames (ex true) 1 ex_types_above)).

Proof.
  split; [exact ex_prefix_path|]. split; [|vm_compute; reflexivity].
  apply DaTrailer.
  - repeat (constructor; [split; constructor; reflexivity|]). constructor.
  - discriminate.
  - discriminate.
  - reflexivity.
  - vm_compute. discriminate.
Qed.

(** ** C38: readers and writers that visit different members *)

Lemma path_snoc : forall E dyn t ws b dyn2 t2 ws2 us p dyn3 t3 ws3,
  path E dyn t ws b dyn2 t2 ws2 us -> within E dyn2 t2 ws2 p dyn3 t3 ws3 ->
  path E dyn t ws (b ++ le 4 (tix E t2) ++ p) dyn3 t3 ws3 (t2 :: us).
Proof.
  intros E dyn t ws b dyn2 t2 ws2 us p dyn3 t3 ws3 H Hw.
  induction H as [dyn t ws|dyn t ws q dyn1 t1 ws1 b dyn2 t2 ws2 us Hw1 H IH].
  - cbn [app]. rewrite <- (app_nil_r p) at 1. apply (PaDown E _ _ _ _ _ _ _ _ _ _ _ []) with (1 := Hw). apply PaHere.
  - rewrite <- !app_assoc. rewrite app_comm_cons. eapply PaDown; [exact Hw1|]. now apply IH.
Qed.

(** A reader that diverges from the writer either is done while the writer wrote
    another member, or expects a member where the writer wrote one of another type
    or was done. *)
Lemma diverge : forall E ts fs ws wl b, Forall2 (fresh any E) ts ws -> wrote E ts fs wl b ->
  forall rl, NoDup rl -> (forall i, In i rl -> (i < length ts)%nat) ->
  map (nth_error ts) wl <> map (nth_error ts) rl ->
  (exists b1 u v b2, shows E ts ws rl b1 /\ b = b1 ++ enc E u v ++ b2) \/
  (exists is_ i r b1 t w, rl = is_ ++ i :: r /\ shows E ts ws is_ b1 /\ ~ In i is_ /\
     nth_error ts i = Some t /\ nth_error ws i = Some w /\
     (b = b1 \/ exists u v b2, In u ts /\ u <> t /\ b = b1 ++ enc E u v ++ b2)).
Proof.
  intros E ts fs ws wl b Hf H. induction H as [|j wl u v b Ej Ev Hu Hw IH]; intros rl Hn Hin Hne.
  - destruct rl as [|i rl]; [now contradiction Hne|]. right.
    assert (Hi : (i < length ts)%nat) by (apply Hin; now left).
    pose proof (Forall2_length _ _ _ _ _ Hf) as Hl.
    destruct (nth_error ts i) as [t|] eqn:Et; [|apply nth_error_None in Et; lia].
    destruct (nth_error ws i) as [w|] eqn:Ew; [|apply nth_error_None in Ew; lia].
    exists [], i, rl, [], t, w. repeat split; auto. constructor.
  - destruct rl as [|i rl].
    { left. exists [], u, v, b. split; [constructor|reflexivity]. }
    inversion Hn; subst.
    assert (Hi : (i < length ts)%nat) by (apply Hin; now left).
    pose proof (Forall2_length _ _ _ _ _ Hf) as Hl.
    destruct (nth_error ts i) as [t|] eqn:Et; [|apply nth_error_None in Et; lia].
    destruct (nth_error ws i) as [w|] eqn:Ew; [|apply nth_error_None in Ew; lia].
    destruct (ty_eqb u t) eqn:Eu.
    + apply ty_eqb_eq in Eu. subst t.
      assert (Hi' : intact E u v w).
      { split; auto. eapply fresh_tgt; [|exact (Forall2_nth _ _ _ _ _ _ _ _ Hf Et Ew)|exact Hu]. intros; exact I. }
      assert (Hne' : map (nth_error ts) wl <> map (nth_error ts) rl).
      { intros He. apply Hne. cbn [map]. rewrite Ej, Et, He. reflexivity. }
      destruct (IH rl H2 (fun k Hk => Hin k (or_intror Hk)) Hne') as
        [(b1 & u1 & v1 & b2 & Hs & ->)|(is_ & k & r & b1 & t1 & w1 & -> & Hs & Hk & Et1 & Ew1 & Hb)].
      * left. exists (enc E u v ++ b1), u1, v1, b2. split; [|now rewrite <- !app_assoc].
        eapply ShCons; eauto.
      * right. exists (i :: is_), k, r, (enc E u v ++ b1), t1, w1.
        assert (Hni : ~ In i is_ /\ i <> k).
        { split; [intros X; apply H1, in_or_app; now left|intros ->; apply H1, in_or_app; right; now left]. }
        split; [reflexivity|]. split; [eapply ShCons; eauto; tauto|].
        split; [intros [X|X]; [now apply (proj2 Hni)|auto]|]. split; [auto|]. split; [auto|].
        destruct Hb as [->|(u2 & v2 & b2 & Hu2 & Hne2 & ->)]; [now left|].
        right. exists u2, v2, b2. split; [auto|]. split; [auto|]. now rewrite <- !app_assoc.
    + right. exists [], i, rl, [], t, w. split; [reflexivity|]. split; [constructor|]. split; [auto|].
      split; [auto|]. split; [auto|]. right. exists u, v, b. split; [eapply nth_error_In; eauto|].
      split; [|reflexivity]. intros ->. now rewrite ty_eqb_refl in Eu.
Qed.

(** Sizes of classes are far below the type indices. *)
Lemma tix_big : forall F E t, wf_env F E -> 2 ^ 31 <= tix E t.
Proof.
  intros F E t wf. destruct (wf_tix _ _ wf t) as (_ & H).
  assert (Hs : N.land (tix E t) 4278190335 + N.ldiff (tix E t) 4278190335 = tix E t).
  { rewrite N.add_nocarry_lxor.
    - apply N.bits_inj. intros k. rewrite N.lxor_spec, N.land_spec, N.ldiff_spec.
      destruct (N.testbit (tix E t) k), (N.testbit 4278190335 k); reflexivity.
    - apply N.bits_inj_0. intros k. rewrite !N.land_spec, N.ldiff_spec.
      destruct (N.testbit (tix E t) k), (N.testbit 4278190335 k); reflexivity. }
  rewrite H in Hs. change (2 ^ 31) with 2147483648. lia.
Qed.

Lemma le_app : forall a b n, le (a + b) n = le a n ++ le b (n / 256 ^ N.of_nat a).
Proof.
  induction a; intros b n.
  - cbn [plus le app]. change (256 ^ N.of_nat 0) with 1. now rewrite N.div_1_r.
  - cbn [plus le app]. rewrite IHa. f_equal. f_equal. f_equal.
    rewrite N.div_div by (try discriminate; apply N.pow_nonzero; discriminate).
    f_equal. replace (N.of_nat (S a)) with (N.succ (N.of_nat a)) by lia. now rewrite N.pow_succ_r'.
Qed.

Lemma le_mod : forall k n, le k (n mod 256 ^ N.of_nat k) = le k n.
Proof.
  induction k; intros n; [reflexivity|].
  replace (256 ^ N.of_nat (S k)) with (256 * 256 ^ N.of_nat k)
    by (replace (N.of_nat (S k)) with (N.succ (N.of_nat k)) by lia; now rewrite N.pow_succ_r').
  assert (Hp : 256 ^ N.of_nat k <> 0) by (apply N.pow_nonzero; discriminate).
  rewrite N.mod_mul_r by (auto; discriminate). cbn [le]. f_equal.
  - apply byte_of_iff. rewrite byte_of_to_N.
    rewrite N.mul_comm, N.mod_add by discriminate. now rewrite N.mod_mod.
  - rewrite N.mul_comm, N.div_add by discriminate.
    rewrite (N.div_small (n mod 256)) by (apply N.mod_lt; discriminate). apply IHk.
Qed.
Lemma word_split : forall n, exists r, le 8 n = le 4 (n mod 2 ^ 32) ++ r.
Proof.
  intros n. exists (le 4 (n / 256 ^ N.of_nat 4)). rewrite (le_app 4 4). f_equal.
  symmetry. apply (le_mod 4).
Qed.
Lemma app_inj_l : forall A (a b c d : list A), a ++ b = c ++ d -> length a = length c -> a = c.
Proof.
  induction a as [|x a IH]; intros b [|y c] d H Hl; try discriminate; auto.
  inversion H; subst. f_equal. cbn in Hl. eauto.
Qed.
Lemma refused_more : forall E f t w i x r, refused E f t w i x -> refused E f t w (i ++ r) x.
Proof.
  intros E f t w i x r (H1 & H2). split; intros; rewrite <- app_assoc; auto.
Qed.

(** The error is one about the object of class [c], inside others of types [us], or about
    one of its members. *)
Definition member_error (E : env) (c : nat) (k : class) (us : list ty) (e : nat) (msg : list line)
  : Prop :=
  e = length us /\ (exists z, msg = MemUsed (tix E (TClass c)) z (csize k) :: frames E 1 us) \/
  e = S (length us) /\ exists t' z, In t' (cfields k) /\
    msg = WrongType (tix E t') z (tix E t') :: frames E 1 (TClass c :: us).

(** At the end of any path: [b'] is what the writer wrote for the members. *)
Theorem C38_anywhere : forall E ts t w b us c k d ls ws fs b',
  wf_env any E -> registered E ts -> chk E = true ->
  path E false t [w] b (is_virtual E (TClass c)) (TClass c) [VObj d ls] us ->
  cls E c = Some k -> cbyte k = false -> csize k < 2 ^ 31 ->
  (forall u, In u (cfields k) -> In u ts) ->
  nth_error ls (level E c) = Some ws -> Forall2 (fresh any E) (cfields k) ws ->
  wrote E (cfields k) fs (cser k MPacking) b' ->
  NoDup (cser k MUnpacking) -> (forall i, In i (cser k MUnpacking) -> (i < length (cfields k))%nat) ->
  map (nth_error (cfields k)) (cser k MPacking) <> map (nth_error (cfields k)) (cser k MUnpacking) ->
  exists f0 e msg, member_error E c k us e msg /\ forall f, (f0 <= f)%nat ->
    refused E f t w (b ++ framed E (TClass c) 1 b') (SerErr e msg).
Proof.
  intros E ts t w b us c k d ls ws fs b' wf Hr Hc Hp Hk Hb Hsz Hts Hl Hf Hw Hn Hin Hne.
  assert (Hs64 : wrap64 (sizeof E (TClass c) * N.of_nat 1) = csize k).
  { cbn [sizeof]. rewrite Hk. rewrite N.mul_1_r. apply N.mod_small.
    change two64 with (2 ^ 64). change (2 ^ 31) with 2147483648 in Hsz. change (2 ^ 64) with 18446744073709551616. lia. }
  assert (Hstep : forall is_ i r b1 t1 w1, cser k MUnpacking = is_ ++ i :: r ->
    shows E (cfields k) ws is_ b1 -> ~ In i is_ -> nth_error (cfields k) i = Some t1 ->
    nth_error ws i = Some w1 ->
    within E (is_virtual E (TClass c)) (TClass c) [VObj d ls] b1 false t1 [w1]).
  { intros is_ i r b1 t1 w1 E1 E2 E3 E4 E5.
    assert (Hst : step E (TClass c) (VObj d ls) b1 t1 [w1]) by (eapply StMember; eauto).
    destruct (is_virtual E (TClass c)) eqn:Ev; [now apply WiPart|].
    apply (WiElem E (TClass c) [] [] (VObj d ls) []); auto. }
  destruct (diverge _ _ _ _ _ _ Hf Hw _ Hn Hin Hne) as
    [(b1 & u & v & b2 & Hs & ->)|(is_ & i & r & b1 & t1 & w1 & He & Hs & Hi & Et & Ew & Hcase)].
  - (* the reader takes the type index of the next member for the size *)
    set (z := unle (firstn 8 (enc E u v))).
    assert (Hz : exists rest, enc E u v = le 8 z ++ rest).
    { exists (skipn 8 (enc E u v)). rewrite <- (firstn_skipn 8 (enc E u v)) at 1. f_equal.
      unfold z. rewrite <- (le_unle (firstn 8 (enc E u v))) at 1. f_equal.
      rewrite firstn_length. unfold enc, framed. rewrite Hc, !app_length, !le_length. lia. }
    destruct Hz as (rest & Hz).
    assert (Hzlt : z < two64).
    { unfold z. eapply N.lt_le_trans; [apply unle_bound|].
      change two64 with (256 ^ 8). apply N.pow_le_mono_r; [discriminate|].
      unfold len. rewrite firstn_length. lia. }
    assert (Hzn : z <> wrap64 (sizeof E (TClass c))).
    { rewrite <- (N.mul_1_r (sizeof E (TClass c))). change 1 with (N.of_nat 1). rewrite Hs64.
      destruct (word_split z) as (r & Hz4). rewrite Hz4 in Hz. unfold enc, framed in Hz. rewrite Hc in Hz.
      rewrite <- app_assoc in Hz. apply app_inj_l in Hz; [|now rewrite !le_length].
      apply le_inj in Hz; [|exact (proj1 (wf_tix _ _ wf u))|apply N.mod_lt; discriminate].
      pose proof (tix_big _ _ u wf). pose proof (N.mod_le z (2 ^ 32) ltac:(discriminate)). lia. }
    destruct (C13_depth E t w b _ _ _ us _ _ wf Hc Hp
      (DaMembers E c k d ls ws b1 z Hk Hb Hl Hs Hzlt Hzn)) as (f0 & H).
    exists f0. do 2 eexists. split; [left; split; [reflexivity|exists z; reflexivity]|].
    intros f Hff. specialize (H f Hff).
    rewrite <- (N.mul_1_r (sizeof E (TClass c))) in H. change 1 with (N.of_nat 1) in H at 1. rewrite Hs64 in H.
    unfold framed. rewrite Hc, Hz.
    eapply refused_more in H. rewrite <- !app_assoc in *. exact H.
  - assert (Hd : exists z rest, z < 2 ^ 32 /\ z <> tix E t1 /\
      b' ++ le 8 (wrap64 (sizeof E (TClass c) * N.of_nat 1)) = b1 ++ le 4 z ++ rest).
    { destruct Hcase as [->|(u & v & b2 & Hu & Hut & ->)].
      - destruct (word_split (csize k)) as (rest & Hz4). exists (csize k mod 2 ^ 32), rest.
        assert (Hm : csize k mod 2 ^ 32 = csize k).
        { apply N.mod_small. change (2 ^ 32) with 4294967296. change (2 ^ 31) with 2147483648 in Hsz. lia. }
        split; [apply N.mod_lt; discriminate|]. split.
        + pose proof (tix_big _ _ t1 wf). rewrite Hm. lia.
        + now rewrite Hs64, Hz4.
      - exists (tix E u). unfold enc, framed. rewrite Hc. eexists.
        split; [eapply tix_bound; eauto|]. split.
        + intros Hx. apply Hut. eapply tix_inj; eauto. apply Hts. eapply nth_error_In; eauto.
        + rewrite <- !app_assoc. reflexivity. }
    destruct Hd as (z & rest & Hz1 & Hz2 & Hd).
    destruct (C13_depth E t w _ _ _ _ (TClass c :: us) _ _ wf Hc
      (path_snoc _ _ _ _ _ _ _ _ _ _ _ _ _ Hp (Hstep _ _ _ _ _ _ He Hs Hi Et Ew))
      (DaHeader E false t1 [w1] z Hz1 Hz2)) as (f0 & H).
    exists f0. do 2 eexists. split.
    { right. split; [reflexivity|]. exists t1, z. split; [|reflexivity]. eapply nth_error_In; eauto. }
    intros f Hff. specialize (H f Hff).
    unfold framed. rewrite Hc, Hd.
    eapply refused_more in H. rewrite <- !app_assoc in *. exact H.
Qed.
Print Assumptions C38_anywhere.

Lemma wrote_zip : forall E ts fs is_, Forall2 (has_ty E) ts fs ->
  (forall i, In i is_ -> (i < length ts)%nat) ->
  wrote E ts fs is_ (concat (map (fun i => nth i (zipenc E ts fs) []) is_)).
Proof.
  intros E ts fs is_ H. induction is_ as [|i r IH]; intros Hi; [constructor|].
  cbn [map concat]. assert (Hlt : (i < length ts)%nat) by (apply Hi; now left).
  pose proof (Forall2_length _ _ _ _ _ H) as Hl.
  destruct (nth_error ts i) as [t|] eqn:Et; [|apply nth_error_None in Et; lia].
  destruct (nth_error fs i) as [x|] eqn:Ex; [|apply nth_error_None in Ex; lia].
  rewrite (zipenc_nth _ _ _ _ _ _ Et Ex). econstructor; eauto.
  - exact (Forall2_nth _ _ _ _ _ _ _ _ H Et Ex).
  - apply IH. intros j Hj. apply Hi. now right.
Qed.

(** What is written for an object of a class whose serialize function may depend
    on the mode. *)
Lemma emits_odd : forall E m c k fs f, wf_env any E -> m = MPacking \/ m = MSizing ->
  cls E c = Some k -> cvirt k = false -> cbyte k = false -> Forall2 (has_ty E) (cfields k) fs ->
  (depth (VObj c [fs]) < f)%nat -> (forall i, In i (cser k m) -> (i < length (cfields k))%nat) ->
  exists b, wrote E (cfields k) fs (cser k m) b /\
    emits (with_root E m f (TClass c) (VObj c [fs])) false (VObj c [fs]) false (root_frame E (TClass c) b).
Proof.
  intros E m c k fs f wf Hm Hk Hv Hb Ht Hd Hi. eexists. split; [apply wrote_zip; eauto|].
  apply emits_root; [exact Hm|]. destruct f as [|f]; [lia|].
  assert (Hp : cparent k = None).
  { destruct (cparent k) as [p|] eqn:Ep; auto. destruct (wf_parent _ _ wf _ _ _ Hk Ep) as (_ & Hx & _). congruence. }
  assert (Hlv : level E c = O) by (unfold level, chain; cbn [chain_n]; now rewrite Hk, Hp).
  unfold ser. rewrite <- (app_nil_r (framed _ _ _ _)).
  eapply emits_bind with (a := [VObj c [fs]]) (vf1 := false); [|apply emits_ret].
  cbn [with_]. unfold traverse. cbn [length].
  apply (emits_framed E m Hm). unfold ap. cbn [bytecopy]. rewrite Hk, Hb.
  cbn [is_virtual]. rewrite Hk, Hv. cbn [mapP apply_elem]. unfold apply_static. rewrite Hk, Hlv.
  cbn [nth_error].
  rewrite <- (app_nil_r (concat _)). eapply emits_bind with (a := VObj c [fs]) (vf1 := false).
  2: { cbn [bind]. apply emits_ret. }
  apply emits_note. rewrite <- (app_nil_r (concat _)).
  eapply emits_bind with (a := fs) (vf1 := false).
  - apply p_members with (n := f); auto.
    + apply (pack_all any E wf m Hm f).
    + cbn [depth fold_right] in Hd. destruct (fold_depth fs f) as (Hs & _); [|exact Hs]. lia.
  - apply emits_note. cbn [upd]. apply emits_ret.
Qed.

(** An object that a class wrote into a buffer, read back by a reader of the class
    that visits other members. *)
Theorem C38_members : forall E ts c k fs f s,
  wf_env any E -> registered E ts -> chk E = true ->
  cls E c = Some k -> cvirt k = false -> cbyte k = false -> csize k < 2 ^ 31 ->
  (forall u, In u (cfields k) -> In u ts) -> constructible E (TClass c) ->
  Forall2 (has_ty E) (cfields k) fs -> (depth (VObj c [fs]) < f)%nat ->
  (forall m i, In i (cser k m) -> (i < length (cfields k))%nat) -> NoDup (cser k MUnpacking) ->
  map (nth_error (cfields k)) (cser k MPacking) <> map (nth_error (cfields k)) (cser k MUnpacking) ->
  serialize E f (TClass c) (VObj c [fs]) None = Ok s ->
  exists f0 e msg, member_error E c k [] e msg /\ forall f', (f0 <= f')%nat ->
    (forall before after,
       deserialize E f' (TClass c) (before ++ s_bytes s ++ after) (length before) = Err (SerErr e msg)) /\
    (forall after n,
       deserialize_from_stream E f' (TClass c) {| i_data := s_bytes s ++ after; i_nbytes := wrap64 n |}
         = Err (SerErr e msg)).
Proof.
  intros E ts c k fs f s wf Hr Hc Hk Hv Hb Hsz Hts Hco Ht Hd Hi Hn Hne Hs.
  destruct (emits_odd E MSizing c k fs f wf (or_intror eq_refl) Hk Hv Hb Ht Hd (Hi MSizing))
    as (bz & _ & Hz).
  destruct (emits_odd E MPacking c k fs f wf (or_introl eq_refl) Hk Hv Hb Ht Hd (Hi MPacking))
    as (b & Hw & Hpk).
  apply serialize_inv in Hs. destruct Hs as (v1 & n & v2 & vf2 & Hg & He & _).
  assert (v1 = VObj c [fs]).
  { unfold get_size in Hg. pose proof (emits_sizer _ _ _ _ _ _ Hz 0) as H.
    change (wrap64 0) with 0 in H. rewrite H in Hg. now inversion Hg. }
  subst v1. destruct (emits_fun _ _ _ _ _ _ _ _ _ He Hpk) as (_ & _ & ->).
  assert (Hp : cparent k = None).
  { destruct (cparent k) as [p|] eqn:Ep; auto. destruct (wf_parent _ _ wf _ _ _ Hk Ep) as (_ & Hx & _). congruence. }
  assert (Hch : chain E c = [c]) by (unfold chain; cbn [chain_n]; now rewrite Hk, Hp).
  unfold constructible in Hco. destruct (recon E (TClass c)) as [o|] eqn:Eo; [|congruence].
  pose proof Eo as Eo'. cbn [recon] in Eo'. rewrite Hk, Hb in Eo'. cbn [andb] in Eo'.
  destruct (first_some (ctag k) (first_some (crecon k) (cdefault k))) as [ls|] eqn:El;
    cbn [option_map] in Eo'; [|discriminate]. inversion Eo'; subst o; clear Eo'.
  assert (Hfr : ctag k = Some ls \/ crecon k = Some ls \/ cdefault k = Some ls).
  { unfold first_some in El. destruct (ctag k); auto. destruct (crecon k); auto. }
  pose proof (wf_ctor _ _ wf _ _ _ Hk Hfr) as Hls. rewrite Hch in Hls.
  inversion Hls as [|? ws ? rest (k' & Hk' & Hws) Hrest]; subst. inversion Hrest; subst.
  rewrite Hk in Hk'. inversion Hk'; subst k'.
  destruct (C38_anywhere E ts (TClass c) (VObj c [ws]) [] [] c k c [ws] ws fs b wf Hr Hc) as (f0 & e & msg & Hee & H); auto.
  - assert (Hvf : is_virtual E (TClass c) = false) by (cbn [is_virtual]; now rewrite Hk, Hv).
    rewrite Hvf. apply PaHere.
  - unfold level. now rewrite Hch.
  - intros i. apply Hi.
  - exists f0, e, msg. split; [exact Hee|]. intros f' Hf'. specialize (H f' Hf').
    assert (Hfrm : framed E (TClass c) 1 b = root_frame E (TClass c) b).
    { unfold framed, root_frame. now rewrite Hc, N.mul_1_r. }
    cbn [app] in H. rewrite Hfrm in H. apply (refused_new _ _ _ _ _ _ H Eo).
Qed.
Print Assumptions C38_members.

(** Whoever visits fewer or more members visits others. *)
Lemma count_differs : forall (ts : list ty) l l', length l <> length l' ->
  map (nth_error ts) l <> map (nth_error ts) l'.
Proof. intros ts l l' H He. apply H. now rewrite <- (map_length (nth_error ts) l), He, map_length. Qed.

Definition odd_members : list val := [VB (zeros 4); VB (zeros 8); VStr 15 [x41]].
(** Long reads fewer members than it writes, Short more, Swapped others. *)
Example C38_example : forall c k, In (c, k) [(8, cLong); (9, cShort); (10, cSwapped)]%nat ->
  registered (ex true) ex_types /\ cls (ex true) c = Some k /\ csize k < 2 ^ 31 /\
  (forall u, In u (cfields k) -> In u ex_types) /\ constructible (ex true) (TClass c) /\
  Forall2 (has_ty (ex true)) (cfields k) odd_members /\ NoDup (cser k MUnpacking) /\
  (forall m i, In i (cser k m) -> (i < length (cfields k))%nat) /\
  map (nth_error (cfields k)) (cser k MPacking) <> map (nth_error (cfields k)) (cser k MUnpacking) /\
  exists s e, serialize (ex true) 10 (TClass c) (VObj c [odd_members]) None = Ok s /\
    reported e (deserialize (ex true) 10 (TClass c) (s_bytes s) 0).
Proof.
  intros c k H. cbn [In] in H.
  assert (Hall : Forall2 (has_ty (ex true)) [OINT; DBL; TString] odd_members).
  { unfold odd_members. repeat (constructor; [ht|]). constructor. }
  split; [apply ex_registered|].
  repeat (destruct H as [H|H]; [inversion H; subst; clear H;
    (split; [reflexivity|]); (split; [reflexivity|]);
    (split; [cbn; intros u Hu; intuition (subst; tauto)|]);
    (split; [vm_compute; discriminate|]); (split; [exact Hall|]);
    (split; [repeat (constructor; [cbn; intuition lia|]); constructor|]);
    (split; [intros m i; destruct m; cbn; intuition lia|]);
    (split; [cbn; discriminate|])|]); [| | |contradiction].
  - exists (match serialize (ex true) 10 (TClass 8) (VObj 8 [odd_members]) None with
      | Ok s => s | Err _ => {| s_managed := true; s_size := 0; s_bytes := []; s_mem := []; s_calls := []; s_obj := VB [] |} end), O.
    split; vm_compute; reflexivity.
  - exists (match serialize (ex true) 10 (TClass 9) (VObj 9 [odd_members]) None with
      | Ok s => s | Err _ => {| s_managed := true; s_size := 0; s_bytes := []; s_mem := []; s_calls := []; s_obj := VB [] |} end), 1%nat.
    split; vm_compute; reflexivity.
  - exists (match serialize (ex true) 10 (TClass 10) (VObj 10 [odd_members]) None with
      | Ok s => s | Err _ => {| s_managed := true; s_size := 0; s_bytes := []; s_mem := []; s_calls := []; s_obj := VB [] |} end), 1%nat.
    split; vm_compute; reflexivity.
Qed.

(** ** C15: serialize functions that pack what they did not size *)

(** What [v] packs to is observed with a stream, which takes any amount. *)
Definition packs_to (E : env) (f : nat) (t : ty) (v : val) (out : bytes) : Prop :=
  exists v' o, serialize_to_stream E f t v {| o_data := []; o_room := None; o_bad := false; o_nbytes := 0 |}
    = Ok (v', o) /\ o_data o = out.

Lemma packs_emits : forall E f t v out v1 n, get_size E f t v = Ok (v1, n) -> packs_to E f t v out ->
  exists v' vf, emits (with_root E MPacking f t v1) false v' vf out.
Proof.
  intros E f t v out v1 n Hg (v' & o & Hs & Ho).
  apply to_stream_inv in Hs. destruct Hs as (v2 & n2 & vf & out' & Hg' & He & Hd).
  rewrite Hg in Hg'. inversion Hg'; subst. cbn [app] in *. rewrite Hd. eauto.
Qed.

Lemma sized_small : forall E f t v v1 n, get_size E f t v = Ok (v1, n) -> n < two64.
Proof.
  intros E f t v v1 n H. unfold get_size in H.
  destruct (interp sizer (with_root E MSizing f t v) false 0) as [[[v' vf] n']|] eqn:Ei; [|discriminate].
  inversion H; subst. assert (Hs : forall A (p : prog A) vf s a vf' s', s < two64 ->
    interp sizer p vf s = Ok (a, vf', s') -> s' < two64).
  { clear. intros A p. induction p; intros vf s x vf' s' Hs Hi; cbn [interp] in Hi; eauto.
    - now inversion Hi; subst.
    - cbn [contig sizer] in Hi. apply H in Hi; auto. apply N.mod_lt. discriminate.
    - discriminate. }
  eapply Hs; [|exact Ei]. reflexivity.
Qed.

(** In no case a buffer is returned: the returned number of bytes is the sized one
    and these bytes are what was packed. *)
Theorem C15_no_buffer_partial : forall E f t v v1 n out fn s,
  get_size E f t v = Ok (v1, n) -> packs_to E f t v out ->
  (forall g r, fn = Some g -> g n = Some r -> len (r_buf r) = n /\ len (r_after r) < two64 - n) ->
  serialize E f t v fn = Ok s -> len out = n /\ s_size s = n.
Proof.
  intros E f t v v1 n out fn s Hg Hp Hfn Hs.
  pose proof (sized_small _ _ _ _ _ _ Hg) as Hn.
  destruct (packs_emits _ _ _ _ _ _ _ Hg Hp) as (v' & vf & He).
  assert (H : forall r m calls, len (r_buf r) = n -> len (r_after r) < two64 - n ->
    pack_memory E f t v1 n m calls r = Ok s -> len out = n /\ s_size s = n).
  { intros r m calls Hl Hl2 H. unfold pack_memory in H.
    destruct (interp packer _ _ _) as [[[v2 vf2] st]|] eqn:Ei; [|discriminate].
    destruct (p_used st =? n) eqn:Eu; [|discriminate]. apply N.eqb_eq in Eu.
    inversion H; subst s. cbn [s_size]. split; [|reflexivity].
    apply packer_emits in Ei; cbn [p_cur p_buf p_used] in *; [|rewrite !app_length; lia].
    destruct Ei as (out' & He' & Hlen & _ & _ & Hu).
    destruct (emits_fun _ _ _ _ _ _ _ _ _ He He') as (_ & _ & ->).
    specialize (Hu eq_refl). rewrite N.add_0_l in Hu. rewrite Hu in Eu.
    rewrite !app_length in Hlen. unfold wrap64 in Eu. rewrite N.mod_small in Eu; [exact Eu|].
    unfold len in *. lia. }
  unfold serialize in Hs. rewrite Hg in Hs.
  assert (Hm : forall calls, pack_memory E f t v1 n true calls
        {| r_before := []; r_buf := repeat x00 (N.to_nat n); r_after := [] |} = Ok s ->
        len out = n /\ s_size s = n).
  { intros calls. apply H; cbn [r_buf r_after].
    - unfold len. rewrite repeat_length. lia.
    - rewrite len_nil. lia. }
  destruct fn as [g|]; [|eauto]. destruct (g n) as [r|] eqn:Eg; [|eauto].
  destruct (Hfn g r eq_refl Eg) as (H1 & H2). eauto.
Qed.
Print Assumptions C15_no_buffer_partial.

(** Packing less than sized throws. *)
Theorem C15_less_partial : forall E f t v v1 n out fn,
  get_size E f t v = Ok (v1, n) -> packs_to E f t v out -> len out < n ->
  (forall g r, fn = Some g -> g n = Some r -> len (r_buf r) = n) ->
  serialize E f t v fn = Err (SerErr 0 [Sized (tix E t) n (len out)]).
Proof.
  intros E f t v v1 n out fn Hg Hp Hlt Hfn.
  pose proof (sized_small _ _ _ _ _ _ Hg) as Hn.
  destruct (packs_emits _ _ _ _ _ _ _ Hg Hp) as (v' & vf & He).
  assert (H : forall r m calls, len (r_buf r) = n ->
    pack_memory E f t v1 n m calls r = Err (SerErr 0 [Sized (tix E t) n (len out)])).
  { intros r m calls Hl. unfold pack_memory.
    assert (Hlb : (length out <= length (r_buf r))%nat) by (unfold len in *; lia).
    rewrite <- (firstn_skipn (length out) (r_buf r)), <- app_assoc.
    pose proof (emits_packer _ _ _ _ _ _ He (r_before r) (firstn (length out) (r_buf r))
      (skipn (length out) (r_buf r) ++ r_after r) (length (r_before r)) 0) as H.
    change (wrap64 0) with 0 in H. rewrite H; [|rewrite firstn_length; lia|reflexivity].
    cbn [p_used]. rewrite N.add_0_l. unfold wrap64. rewrite N.mod_small by lia.
    replace (len out =? n) with false; [reflexivity|]. symmetry. apply N.eqb_neq. lia. }
  unfold serialize. rewrite Hg.
  assert (Hm : forall calls, pack_memory E f t v1 n true calls
        {| r_before := []; r_buf := repeat x00 (N.to_nat n); r_after := [] |}
    = Err (SerErr 0 [Sized (tix E t) n (len out)])).
  { intros calls. apply H. cbn [r_buf]. unfold len. rewrite repeat_length. lia. }
  destruct fn as [g|]; [|apply Hm]. destruct (g n) as [r|] eqn:Eg; [|apply Hm]. eauto.
Qed.
Print Assumptions C15_less_partial.

(** Packing more than sized writes behind the buffer before anything is checked:
    for a buffer of the library this always is undefined behaviour. *)
Theorem C15_more_overflows : forall E f t v v1 n out,
  get_size E f t v = Ok (v1, n) -> packs_to E f t v out -> n < len out ->
  serialize E f t v None = Err UB.
Proof.
  intros E f t v v1 n out Hg Hp Hlt.
  destruct (packs_emits _ _ _ _ _ _ _ Hg Hp) as (v' & vf & He).
  unfold serialize. rewrite Hg. unfold pack_memory. cbn [r_before r_buf r_after app length].
  rewrite (emits_packer_overflow _ _ _ _ _ _ He); [reflexivity| |].
  - cbn [p_buf p_cur]. rewrite app_nil_r, repeat_length. unfold len in Hlt. lia.
  - intros ->. rewrite len_nil in Hlt. lia.
Qed.
Print Assumptions C15_more_overflows.

(** So the claim that a disagreement is always reported by throwing does not hold. *)
Theorem C15_refuted : exists E f t v v1 n out,
  get_size E f t v = Ok (v1, n) /\ packs_to E f t v out /\ len out <> n /\
  serialize E f t v None = Err UB.
Proof.
  exists (ex true), 10%nat, (TClass 11), (VObj 11 [odd_members]), (VObj 11 [odd_members]).
  exists (match get_size (ex true) 10 (TClass 11) (VObj 11 [odd_members]) with Ok (_, n) => n | Err _ => 0 end).
  exists (match serialize_to_stream (ex true) 10 (TClass 11) (VObj 11 [odd_members])
     {| o_data := []; o_room := None; o_bad := false; o_nbytes := 0 |} with Ok (_, o) => o_data o | Err _ => [] end).
  split; [vm_compute; reflexivity|]. split.
  - eexists. eexists. split; [vm_compute; reflexivity|vm_compute; reflexivity].
  - split; [vm_compute; discriminate|vm_compute; reflexivity].
Qed.
Print Assumptions C15_refuted.

(** Stingy packs less than it sizes. *)
Example C15_example : forall b, exists v1 n out,
  get_size (ex b) 10 (TClass 12) (VObj 12 [odd_members]) = Ok (v1, n) /\
  packs_to (ex b) 10 (TClass 12) (VObj 12 [odd_members]) out /\ len out < n.
Proof.
  intros b.
  exists (VObj 12 [odd_members]).
  exists (match get_size (ex b) 10 (TClass 12) (VObj 12 [odd_members]) with Ok (_, n) => n | Err _ => 0 end).
  exists (match serialize_to_stream (ex b) 10 (TClass 12) (VObj 12 [odd_members])
     {| o_data := []; o_room := None; o_bad := false; o_nbytes := 0 |} with Ok (_, o) => o_data o | Err _ => [] end).
  destruct b.
  all: split; [vm_compute; reflexivity|].
  all: split; [|vm_compute; reflexivity].
  all: eexists; eexists; split; [vm_compute; reflexivity|vm_compute; reflexivity].
Qed.
