(** What happens when the bytes at a position described in Layout.v are damaged. *)
From Coq Require Import List NArith Arith Bool Lia.
From Coq.Strings Require Import Byte.
From Verif Require Import Base Syntax Prog Serializers Traverse Spec Message Layout ProgFacts EnvFacts
  ValFacts Pack Unpack Api ApiFacts Fails ApiInv.
Import ListNotations.
Local Open Scope N_scope.

(** ** Loops that fail on the way *)
Lemma interp_foldP_app : forall H A B (f : B -> A -> prog B) a b s vf st,
  interp H (foldP f (a ++ b) s) vf st =
  match interp H (foldP f a s) vf st with
  | Ok (s', vf', st') => interp H (foldP f b s') vf' st'
  | Err e => Err e
  end.
Proof.
  intros H A B f. induction a; intros b s vf st; cbn [app foldP].
  - reflexivity.
  - rewrite !interp_bind. destruct (interp H (f s a) vf st) as [[[s1 vf1] st1]|e]; auto.
Qed.
Lemma fails_foldP : forall A B (f : B -> A -> prog B) a b r s s' vf vf' i j x,
  reads (foldP f a s) vf i s' vf' -> fails (f s' b) vf' j x ->
  fails (foldP f (a ++ b :: r) s) vf (i ++ j) x.
Proof.
  intros * H1 H2 e rest. rewrite interp_foldP_app, <- app_assoc, H1. cbn [foldP].
  now rewrite interp_bind, H2.
Qed.
Lemma fails_mapP : forall A B (f : A -> prog B) a b r ys vf vf' i j x,
  reads (mapP f a) vf i ys vf' -> fails (f b) vf' j x ->
  fails (mapP f (a ++ b :: r)) vf (i ++ j) x.
Proof.
  intros A B f a b r ys vf vf' i j x H1 H2 e rest. rewrite <- app_assoc.
  specialize (H1 e (j ++ rest)). revert ys vf H1. generalize (i ++ j ++ rest) as st.
  induction a; intros st ys vf H1; cbn [app mapP] in *.
  - inversion H1; subst. rewrite interp_bind. specialize (H2 e rest). now rewrite H2.
  - rewrite interp_bind in *. destruct (interp (reader e) (f a) vf st) as [[[y vf1] st1]|]; [|discriminate].
    rewrite interp_bind in *. destruct (interp (reader e) (mapP f a0) vf1 st1) as [[[zs vf2] st2]|] eqn:E0;
      [|discriminate]. cbn [interp] in H1. inversion H1; subst.
    now rewrite (IHa _ _ _ E0).
Qed.

Lemma repeat_split : forall n k, (k < n)%nat ->
  exists r, repeat tt n = repeat tt k ++ tt :: r.
Proof.
  intros n k H. exists (repeat tt (n - S k)). change (tt :: repeat tt (n - S k)) with (repeat tt (S (n - S k))).
  rewrite <- repeat_app. replace (k + S (n - S k))%nat with n by lia. reflexivity.
Qed.

Lemma shallow_ex : forall l, exists n, shallow n l.
Proof.
  induction l as [|v l (n & Hn)]; [now exists O; constructor|].
  exists (Nat.max (S (depth v)) n). constructor; [cbn beta; lia|].
  eapply Forall_impl; [|exact Hn]. cbn beta. intros; lia.
Qed.
Lemma shallow_le : forall n n' l, shallow n l -> (n <= n')%nat -> shallow n' l.
Proof. intros n n' l H Hl. eapply Forall_impl; [|exact H]. cbn beta. intros; lia. Qed.

(** Programs that, started with dispatch flag [vf], differ in their results only. *)
Inductive like {A B} : bool -> prog A -> prog B -> Prop :=
| LkRet vf a b : like vf (Ret a) (Ret b)
| LkContig vf b k k' : (forall x, like vf (k x) (k' x)) -> like vf (Contig b k) (Contig b k')
| LkCount vf n k k' : like vf k k' -> like vf (Count n k) (Count n k')
| LkGetV vf k k' : like vf (k vf) (k' vf) -> like vf (GetV k) (GetV k')
| LkSetV vf v k k' : like v k k' -> like vf (SetV v k) (SetV v k')
| LkNote vf e k k' : like vf k k' -> like vf (Note e k) (Note e k')
| LkFail vf x : like vf (Fail x) (Fail x).

Lemma like_same : forall A B C (p : prog A) (g : A -> prog B) (h : A -> prog C),
  (forall vf a, like vf (g a) (h a)) -> forall vf, like vf (bind p g) (bind p h).
Proof. induction p; intros g h H0 vf; cbn [bind]; try constructor; auto. Qed.
Lemma like_bind : forall A B C D vf (p : prog A) (q : prog B) (g : A -> prog C) (h : B -> prog D),
  like vf p q -> (forall vf a b, like vf (g a) (h b)) -> like vf (bind p g) (bind q h).
Proof. intros * H Hf. induction H; cbn [bind]; try constructor; auto. Qed.
Lemma like_catch : forall A B vf t (p : prog A) (q : prog B), like vf p q -> like vf (catch t p) (catch t q).
Proof.
  intros * H. induction H; cbn [catch]; constructor; auto.
Qed.
Lemma like_fails : forall A B vf (p : prog A) (q : prog B), like vf p q ->
  forall i x, fails p vf i x -> fails q vf i x.
Proof.
  intros A B vf p q H i x Hf e rest. specialize (Hf e rest). revert Hf.
  generalize (i ++ rest) as st. induction H; intros st Hf; cbn [interp] in *; auto.
  - discriminate.
  - destruct (contig (reader e) b st) as [[y s]|]; auto. congruence.
  - congruence.
Qed.

Section Positions.
Variable E : env.
Hypothesis wf : wf_env any E.
Hypothesis Hc : chk E = true.
Notation m := MUnpacking.
Notation C := (fun _ _ : N => True).

Lemma any_cap : forall c w : N, any w -> C c w.
Proof. intros; exact I. Qed.
Lemma max_cap : forall c w : N, C c w -> c <= N.max w c.
Proof. intros; lia. Qed.
Let U (f : nat) := unpack_all any E wf C N.le any_cap max_cap f.

Lemma rd_ser : forall f t v w, intact E t v w -> (depth v < f)%nat ->
  exists x, reads (ser (with_ E m f) t w) false (enc E t v) x false.
Proof.
  intros f t v w (Ht & HT) Hd.
  destruct (u_ser E C N.le (with_ E m f) f (proj1 (U f)) t v w) as (x & _ & Hr); eauto.
  - now constructor.
  - now apply TgtTy.
Qed.
Lemma rd_size : forall f x x0, x < two64 -> (1 <= f)%nat ->
  reads (ser_size (with_ E m f) x0) false (wsize E x) x false.
Proof. intros. apply (u_size E C N.le (with_ E m f) f (proj1 (U f))); auto. Qed.
Lemma rd_int : forall f x x0, x < 2 ^ 32 -> (1 <= f)%nat ->
  reads (ser_int (with_ E m f) x0) false (wint E x) x false.
Proof. intros. apply (u_int E C N.le (with_ E m f) f (proj1 (U f))); auto. Qed.
Lemma rd_bool : forall f b b0, (1 <= f)%nat ->
  reads (ser_bool (with_ E m f) b0) false (wbool E b) b false.
Proof. intros. apply (u_bool E C N.le (with_ E m f) f (proj1 (U f))); auto. Qed.

Lemma fresh_intact : forall t v d, has_ty E t v -> recon E t = Some d -> intact E t v d.
Proof.
  intros t v d Ht Hd. split; auto. eapply recon_tgt; eauto; intros; exact I.
Qed.

Lemma fl_ser : forall f t w vf j x, fails (with_ E m f t [w]) vf j x ->
  fails (ser (with_ E m f) t w) vf j x.
Proof. intros. unfold ser. now apply fails_bind_l. Qed.
Lemma fl_size : forall f n j x, fails (with_ E m f SIZE [VB (le 8 n)]) false j x ->
  fails (ser_size (with_ E m f) n) false j x.
Proof. intros. unfold ser_size, ser_word. now apply fails_bind_l, fl_ser. Qed.
Lemma fl_int : forall f n j x, fails (with_ E m f INT [VB (le 4 n)]) false j x ->
  fails (ser_int (with_ E m f) n) false j x.
Proof. intros. unfold ser_int, ser_word. now apply fails_bind_l, fl_ser. Qed.
Lemma fl_bool : forall f (b : bool) j x,
  fails (with_ E m f BOOL [VB (le 1 (if b then 1 else 0))]) false j x ->
  fails (ser_bool (with_ E m f) b) false j x.
Proof. intros. unfold ser_bool, ser_word. now apply fails_bind_l, fails_bind_l, fl_ser. Qed.

Lemma rd_construct : forall t d vf, recon E t = Some d -> reads (construct E t) vf [] d vf.
Proof. intros t d vf H. unfold construct. rewrite H. apply reads_note. apply reads_ret. Qed.

(** Members. *)
Lemma rd_members : forall ts ws is_ b, shows E ts ws is_ b ->
  exists f0, forall f, (f0 <= f)%nat -> forall cur,
    (forall i, In i is_ -> nth_error cur i = nth_error ws i) ->
    exists cur', (forall j, ~ In j is_ -> nth_error cur' j = nth_error cur j) /\
      reads (ser_members (with_ E m f) ts is_ cur) false b cur' false.
Proof.
  intros ts ws is_ b H. induction H as [|i r t v w b Ht Hw Hi Hn H (f0 & IH)].
  - exists O. intros f _ cur _. exists cur. split; auto. apply reads_ret.
  - exists (Nat.max (S (depth v)) f0). intros f Hf cur Hcur.
    destruct (rd_ser f t v w Hi) as (x & Hr); [lia|].
    destruct (IH f ltac:(lia) (upd cur i x)) as (cur' & Hs & Hr').
    { intros j Hj. rewrite nth_error_upd_neq by (intros ->; auto). apply Hcur. now right. }
    exists cur'. split.
    + intros j Hj. rewrite Hs by (intros Hj'; apply Hj; now right).
      apply nth_error_upd_neq. intros ->. apply Hj. now left.
    + unfold ser_members. cbn [foldP]. rewrite Ht, (Hcur i) by now left. rewrite Hw.
      eapply reads_bind with (a := upd cur i x) (vf1 := false); [|exact Hr'].
      eapply reads_eq; [eapply reads_bind; [exact Hr|apply reads_ret]|apply app_nil_r].
Qed.

Lemma fl_member : forall ts ws is_ i r b t w, shows E ts ws is_ b -> ~ In i is_ ->
  nth_error ts i = Some t -> nth_error ws i = Some w ->
  exists f0, forall f, (f0 <= f)%nat -> forall j x,
    fails (with_ E m f t [w]) false j x ->
    fails (ser_members (with_ E m f) ts (is_ ++ i :: r) ws) false (b ++ j) x.
Proof.
  intros ts ws is_ i r b t w Hs Hn Ht Hw. destruct (rd_members _ _ _ _ Hs) as (f0 & H).
  exists f0. intros f Hf j x Hx. destruct (H f Hf ws) as (cur' & Hc' & Hr); auto.
  unfold ser_members. eapply fails_foldP; [exact Hr|]. cbn beta.
  rewrite Ht, (Hc' i Hn), Hw. apply fails_bind_l, fl_ser, Hx.
Qed.

(** Elements constructed one by one and read into. *)
Lemma rd_push : forall t d vs, recon E t = Some d -> Forall (has_ty E t) vs ->
  forall f, shallow f vs -> forall A (add : A -> val -> prog A)
    (Hadd : forall acc x, exists acc', forall vf, reads (add acc x) vf [] acc' vf),
  forall acc, exists acc',
    reads (foldP (fun acc (_ : unit) => bind (construct E t) (fun d =>
             bind (ser (with_ E m f) t d) (fun x => add acc x)))
             (repeat tt (length vs)) acc) false (concat (map (enc E t) vs)) acc' false.
Proof.
  intros t d vs Hd Ht f Hs A add Hadd. induction Ht as [|v vs Hv Ht IH]; intros acc.
  - exists acc. apply reads_ret.
  - inversion Hs; subst. cbn [length repeat foldP map concat].
    destruct (rd_ser f t v d) as (x & Hx); auto; [now apply fresh_intact|].
    destruct (Hadd acc x) as (acc1 & Ha). destruct (IH H2 acc1) as (acc' & Hr).
    exists acc'. eapply reads_bind with (a := acc1) (vf1 := false); [|exact Hr].
    change (enc E t v) with ([] ++ enc E t v).
    eapply reads_bind; [apply rd_construct; exact Hd|].
    eapply reads_eq; [eapply reads_bind; [exact Hx|apply Ha]|apply app_nil_r].
Qed.
Lemma fl_push : forall t d vs n, recon E t = Some d -> Forall (has_ty E t) vs ->
  (length vs < n)%nat ->
  forall f, shallow f vs -> forall A (add : A -> val -> prog A)
    (Hadd : forall acc x, exists acc', forall vf, reads (add acc x) vf [] acc' vf),
  forall acc j x, fails (with_ E m f t [d]) false j x ->
    fails (foldP (fun acc (_ : unit) => bind (construct E t) (fun d =>
             bind (ser (with_ E m f) t d) (fun x => add acc x)))
             (repeat tt n) acc) false (concat (map (enc E t) vs) ++ j) x.
Proof.
  intros t d vs n Hd Ht Hl f Hs A add Hadd acc j x Hx.
  destruct (rd_push t d vs Hd Ht f Hs A add Hadd acc) as (acc' & Hr).
  destruct (repeat_split n (length vs) Hl) as (r & ->).
  eapply fails_foldP; [exact Hr|]. cbn beta.
  change j with ([] ++ j). eapply fails_bind_r; [apply rd_construct; exact Hd|].
  apply fails_bind_l, fl_ser, Hx.
Qed.

Lemma emplace_ord : forall b mp t l x, exists l', emplace E (AOrd b mp) t (VSeq l) x = Some (VSeq l').
Proof. intros. cbn [emplace]. match goal with |- context [if ?c then _ else _] => destruct c end; eauto. Qed.
Lemma emplace_hash : forall b mp t l x, exists l', emplace E (AHash b mp) t (VBag l) x = Some (VBag l').
Proof. intros. cbn [emplace]. match goal with |- context [if ?c then _ else _] => destruct c end; eauto. Qed.

(** Emplacing loops: the container keeps its kind. *)
Lemma rd_emplace : forall k t d vs (P : val -> Prop),
  (forall c x, P c -> exists c', emplace E k t c x = Some c' /\ P c') ->
  recon E t = Some d -> Forall (has_ty E t) vs ->
  forall f, shallow f vs -> forall c, P c -> exists c', P c' /\
    reads (deser_emplace E (with_ E m f) k t (length vs) c) false (concat (map (enc E t) vs)) c' false.
Proof.
  intros k t d vs P HP Hd Ht f Hs. induction Ht as [|v vs Hv Ht IH]; intros c Pc.
  - exists c. split; auto. apply reads_ret.
  - inversion Hs; subst. unfold deser_emplace in *. cbn [length repeat foldP map concat].
    destruct (rd_ser f t v d) as (x & Hx); auto; [now apply fresh_intact|].
    destruct (HP c x Pc) as (c1 & Ha & Pc1). destruct (IH H2 c1 Pc1) as (c' & Pc' & Hr).
    exists c'. split; auto. eapply reads_bind with (a := c1) (vf1 := false); [|exact Hr].
    change (enc E t v) with ([] ++ enc E t v).
    eapply reads_bind; [apply rd_construct; exact Hd|].
    eapply reads_eq; [eapply reads_bind; [exact Hx|]|apply app_nil_r].
    apply reads_leave_elem. rewrite Ha. apply reads_ret.
Qed.
Lemma fl_emplace : forall k t d vs n (P : val -> Prop),
  (forall c x, P c -> exists c', emplace E k t c x = Some c' /\ P c') ->
  recon E t = Some d -> Forall (has_ty E t) vs -> (length vs < n)%nat ->
  forall f, shallow f vs -> forall c, P c -> forall j x, fails (with_ E m f t [d]) false j x ->
    fails (deser_emplace E (with_ E m f) k t n c) false (concat (map (enc E t) vs) ++ j) x.
Proof.
  intros k t d vs n P HP Hd Ht Hl f Hs c Pc j x Hx.
  destruct (rd_emplace k t d vs P HP Hd Ht f Hs c Pc) as (c' & _ & Hr).
  unfold deser_emplace in *. destruct (repeat_split n (length vs) Hl) as (r & ->).
  eapply fails_foldP; [exact Hr|]. cbn beta.
  change j with ([] ++ j). eapply fails_bind_r; [apply rd_construct; exact Hd|].
  apply fails_bind_l, fl_ser, Hx.
Qed.

Lemma intact_depths : forall t vs ws, Forall2 (intact E t) vs ws ->
  exists f0, forall f, (f0 <= f)%nat -> Forall2 (fun v w => exists x, True /\
     reads (ser (with_ E m f) t w) false (enc E t v) x false) vs ws.
Proof.
  intros t vs ws H. destruct (shallow_ex vs) as (f0 & Hs). exists f0. intros f Hf.
  apply (shallow_le _ f) in Hs; auto.
  induction H; constructor; inversion Hs; subst; auto.
  destruct (rd_ser f t x y) as (z & Hz); eauto.
Qed.

(** Tuples. *)
Lemma fl_tuple : forall ts before b t ts' w r, shows_all E ts before b ->
  exists f0, forall f, (f0 <= f)%nat -> forall j x, fails (with_ E m f t [w]) false j x ->
  fails (ser_tuple (with_ E m f) (ts ++ t :: ts') (before ++ w :: r)) false (b ++ j) x.
Proof.
  intros ts before b t ts' w r H. induction H as [|t0 ts v w0 ws b Hi H (f0 & IH)].
  - exists O. intros f _ j x Hx. cbn [app ser_tuple]. apply fails_bind_l, fl_ser, Hx.
  - exists (Nat.max (S (depth v)) f0). intros f Hf j x Hx. cbn [app ser_tuple].
    destruct (rd_ser f t0 v w0 Hi) as (y & Hr); [lia|]. rewrite <- app_assoc.
    eapply fails_bind_r; [exact Hr|]. apply fails_bind_l. apply IH; auto. lia.
Qed.

Ltac fuel0 := exists 1%nat; intros f Hf j xx Hx; cbn [app apply_elem].

Lemma sized_resize : forall A n (d : A) l, sized n d l = resize n d l.
Proof. reflexivity. Qed.
Lemma sized_length : forall A n (d : A) l, length (sized n d l) = n.
Proof. intros. unfold sized. rewrite app_length, firstn_length, repeat_length. lia. Qed.

Lemma fl_array : forall f t ws j x, ws <> [] -> fails (with_ E m f t ws) false j x ->
  fails (ser_array (with_ E m f) t ws) false j x.
Proof. intros f t ws j x Hn Hx. unfold ser_array. destruct ws; [congruence|auto]. Qed.

Lemma step_fails : forall t w p t1 ws1, step E t w p t1 ws1 ->
  exists f0, forall f, (f0 <= f)%nat -> forall j x,
    fails (with_ E m f t1 ws1) false j x ->
    fails (apply_elem E m (with_ E m f) t w) false (p ++ j) x.
Proof.
  intros t w p t1 ws1 H. destruct H.
  - fuel0. now apply fl_ser.
  - fuel0. now apply fl_ser.
  - fuel0. unfold ser_string. cbn [is_footprinting]. now apply fails_bind_l, fl_size.
  - fuel0. unfold ser_string. cbn [is_footprinting].
    eapply fails_bind_r; [apply rd_size; auto; lia|]. cbn zeta. rewrite Nat2N.id.
    apply fails_bind_l, fl_array; [|exact Hx].
    intros H1. apply (f_equal (@length _)) in H1. unfold chars in H1.
    rewrite map_length, resize_length in H1. cbn in H1. lia.
  - fuel0. unfold ser_vector, ser_vector_meta. cbn [is_footprinting].
    apply fails_bind_l, fails_bind_l. now apply fl_size.
  - fuel0. unfold ser_vector, ser_vector_meta. cbn [is_footprinting].
    apply fails_bind_l. eapply fails_bind_r; [apply rd_size; auto; lia|].
    apply fails_bind_l. now apply fl_size.
  - (* vector data *)
    fuel0. unfold ser_vector, ser_vector_meta. cbn [is_footprinting is_unpacking].
    eapply fails_bind_r.
    { eapply reads_bind; [apply rd_size; eauto; lia|].
      eapply reads_eq; [eapply reads_bind; [apply rd_size with (x := N.of_nat n); auto; lia|apply reads_ret]|apply app_nil_r]. }
    cbn beta iota. rewrite Nat2N.id. change j with ([] ++ j).
    assert (Hrd : reads (construct_vector_data E t n ws) false [] (sized n d ws) false).
    { unfold construct_vector_data, elem_fill in *. destruct (defc E t) eqn:Ed.
      - rewrite H2. cbn [of_opt bind]. apply reads_ret.
      - destruct (copyc E t) eqn:Ec.
        + change (@nil byte) with (@nil byte ++ []). eapply reads_bind; [apply rd_construct; eassumption|].
          apply reads_note, reads_ret.
        + assert (ws = []) by (destruct H3 as [?|[?|?]]; congruence). subst ws.
          assert (G : forall k acc, reads (foldP (fun acc (_ : unit) => bind (construct E t) (fun d0 => leave E t d0 (Ret (acc ++ [d0]))))
                    (repeat tt k) acc) false [] (acc ++ repeat d k) false).
          { induction k; intros acc; cbn [repeat foldP].
            - rewrite app_nil_r. apply reads_ret.
            - change (@nil byte) with (@nil byte ++ []). eapply reads_bind with (a := acc ++ [d]) (vf1 := false).
              + change (@nil byte) with (@nil byte ++ []).
                eapply reads_bind; [apply rd_construct; eassumption|apply reads_leave, reads_ret].
              + replace (acc ++ d :: repeat d k) with ((acc ++ [d]) ++ repeat d k); [apply IHk|].
                now rewrite <- app_assoc. }
          specialize (G n []). cbn [app] in G. unfold sized. rewrite firstn_nil. cbn [length app].
          rewrite Nat.sub_0_r. exact G. }
    eapply fails_bind_r; [exact Hrd|]. apply fails_bind_l, fl_array; [|exact Hx].
    intros H5. apply (f_equal (@length _)) in H5. rewrite sized_length in H5. cbn in H5. lia.
  - fuel0. unfold ser_vecbool, ser_vector_meta. cbn [is_footprinting].
    apply fails_bind_l, fails_bind_l. now apply fl_size.
  - fuel0. unfold ser_vecbool, ser_vector_meta. cbn [is_footprinting].
    apply fails_bind_l. eapply fails_bind_r; [apply rd_size; auto; lia|].
    apply fails_bind_l. now apply fl_size.
  - (* one of the bools *)
    fuel0. unfold ser_vecbool, ser_vector_meta. cbn [is_footprinting is_unpacking].
    replace ((wsize E c' ++ wsize E (N.of_nat n) ++ concat (map (wbool E) bs)) ++ j)
      with ((wsize E c' ++ wsize E (N.of_nat n)) ++ concat (map (wbool E) bs) ++ j)
      by now rewrite <- !app_assoc.
    eapply fails_bind_r.
    { eapply reads_bind; [apply rd_size; eauto; lia|].
      eapply reads_eq; [eapply reads_bind; [apply rd_size with (x := N.of_nat n); auto; lia|apply reads_ret]|apply app_nil_r]. }
    cbn beta iota zeta. rewrite Nat2N.id. apply fails_bind_l.
    set (l1 := resize n (VB (le 1 0)) ws).
    assert (Hl1 : length l1 = n) by apply resize_length.
    assert (Hsp : l1 = firstn (length bs) l1 ++ skipn (length bs) l1) by now rewrite firstn_skipn.
    destruct (skipn (length bs) l1) as [|y r] eqn:Es.
    { apply (f_equal (@length _)) in Es. rewrite skipn_length in Es. cbn in Es. lia. }
    rewrite Hsp.
    destruct (reads_mapP val val bool (fun _ : val => bind (ser_bool (with_ E m f) false)
        (fun b => Ret (VB (le 1 (if b then 1 else 0))))) (wbool E) (fun _ _ => True) false
        bs (firstn (length bs) l1)) as (xs & _ & Hr).
    { apply Forall2_of_nth; [rewrite firstn_length; lia|]. intros i b y0 _ _.
      eexists. split; [exact I|].
      eapply reads_eq; [eapply reads_bind; [apply rd_bool with (b := b); lia|apply reads_ret]|apply app_nil_r]. }
    eapply fails_mapP; [exact Hr|]. apply fails_bind_l. apply fl_bool. exact Hx.
  - fuel0. unfold ser_stdarray. apply fails_bind_l, fl_array; auto.
  - fuel0. unfold ser_list, ser_container_size. cbn [is_footprinting]. now apply fails_bind_l, fl_size.
  - (* list element *)
    destruct (intact_depths _ _ _ H3) as (f0 & Hd). exists (S f0). intros f Hf j x Hx. cbn [apply_elem].
    unfold ser_list, ser_container_size. cbn [is_footprinting is_unpacking]. rewrite <- app_assoc.
    eapply fails_bind_r; [apply rd_size; auto; lia|]. rewrite Nat2N.id. apply fails_bind_l.
    unfold deser_ordered. destruct (copyc E t) eqn:Ec.
    + change (concat (map (enc E t) vs) ++ j) with ([] ++ concat (map (enc E t) vs) ++ j).
      eapply fails_bind_r; [apply rd_construct; eassumption|]. apply fails_note.
      rewrite <- sized_resize, H2.
      destruct (reads_mapP _ _ _ _ _ _ _ _ _ (Hd f ltac:(lia))) as (xs & _ & Hr).
      eapply fails_mapP; [exact Hr|]. now apply fl_ser.
    + assert (ws = []) by (destruct H0 as [?|?]; congruence). subst ws.
      unfold sized in H2. rewrite firstn_nil in H2. cbn [length app] in H2. rewrite Nat.sub_0_r in H2.
      assert (Hwd : forall y, In y (before ++ w :: r) -> y = d).
      { rewrite <- H2. intros y Hy. now apply repeat_spec in Hy. }
      assert (Hlen : (length vs < n)%nat).
      { rewrite (Forall2_length _ _ _ _ _ H3). apply (f_equal (@length _)) in H2.
        rewrite repeat_length, app_length in H2. cbn in H2. lia. }
      rewrite (Hwd w) in Hx by (apply in_or_app; right; now left).
      assert (Hrd : forall k acc vs' ws', Forall2 (intact E t) vs' ws' ->
        (forall y, In y ws' -> y = d) -> (length vs' < k)%nat ->
        Forall2 (fun v w => exists x, True /\ reads (ser (with_ E m f) t w) false (enc E t v) x false) vs' ws' ->
        fails (foldP (fun acc (_ : unit) => bind (construct E t) (fun d0 =>
           bind (ser (with_ E m f) t d0) (fun x => leave E t x (Ret (acc ++ [x]))))) (repeat tt k) acc) false
           (concat (map (enc E t) vs') ++ j) x).
      { clear - Hx H. induction k; intros acc vs' ws' HF Hy Hl HR; [lia|].
        cbn [repeat foldP]. destruct HF as [|v w vs' ws' Hvw HF]; cbn [map concat app].
        - apply fails_bind_l. change j with ([] ++ j).
          eapply fails_bind_r; [apply rd_construct; eassumption|]. now apply fails_bind_l, fl_ser.
        - inversion HR as [|? ? ? ? (z & _ & Hz) HR']; subst. rewrite <- app_assoc.
          assert (w = d) by (apply Hy; now left). subst w.
          eapply fails_bind_r with (a := acc ++ [z]) (vf' := false).
          + change (enc E t v) with ([] ++ enc E t v).
            eapply reads_bind; [apply rd_construct; eassumption|].
            eapply reads_eq; [eapply reads_bind; [exact Hz|apply reads_leave, reads_ret]|apply app_nil_r].
          + apply IHk with (ws' := ws'); auto. intros; apply Hy; now right. cbn in Hl; lia. }
      apply Hrd with (ws' := before); auto; [|apply Hd; lia].
      intros y Hy. apply Hwd. apply in_or_app. now left.
  - fuel0. unfold ser_queue, ser_container_size. cbn [is_footprinting]. now apply fails_bind_l, fl_size.
  - (* queue element *)
    destruct (shallow_ex vs) as (f0 & Hs). exists (S f0). intros f Hf j x Hx. cbn [apply_elem].
    unfold ser_queue, ser_container_size. cbn [is_footprinting is_unpacking]. rewrite <- app_assoc.
    eapply fails_bind_r; [apply rd_size; auto; lia|]. rewrite Nat2N.id. apply fails_bind_l.
    apply fl_push with (d := d) (add := fun acc x => leave E t x (Ret (acc ++ [x]))); auto.
    + eapply shallow_le; eauto; lia.
    + intros acc y. eexists. intros vf. apply reads_leave, reads_ret.
  - fuel0. unfold ser_assoc, ser_container_size. cbn [elements of_opt bind is_footprinting].
    now apply fails_bind_l, fl_size.
  - fuel0. unfold ser_assoc, ser_container_size. cbn [elements of_opt bind is_footprinting].
    now apply fails_bind_l, fl_size.
  - (* element of an ordered container *)
    destruct (shallow_ex vs) as (f0 & Hs). exists (S f0). intros f Hf j x Hx. cbn [apply_elem].
    unfold ser_assoc, ser_container_size. cbn [elements of_opt bind is_footprinting is_unpacking].
    rewrite <- app_assoc. eapply fails_bind_r; [apply rd_size; auto; lia|]. rewrite Nat2N.id.
    apply fl_emplace with (d := d) (P := fun c => exists l, c = VSeq l); eauto.
    + intros c y (l & ->). destruct (emplace_ord m mp t l y) as (l' & ->). eauto.
    + eapply shallow_le; eauto; lia.
  - destruct (shallow_ex vs) as (f0 & Hs). exists (S f0). intros f Hf j x Hx. cbn [apply_elem].
    unfold ser_assoc, ser_container_size. cbn [elements of_opt bind is_footprinting is_unpacking].
    rewrite <- app_assoc. eapply fails_bind_r; [apply rd_size; auto; lia|]. rewrite Nat2N.id.
    apply fl_emplace with (d := d) (P := fun c => exists l, c = VBag l); eauto.
    + intros c y (l & ->). destruct (emplace_hash m mp t l y) as (l' & ->). eauto.
    + eapply shallow_le; eauto; lia.
  - fuel0. unfold ser_pair. apply fails_count. now apply fails_bind_l, fl_ser.
  - exists (S (depth v)). intros f Hf j z Hx. cbn [apply_elem]. unfold ser_pair. apply fails_count.
    destruct (rd_ser f a v x H) as (x1 & Hr); [lia|].
    eapply fails_bind_r; [exact Hr|]. now apply fails_bind_l, fl_ser.
  - destruct (fl_tuple ts before b t ts' w r H) as (f0 & Hf0). exists f0. intros f Hf j x Hx.
    cbn [apply_elem]. apply fails_bind_l. now apply Hf0.
  - fuel0. unfold ser_optional. cbn [is_footprinting is_unpacking]. apply fails_bind_l. now apply fl_bool.
  - fuel0. unfold ser_optional. cbn [is_footprinting is_unpacking].
    eapply fails_bind_r; [apply rd_bool; lia|]. cbn beta iota.
    change j with ([] ++ j). eapply fails_bind_r; [apply rd_construct; eassumption|]. now apply fails_bind_l, fl_ser.
  - fuel0. unfold ser_variant. cbn [variant_index of_opt bind]. now apply fails_bind_l, fl_size.
  - fuel0. unfold ser_variant. cbn [variant_index of_opt bind]. now apply fails_bind_l, fl_size.
  - (* alternative *)
    exists 1%nat. intros f Hf j x Hx. cbn [apply_elem].
    assert (Hv : exists i0, ser_variant E m (with_ E m f) ts w =
              bind (ser_size (with_ E m f) i0) (fun entry => ser_entry E m (with_ E m f) ts w entry 0)).
    { destruct H0 as [->|(i0 & x0 & ->)]; eexists; reflexivity. }
    destruct Hv as (i0 & ->). eapply fails_bind_r; [apply rd_size with (x := N.of_nat i); auto|].
    assert (G : forall ts0 cur, nth_error ts0 (i - cur) = Some t -> (cur <= i)%nat ->
        fails (ser_entry E m (with_ E m f) ts0 w (N.of_nat i) cur) false j x).
    { induction ts0; intros cur Hn Hcu; cbn [ser_entry].
      - destruct (i - cur)%nat; discriminate.
      - destruct (N.of_nat i =? N.of_nat cur) eqn:Ec.
        + apply N.eqb_eq in Ec. assert (i = cur) by lia. subst cur.
          rewrite Nat.sub_diag in Hn. inversion Hn; subst. cbn [is_unpacking].
          change j with ([] ++ j). eapply fails_bind_r; [apply rd_construct; eassumption|]. now apply fails_bind_l, fl_ser.
        + apply N.eqb_neq in Ec. apply IHts0; [|lia].
          replace (i - cur)%nat with (S (i - S cur)) in Hn by lia. exact Hn. }
    apply G; [now rewrite Nat.sub_0_r|lia].
  - fuel0. unfold ser_unique. cbn [is_footprinting]. apply fails_bind_l. now apply fl_bool.
  - fuel0. unfold ser_unique. cbn [is_footprinting]. apply fails_bind_l. now apply fl_bool.
  - fuel0. unfold ser_unique. cbn [is_footprinting is_unpacking].
    eapply fails_bind_r; [apply rd_bool; lia|]. cbn beta iota.
    assert (Hrp : reconstruct_pointed E m (with_ E m f) t None =
                  bind (construct E t) (fun o => Ret (Some o))).
    { unfold reconstruct_pointed. destruct t; auto. now rewrite H. }
    rewrite Hrp. change j with (([] ++ []) ++ j).
    eapply fails_bind_r; [eapply reads_bind; [apply rd_construct; eassumption|apply reads_ret]|].
    cbn beta iota. now apply fails_bind_l, fl_ser.
  - fuel0. unfold ser_unique. cbn [is_footprinting is_unpacking].
    eapply fails_bind_r; [apply rd_bool; lia|]. cbn beta iota.
    assert (Hrp : reconstruct_pointed E m (with_ E m f) t (Some w) = Ret (Some w)).
    { unfold reconstruct_pointed. destruct t; auto. now rewrite H. }
    rewrite Hrp. cbn [bind]. now apply fails_bind_l, fl_ser.
  - fuel0. unfold ser_unique. cbn [is_footprinting is_unpacking].
    eapply fails_bind_r; [apply rd_bool; lia|]. cbn beta iota.
    unfold reconstruct_pointed. rewrite H. unfold ser_virtual_type.
    cbn [is_footprinting is_unpacking bind].
    apply fails_bind_l, fails_bind_l, fails_bind_l. now apply fl_int.
  - fuel0. unfold ser_unique. cbn [is_footprinting is_unpacking]. rewrite <- app_assoc.
    eapply fails_bind_r; [apply rd_bool; lia|]. cbn beta iota.
    unfold reconstruct_pointed. rewrite H. unfold ser_virtual_type.
    cbn [is_footprinting is_unpacking bind].
    eapply fails_bind_r with (a := Some w) (vf' := false).
    { eapply reads_eq; [|apply app_nil_r]. eapply reads_bind.
      { eapply reads_eq; [|apply app_nil_r]. eapply reads_bind; [apply rd_int; [exact H1|lia]|].
        apply reads_ret. }
      cbn beta iota. unfold construct_concrete. rewrite Nat2N.id, H0, H2. cbn [bind]. apply reads_note.
      assert (Hex : existsb (Nat.eqb c) (chain E d) = true).
      { apply existsb_exists. exists c. split; auto. apply Nat.eqb_refl. }
      rewrite Hex. cbn [bind]. apply reads_ret. }
    cbn beta iota. now apply fails_bind_l, fl_ser.
  - fuel0. unfold ser_unique. cbn [is_footprinting is_unpacking]. rewrite <- app_assoc.
    eapply fails_bind_r; [apply rd_bool; lia|]. cbn beta iota.
    unfold reconstruct_pointed. rewrite H. unfold ser_virtual_type.
    cbn [is_footprinting is_unpacking bind].
    eapply fails_bind_r with (a := Some (VObj d ls)) (vf' := false).
    { eapply reads_eq; [|apply app_nil_r]. eapply reads_bind.
      { eapply reads_eq; [|apply app_nil_r]. eapply reads_bind; [apply rd_int; [exact H1|lia]|].
        cbn [dyn_type_idx]. rewrite H0. cbn [option_map of_opt bind]. rewrite N.eqb_refl.
        apply reads_ret. }
      apply reads_ret. }
    cbn beta iota. now apply fails_bind_l, fl_ser.
  - (* member *)
    destruct (fl_member (cfields k) ws is_ i r b t w) as (f0 & Hf0); auto.
    exists f0. intros f Hf j x Hx. cbn [apply_elem]. unfold apply_static. rewrite H, H1.
    apply fails_note, fails_bind_l. rewrite H2. now apply Hf0.
Qed.

(** The part of one class of an object. *)
Lemma rd_part : forall c k ws b, cls E c = Some k -> cbyte k = false ->
  shows E (cfields k) ws (cser k MUnpacking) b ->
  exists f0, forall f, (f0 <= f)%nat -> forall d cur, nth_error cur (level E c) = Some ws ->
    exists fs, reads (ap E m (with_ E m f) (TClass c) [VObj d cur]) (is_virtual E (TClass c)) b
      [VObj d (upd cur (level E c) fs)] false.
Proof.
  intros c k ws b Hk Hb Hs. destruct (rd_members _ _ _ _ Hs) as (f0 & H). exists f0.
  intros f Hf d cur Hw. destruct (H f Hf ws) as (fs & _ & Hr); auto. exists fs.
  assert (Hm : reads (mapP (apply_elem E m (with_ E m f) (TClass c)) [VObj d cur]) false b
            [VObj d (upd cur (level E c) fs)] false).
  { cbn [mapP apply_elem]. unfold apply_static. rewrite Hk, Hw.
    rewrite <- (app_nil_r b).
    eapply reads_bind with (a := VObj d (upd cur (level E c) fs)) (vf1 := false); [|apply reads_ret].
    apply reads_note. eapply reads_eq; [|apply app_nil_r].
    eapply reads_bind; [exact Hr|]. apply reads_note, reads_ret. }
  unfold ap. cbn [bytecopy]. rewrite Hk, Hb. destruct (is_virtual E (TClass c)) eqn:Hv.
  - apply reads_getv. cbn beta iota. apply reads_setv. exact Hm.
  - exact Hm.
Qed.

Lemma rd_frame : forall f t ws b vs vf vf', length vs = length ws ->
  reads (ap E m (with_ E m f) t ws) vf b vs vf' ->
  reads (with_ E m (S f) t ws) vf
    (le 4 (tix E t) ++ b ++ le 8 (wrap64 (sizeof E t * N.of_nat (length ws)))) vs vf'.
Proof.
  intros f t ws b vs vf vf' Hl Hr. cbn [with_]. unfold traverse.
  pose proof (reads_framed any E wf _ _ t (length ws) _ _ _ _ Hr) as H.
  unfold framed in H. rewrite Hc in *. exact H.
Qed.

Lemma part_like : forall f c d ls cur k, cls E c = Some k -> cbyte k = false ->
  is_virtual E (TClass c) = true -> nth_error cur (level E c) = nth_error ls (level E c) ->
  forall j x, fails (with_ E m f (TClass c) [VObj d ls]) true j x ->
  fails (with_ E m f (TClass c) [VObj d cur]) true j x.
Proof.
  intros f c d ls cur k Hk Hb Hv Hn j x Hx. destruct f as [|f]; [exact Hx|].
  cbn [with_] in *. unfold traverse in *. rewrite Hc in *.
  eapply like_fails; [|exact Hx].
  unfold with_type_idx. cbn [bind]. constructor. intros y. cbn zeta.
  match goal with |- context [if ?c then _ else _] => destruct c end; cbn [bind]; [repeat constructor|].
  apply like_bind.
  2: { intros vf vs vs'. cbn [length]. apply like_same. intros ? ?. constructor. }
  apply like_catch. unfold ap. cbn [bytecopy]. rewrite Hk, Hb, Hv.
  constructor. cbn beta iota. constructor.
  cbn [mapP apply_elem]. unfold apply_static. rewrite Hk, Hn.
  destruct (nth_error ls (level E c)) as [ws|]; [|constructor].
  cbn [bind]. constructor. apply like_bind; [|intros; constructor].
  apply like_same. intros vf fs. constructor. constructor.
Qed.

(** The parts of an object read one after the other. *)
Lemma rd_levels : forall d ls cs b, shows_levels E ls cs b -> NoDup (map (level E) cs) ->
  (forall c, In c cs -> is_virtual E (TClass c) = true) ->
  exists f0, forall f, (f0 <= f)%nat -> forall cur,
    (forall c, In c cs -> nth_error cur (level E c) = nth_error ls (level E c)) ->
    exists cur', (forall l, ~ In l (map (level E) cs) -> nth_error cur' l = nth_error cur l) /\
      reads (foldP (fun v c => Note (EvRegistry c) (SetV true (ser (with_ E m f) (TClass c) v)))
        cs (VObj d cur)) false b (VObj d cur') false.
Proof.
  intros d ls cs b H. induction H as [|c r k ws b b' Hk Hb Hn Hs H IH]; intros Hnd Hv.
  - exists O. intros f _ cur _. exists cur. split; auto. apply reads_ret.
  - inversion Hnd; subst. destruct IH as (f0 & IH); auto.
    { intros; apply Hv; now right. }
    destruct (rd_part c k ws b Hk Hb Hs) as (f1 & Hp).
    exists (S (Nat.max f1 f0)). intros f Hf cur Hcur. destruct f as [|f]; [lia|].
    destruct (Hp f ltac:(lia) d cur) as (fs & Hr).
    { rewrite Hcur; auto. now left. }
    destruct (IH (S f) ltac:(lia) (upd cur (level E c) fs)) as (cur' & Hs' & Hr').
    { intros c' Hc'. rewrite nth_error_upd_neq.
      - apply Hcur. now right.
      - intros He. apply H2. rewrite He. now apply in_map. }
    exists cur'. split.
    + intros l Hl. rewrite Hs' by (intros Hl'; apply Hl; now right).
      apply nth_error_upd_neq. intros He. apply Hl. now left.
    + cbn [foldP].
      replace (le 4 (tix E (TClass c)) ++ b ++ le 8 (wrap64 (sizeof E (TClass c))) ++ b')
        with ((le 4 (tix E (TClass c)) ++ b ++ le 8 (wrap64 (sizeof E (TClass c) * N.of_nat 1))) ++ b')
        by (rewrite N.mul_1_r, <- !app_assoc; reflexivity).
      eapply reads_bind with (a := VObj d (upd cur (level E c) fs)) (vf1 := false); [|exact Hr'].
      apply reads_note, reads_setv. rewrite (Hv c) in Hr by now left.
      unfold ser. eapply reads_eq; [|apply app_nil_r].
      eapply reads_bind with (a := [VObj d (upd cur (level E c) fs)]) (vf1 := false); [|apply reads_ret].
      apply (rd_frame f (TClass c) [VObj d cur] b [VObj d (upd cur (level E c) fs)] true false); auto.
Qed.

Lemma intact_elems : forall t vs ws, bytecopy E t = false -> is_virtual E t = false ->
  Forall2 (intact E t) vs ws ->
  exists f0, forall f, (f0 <= f)%nat -> exists xs,
    reads (mapP (apply_elem E m (with_ E m f) t) ws) false (concat (map (encb E t) vs)) xs false.
Proof.
  intros t vs ws Hb Hv H. destruct (shallow_ex vs) as (f0 & Hs). exists f0. intros f Hf.
  apply (shallow_le _ f) in Hs; auto.
  destruct (reads_mapP val val val (apply_elem E m (with_ E m f) t) (encb E t) (fun _ _ => True)
              false vs ws) as (xs & _ & Hr); eauto.
  induction H as [|v w vs ws (Ht & HT) H IH]; constructor; inversion Hs; subst; auto.
  destruct (u_elem any E wf C N.le any_cap max_cap (with_ E m f) f (proj1 (U f)) t v w)
    as (x & _ & Hr); eauto.
Qed.

Lemma within_fails : forall dyn t ws p dyn1 t1 ws1, within E dyn t ws p dyn1 t1 ws1 ->
  exists f0, forall f, (f0 <= f)%nat -> forall j x,
    fails (with_ E m f t1 ws1) dyn1 j x ->
    fails (ap E m (with_ E m f) t ws) dyn (p ++ j) x.
Proof.
  intros dyn t ws p dyn1 t1 ws1 H. destruct H.
  - pose proof (step_fails _ _ _ _ _ H1) as (f1 & Hst).
    assert (Hb : bytecopy E t = false).
    { inversion H1; subst; auto. cbn [bytecopy].
      match goal with Hk : cls E _ = Some _ |- _ => rewrite Hk end. auto. }
    destruct (intact_elems _ _ _ Hb H H0) as (f2 & Hel).
    exists (Nat.max f1 f2). intros f Hf j x Hx. destruct (Hel f ltac:(lia)) as (xs & Hr).
    unfold ap. rewrite Hb, H. rewrite <- app_assoc.
    eapply fails_mapP; [exact Hr|]. apply Hst; auto. lia.
  - assert (Hin : forall x, In x (chain E d) -> is_virtual E (TClass x) = true).
    { intros x Hx. rewrite (chain_virtual _ _ wf d x Hx). exact H4. }
    assert (Hlev : forall l1 l2, chain E d = l1 ++ l2 -> NoDup (map (level E) l1)).
    { intros l1 l2 He. apply NoDup_nth_error. intros i j Hi Hij.
      rewrite map_length in Hi. rewrite !nth_error_map in Hij.
      destruct (nth_error l1 i) as [ci|] eqn:Eci.
      2: { apply nth_error_None in Eci. lia. }
      destruct (nth_error l1 j) as [cj|] eqn:Ecj; [|discriminate].
      cbn in Hij. inversion Hij as [Hij'].
      assert (G : forall q x, nth_error l1 q = Some x -> level E x = q).
      { intros q x Hq. apply (chain_nth_level _ _ wf d). rewrite He, nth_error_app1; auto.
        apply nth_error_Some. congruence. }
      rewrite (G _ _ Eci), (G _ _ Ecj) in Hij'. auto. }
    destruct (rd_levels d ls before b H6) as (f0 & Hl).
    { eapply Hlev; eauto. }
    { intros x Hx. apply Hin. rewrite H5. apply in_or_app. now left. }
    exists f0. intros f Hf j x Hx. destruct (Hl f Hf ls) as (cur & Hcur & Hr); auto.
    unfold ap. cbn [bytecopy is_virtual]. rewrite H, H0, H1. apply fails_getv. cbn beta iota.
    apply fails_bind_l. unfold dyn_serialize. rewrite H4, H5.
    eapply fails_foldP; [exact Hr|]. cbn beta. apply fails_note, fails_setv, fl_ser.
    assert (Hc' : In c' (chain E d)) by (rewrite H5; apply in_or_app; right; now left).
    refine (part_like f c' d ls cur k' H2 H3 (Hin c' Hc') _ j x Hx). apply Hcur. intros Hi. apply in_map_iff in Hi.
    destruct Hi as (y & Hy & Hyi). apply in_split in Hyi. destruct Hyi as (a1 & a2 & ->).
    assert (y = c').
    { assert (Hyc : In y (chain E d)) by (rewrite H5, <- app_assoc; apply in_or_app; right; now left).
      pose proof (chain_level _ _ wf _ _ Hyc) as G1. pose proof (chain_level _ _ wf _ _ Hc') as G2.
      rewrite Hy in G1. congruence. }
    subst y. pose proof (chain_nodup _ _ wf d) as Hnd. rewrite H5 in Hnd.
    apply NoDup_remove_2 in Hnd. apply Hnd. apply in_or_app. left. apply in_or_app. right. now left.
  - destruct (step_fails _ _ _ _ _ H0) as (f0 & Hst). exists f0. intros f Hf j x Hx.
    assert (Hb : bytecopy E (TClass c) = false).
    { inversion H0; subst. cbn [bytecopy]. match goal with Hk : cls E c = Some _ |- _ => rewrite Hk end. auto. }
    unfold ap. rewrite Hb, H. apply fails_getv. cbn beta iota. apply fails_setv.
    cbn [mapP]. apply fails_bind_l. now apply Hst.
Qed.

Lemma frames_app : forall k us u, frames E k (us ++ [u]) = frames E k us ++ frames E (k + length us) [u].
Proof.
  intros k us u. revert k. induction us as [|x us IH]; intros k; cbn [app frames length].
  - now rewrite Nat.add_0_r.
  - rewrite IH. cbn [app frames]. now rewrite Nat.add_succ_r.
Qed.

(** A failure at the end of a path comes out with the length of the path added to
    its depth, and with the types on the path in its message. *)
Lemma path_fails : forall dyn t ws b dyn2 t2 ws2 us, path E dyn t ws b dyn2 t2 ws2 us ->
  exists f0, forall f, (f0 <= f)%nat -> forall j e l,
    fails (with_ E m f t2 ws2) dyn2 j (SerErr e l) ->
    fails (with_ E m (length us + f) t ws) dyn (b ++ j)
      (SerErr (length us + e) (l ++ frames E (S e) us)).
Proof.
  intros dyn t ws b dyn2 t2 ws2 us H.
  induction H as [dyn t ws|dyn t ws p dyn1 t1 ws1 b dyn2 t2 ws2 us Hw H (f1 & IH)].
  - exists O. intros f _ j e l Hx. cbn [frames]. rewrite app_nil_r. exact Hx.
  - destruct (within_fails _ _ _ _ _ _ _ Hw) as (f2 & Hwi).
    exists (Nat.max f1 f2). intros f Hf j e l Hx.
    apply IH in Hx; [|lia]. apply Hwi in Hx; [|lia].
    apply (fails_traverse E any _ _ _ _ _ _ wf) in Hx. rewrite Hc in Hx. cbn [bump] in Hx.
    replace (length (us ++ [t])) with (S (length us)) by (rewrite app_length; cbn [length]; lia).
    rewrite frames_app. cbn [with_ Nat.add frames].
    replace (S (e + length us)) with (S (length us + e)) by lia.
    rewrite <- !app_assoc in *. exact Hx.
Qed.

Lemma fl_header : forall t z vf, z < 2 ^ 32 -> z <> tix E t ->
  fails (with_type_idx E m t) vf (le 4 z) (SerErr 0 [WrongType (tix E t) z (tix E t)]).
Proof.
  intros t z vf Hz Hn. unfold with_type_idx. rewrite <- (app_nil_r (le 4 z)).
  apply fails_contig; [now rewrite !le_length|]. cbn zeta.
  rewrite unle_le by exact Hz.
  assert (He : (tix E t =? z) = false) by (apply N.eqb_neq; congruence).
  rewrite He. cbn [negb]. rewrite orb_true_r. apply fails_fail.
Qed.
Lemma fl_trailer : forall t n z vf, z < two64 -> z <> wrap64 (sizeof E t * N.of_nat n) ->
  fails (with_mem_used E m t n) vf (le 8 z)
    (SerErr 0 [MemUsed (tix E t) z (wrap64 (sizeof E t * N.of_nat n))]).
Proof.
  intros t n z vf Hz Hn. unfold with_mem_used. rewrite <- (app_nil_r (le 8 z)).
  apply fails_contig; [now rewrite !le_length|]. cbn zeta.
  rewrite unle_le by exact Hz. apply N.eqb_neq in Hn. rewrite Hn. apply fails_fail.
Qed.
Lemma fl_end : forall f t ws b vs vf vf' z, z < two64 ->
  z <> wrap64 (sizeof E t * N.of_nat (length ws)) ->
  reads (ap E m (with_ E m f) t ws) vf b vs vf' ->
  fails (with_ E m (S f) t ws) vf (le 4 (tix E t) ++ b ++ le 8 z)
    (SerErr 0 [MemUsed (tix E t) z (wrap64 (sizeof E t * N.of_nat (length ws)))]).
Proof.
  intros f t ws b vs vf vf' z Hz Hn Hr. cbn [with_]. unfold traverse. rewrite Hc.
  eapply fails_bind_r; [apply (reads_tix E any); exact wf|].
  eapply fails_bind_r; [apply reads_catch; exact Hr|].
  apply fails_bind_l. now apply fl_trailer.
Qed.

Lemma intact_array : forall t vs ws, Forall2 (intact E t) vs ws -> ws <> [] ->
  (is_virtual E t = true -> length ws = 1%nat) ->
  exists f0, forall f, (f0 <= f)%nat -> exists xs, length xs = length ws /\
    reads (ap E m (with_ E m f) t ws) false (concat (map (encb E t) vs)) xs false.
Proof.
  intros t vs ws H Hn Hv. destruct (shallow_ex vs) as (f0 & Hs). exists f0. intros f Hf.
  pose proof (Forall2_length _ _ _ _ _ H) as Hl.
  destruct (u_ap any E wf C N.le any_cap max_cap f (U f) t vs ws) as (xs & Hsim & Hr).
  - repeat split.
    + clear - H. induction H as [|v w vs ws (Ht & _) H IH]; constructor; auto. now constructor.
    + intros ->. destruct ws; [congruence|discriminate].
    + intros Hv'. rewrite Hl. auto.
  - clear - H. induction H as [|v w vs ws (_ & HT) H IH]; constructor; auto. now apply TgtTy.
  - left. eapply shallow_le; eauto.
  - exists xs. rewrite <- Hl. split; auto. symmetry. eapply Forall2_length; eauto.
Qed.

Lemma damaged_fails : forall dyn t ws i l, damaged E dyn t ws i l ->
  exists f0, forall f, (f0 <= f)%nat -> fails (with_ E m f t ws) dyn i (SerErr 0 [l]).
Proof.
  intros dyn t ws i l H. destruct H.
  - exists 1%nat. intros [|f] Hf; [lia|]. cbn [with_]. unfold traverse. rewrite Hc.
    apply fails_bind_l. now apply fl_header.
  - destruct (intact_array _ _ _ H H0 H1) as (f0 & Hr). exists (S f0). intros [|f] Hf; [lia|].
    destruct (Hr f ltac:(lia)) as (xs & _ & Hrd). eapply fl_end; eauto.
  - destruct (rd_part c k ws b H H0 H2) as (f0 & Hr). exists (S f0). intros [|f] Hf; [lia|].
    destruct (Hr f ltac:(lia) d ls H1) as (fs & Hrd). rewrite <- (N.mul_1_r (sizeof E (TClass c))) in *.
    eapply (fl_end f (TClass c) [VObj d ls]); eauto.
Qed.
End Positions.
