(** Bytes, little-endian words and outcomes.

    Models: src/checkpoint/common.h:126-127 (SerialSizeType = size_t,
    SerialByteType = char) on a 64-bit little-endian machine, and the ways in
    which a call of the library can end. *)
From Coq Require Import List NArith ZArith Lia Arith Bool.
From Coq.Strings Require Import Byte.
Import ListNotations.
Local Open Scope N_scope.

(** src/checkpoint/common.h:127 [SerialByteType]. *)
Definition bytes := list byte.

(** [len b] = number of bytes as a machine number (before any wrap) (common.h:126). *)
Definition len {A} (l : list A) : N := N.of_nat (length l).

(** 2^64: SerialSizeType is size_t (src/checkpoint/common.h:126). *)
Definition two64 : N := 18446744073709551616.
(** SerialSizeType arithmetic (size_t, common.h:126) is modulo 2^64. *)
Definition wrap64 (n : N) : N := n mod two64.

(** The byte with value [n mod 256] (object representation of unsigned char)
    (SerialByteType, common.h:127). *)
Definition byte_of (n : N) : byte :=
  match Byte.of_N (n mod 256) with Some b => b | None => x00 end.

(** Object representation of an unsigned integer of [k] bytes, little endian
    (the memcpy of src/checkpoint/serializers/packer.impl.h:129 copies exactly
    this representation). *)
Fixpoint le (k : nat) (n : N) : bytes :=
  match k with
  | O => []
  | S k' => byte_of n :: le k' (n / 256)
  end.

(** Value of an unsigned integer with the given object representation
    (the reads of unpacker.impl.h:86-99). *)
Fixpoint unle (b : bytes) : N :=
  match b with
  | [] => 0
  | x :: r => Byte.to_N x + 256 * unle r
  end.

(** The lines of the message of a serialization_error.  A type is given by its index, by
    which the library looks up the name that it prints (type_registry.h:126-133).
    - [WrongType i j k]: "Unpacking wrong type, got=" with the name of type [i] and [i],
      ", expected=" with the name of type [j] and [j], and then "#0 " with the name of type
      [k] (dispatch.impl.h:94-99);
    - [MemUsed k m n]: "For type", the name of type [k], "serialization used [m] B, but
      deserialization used [n] B" (dispatch.impl.h:123-129);
    - [Sized k m n]: "For type", the name of type [k], "Sizer reported [m] B, but Packer used
      [n] B" (dispatch.impl.h:243-246);
    - [Frame d k]: "#[d] " with the name of type [k] (dispatch.impl.h:153-156). *)
Inductive line :=
| WrongType (got expected type : N)
| MemUsed (type serialized deserialized : N)
| Sized (type sizer packer : N)
| Frame (depth : nat) (type : N).

(** How an execution can fail to end normally.
    - [SerErr d msg]: checkpoint::dispatch::serialization_error with depth_ = d and what() = msg
      (src/checkpoint/dispatch/dispatch.impl.h:65-71);
    - [RtErr]: std::runtime_error thrown by a stream or by IOBuffer;
    - [RangeErr]: std::out_of_range from vector::at;
    - [AssertErr]: checkpointAssert fails, process aborts
      (src/checkpoint/common.h:112-119, enabled by default, line 66); if NDEBUG
      is defined the macro only prints (line 102), see [asserts] in Syntax.v;
    - [CallErr]: std::bad_function_call, an empty std::function is called
      (src/checkpoint/dispatch/vrt/serializer_registry.h:158);
    - [UB]: undefined behaviour (out-of-bounds memcpy, null dereference, ...);
    - [Terminate]: exception escaping a destructor (std::terminate);
    - [Stuck]: the program would not compile or is not modelled;
    - [NoFuel]: the recursion bound of the model was reached. *)
Inductive fail :=
| SerErr (depth : nat) (msg : list line)
| RtErr
| RangeErr
| AssertErr
| CallErr
| UB
| Terminate
| Stuck
| NoFuel.

(** Result of a C++ call: normal return or one of the failures above (dispatch.impl.h:136-188). *)
Inductive res (A : Type) :=
| Ok (a : A)
| Err (e : fail).
Arguments Ok {A} a.
Arguments Err {A} e.

(** A result computed from that of a call; an exception is passed on (any caller, e.g.
    dispatch.impl.h:208-221). *)
Definition rmap {A B} (f : A -> B) (r : res A) : res B :=
  match r with Ok a => Ok (f a) | Err e => Err e end.

(** The catch clause of src/checkpoint/dispatch/dispatch.impl.h:152-157:
    only serialization_error is caught, its depth grows by one and a line with the type [i]
    is added to its message. *)
Definition bump (i : N) (e : fail) : fail :=
  match e with SerErr d msg => SerErr (S d) (msg ++ [Frame (S d) i]) | _ => e end.

(** [true] if the failure is a C++ exception the caller can catch
    (assertions call abort, common.h:84-119). *)
Definition is_exception (e : fail) : bool :=
  match e with SerErr _ _ | RtErr | RangeErr | CallErr => true | _ => false end.

(** [firstn]/[skipn] on machine-sized counts are used on lists only
    (the reads of unpacker.impl.h:86-99 and stream_serializer.h:83-91). *)
Definition split_at {A} (n : nat) (l : list A) : option (list A * list A) :=
  if Nat.leb n (length l) then Some (firstn n l, skipn n l) else None.

(* ------------------------------------------------------------------ *)
(** * Facts *)

Lemma byte_of_to_N : forall n, Byte.to_N (byte_of n) = n mod 256.
Proof.
  intros n. unfold byte_of.
  destruct (Byte.of_N (n mod 256)) eqn:E.
  - now apply Byte.to_of_N.
  - exfalso. apply Byte.of_N_None_iff in E.
    assert (n mod 256 < 256) by (apply N.mod_lt; lia). lia.
Qed.

Lemma to_N_byte_of : forall b, byte_of (Byte.to_N b) = b.
Proof.
  intros b. unfold byte_of.
  assert (Byte.to_N b < 256) by (pose proof (Byte.to_N_bounded b); lia).
  rewrite N.mod_small by lia. now rewrite Byte.of_to_N.
Qed.

Lemma le_length : forall k n, length (le k n) = k.
Proof. induction k; intros; cbn [le length]; auto. Qed.

Lemma unle_le : forall k n, n < 256 ^ N.of_nat k -> unle (le k n) = n.
Proof.
  induction k; intros n H.
  - cbn in *. lia.
  - cbn [le unle]. rewrite byte_of_to_N.
    rewrite Nat2N.inj_succ, N.pow_succ_r' in H.
    rewrite IHk.
    + rewrite (N.div_mod n 256) at 3 by lia. lia.
    + apply N.div_lt_upper_bound; lia.
Qed.

Lemma le_unle : forall b, le (length b) (unle b) = b.
Proof.
  induction b as [|x r IH]; cbn [le unle length]; auto.
  f_equal.
  - unfold byte_of.
    assert (Byte.to_N x < 256) by (pose proof (Byte.to_N_bounded x); lia).
    replace ((Byte.to_N x + 256 * unle r) mod 256) with (Byte.to_N x mod 256).
    + change (match Byte.of_N (Byte.to_N x mod 256) with Some b => b | None => x00 end)
        with (byte_of (Byte.to_N x)). apply to_N_byte_of.
    + rewrite N.mul_comm, N.mod_add by lia. reflexivity.
  - replace ((Byte.to_N x + 256 * unle r) / 256) with (unle r); auto.
    assert (Byte.to_N x < 256) by (pose proof (Byte.to_N_bounded x); lia).
    rewrite N.mul_comm, N.div_add by lia. rewrite N.div_small by lia. lia.
Qed.

Lemma unle_bound : forall b, unle b < 256 ^ len b.
Proof.
  induction b as [|x r IH]; unfold len in *; cbn [unle length].
  - cbn. lia.
  - rewrite Nat2N.inj_succ, N.pow_succ_r'.
    pose proof (Byte.to_N_bounded x). lia.
Qed.

Lemma le_inj : forall k a b,
  a < 256 ^ N.of_nat k -> b < 256 ^ N.of_nat k -> le k a = le k b -> a = b.
Proof.
  intros k a b Ha Hb H. rewrite <- (unle_le k a Ha), <- (unle_le k b Hb).
  now rewrite H.
Qed.

Lemma len_app : forall A (a b : list A), len (a ++ b) = len a + len b.
Proof. intros. unfold len. rewrite app_length. lia. Qed.

Lemma len_le : forall k n, len (le k n) = N.of_nat k.
Proof. intros. unfold len. now rewrite le_length. Qed.

Lemma len_nil : forall A, len (@nil A) = 0.
Proof. reflexivity. Qed.

Lemma len_cons : forall A (a : A) l, len (a :: l) = len l + 1.
Proof. intros. unfold len. cbn [length]. lia. Qed.

Lemma split_at_app : forall A (a b : list A) n,
  length a = n -> split_at n (a ++ b) = Some (a, b).
Proof.
  intros A a b n <-. unfold split_at.
  rewrite app_length.
  replace (length a <=? length a + length b)%nat with true
    by (symmetry; apply Nat.leb_le; lia).
  rewrite firstn_app, Nat.sub_diag, firstn_all, firstn_O, app_nil_r.
  rewrite skipn_app, Nat.sub_diag, skipn_all, skipn_O. reflexivity.
Qed.

Lemma split_at_inv : forall A n (l a b : list A),
  split_at n l = Some (a, b) -> l = a ++ b /\ length a = n.
Proof.
  intros A n l a b. unfold split_at.
  destruct (n <=? length l)%nat eqn:E; [|discriminate].
  intros H; inversion H; subst. apply Nat.leb_le in E.
  split; [now rewrite firstn_skipn|]. rewrite firstn_length. lia.
Qed.

Lemma split_at_none : forall A n (l : list A),
  split_at n l = None <-> (length l < n)%nat.
Proof.
  intros. unfold split_at. destruct (n <=? length l)%nat eqn:E.
  - apply Nat.leb_le in E. split; [discriminate|lia].
  - apply Nat.leb_gt in E. split; auto.
Qed.
