(** What is left behind when reading into an object stops with an exception.

    The functions of Traverse.v in mode Unpacking once more, with the state in which each of
    them leaves the object it is reading: also when a step throws.  C++ assigns members and
    elements one by one, so an exception leaves the object between its old and its new
    contents. *)
From Coq Require Import List NArith Arith Bool.
From Verif Require Import Base Syntax Prog Serializers Traverse.
Import ListNotations.
Local Open Scope N_scope.

Section Torn.
Variable E : env.
(** A serializer that reads; countBytes does nothing (base_serializer.h:129-136). *)
Variable H : serializer.
(** The memory that contiguousBytes was to fill, after it has failed. *)
Variable short : state H -> bytes -> bytes.

(** How a step ends: normally, or with an exception.  [lost]: the objects that exist at that
    time in raw storage (dispatch/allocator.h:53-59) and that nothing refers to any more:
    the storage is freed by the destructor of Allocator, the destructor of the object never
    runs. *)
Inductive outcome :=
| Cont (vf : bool) (s : state H)
| Stop (e : fail) (lost : list (ty * val)).

(** Code that changes only local variables: if it throws, the object [old] under
    construction is as it was
    (e.g. [vec_size] of vector_serialize.h:66-68, [u] of enum_serialize.h:60-62). *)
Definition with_local {A B} (p : prog A) (old : B)
  (k : A -> bool -> state H -> B * outcome) (vf : bool) (s : state H) : B * outcome :=
  match interp H p vf s with
  | Ok (a, vf', s') => k a vf' s'
  | Err e => (old, Stop e [])
  end.

(** A part [a] of the object is read; [put] is the object with the part as it was left
    (dispatch.impl.h:56-59: [s | part]). *)
Definition then_ {A B} (r : A * outcome) (put : A -> B)
  (k : A -> bool -> state H -> B * outcome) : B * outcome :=
  match r with
  | (a, Cont vf s) => k a vf s
  | (a, Stop e lost) => (put a, Stop e lost)
  end.

(** Loop over the elements of a sequence, in place (dispatch_serializer_nonbyte.h:174-201,
    list_serialize.h:72-74): those after the one that failed are untouched. *)
Fixpoint torn_map {A} (g : A -> bool -> state H -> A * outcome) (l : list A)
  (vf : bool) (s : state H) : list A * outcome :=
  match l with
  | [] => ([], Cont vf s)
  | x :: r =>
    then_ (g x vf s) (fun y => y :: r) (fun y vf s =>
    then_ (torn_map g r vf s) (fun ys => y :: ys) (fun ys vf s => (y :: ys, Cont vf s)))
  end.

(** Accumulating loop (e.g. map_serialize.h:66-75). *)
Fixpoint torn_fold {A B} (g : B -> A -> bool -> state H -> B * outcome) (l : list A) (acc : B)
  (vf : bool) (s : state H) : B * outcome :=
  match l with
  | [] => (acc, Cont vf s)
  | x :: r => then_ (g acc x vf s) (fun b => b) (fun b vf s => torn_fold g r b vf s)
  end.

Section Rec.
(** Traverse::with at the next nesting level: on local variables, and on objects. *)
Variable R : ty -> list val -> prog (list val).
Variable rec : ty -> list val -> bool -> state H -> list val * outcome.

(** operator|, src/checkpoint/dispatch/dispatch.impl.h:56-59 *)
Definition torn_ser (t : ty) (v : val) (vf : bool) (s : state H) : val * outcome :=
  then_ (rec t [v] vf s) (fun vs => match vs with [x] => x | _ => v end) (fun vs vf s =>
    match vs with [x] => (x, Cont vf s) | _ => (v, Stop Stuck []) end).

(** serializeArray, src/checkpoint/dispatch/dispatch.impl.h:229-234 *)
Definition torn_array (t : ty) (vs : list val) (vf : bool) (s : state H) : list val * outcome :=
  match vs with
  | [] => ([], Cont vf s)
  | _ => rec t vs vf s
  end.

(** A temporary in raw storage is constructed and read: list_serialize.h:88-92,
    queue_serialize.h:59-63, map_serialize.h:71-74, optional_serialize.h:67-70,
    variant_serialize.h:70-73.  If reading it throws, [old] is as it was and the temporary
    is lost.  Simplification: memory that is allocated when construct fails is left out. *)
Definition with_temp {B} (t : ty) (old : B) (k : val -> bool -> state H -> B * outcome)
  (vf : bool) (s : state H) : B * outcome :=
  with_local (construct E t) old (fun d vf s =>
    match torn_ser t d vf s with
    | (x, Cont vf' s') => k x vf' s'
    | (x, Stop e lost) => (old, Stop e (lost ++ [(t, x)]))
    end) vf s.

(** serialize(s, vector<T>), src/checkpoint/container/vector_serialize.h:57-69, 109-121:
    reserve after the capacity is known, resize after the size is known. *)
Definition torn_vector (t : ty) (cap : N) (l : list val) : bool -> state H -> val * outcome :=
  with_local (ser_size R cap) (VVec cap l) (fun c =>
  let cap1 := N.max cap c in
  with_local (ser_size R (len l)) (VVec cap1 l) (fun n =>
  with_local (construct_vector_data E t (N.to_nat n) l) (VVec cap1 l) (fun l1 vf s =>
  let put l2 := VVec (N.max cap1 (len l2)) l2 in
  then_ (torn_array t l1 vf s) put (fun l2 vf s => (put l2, Cont vf s))))).

(** serialize(s, vector<bool>), src/checkpoint/container/vector_serialize.h:123-145 *)
Definition torn_vecbool (cap : N) (l : list val) : bool -> state H -> val * outcome :=
  with_local (ser_size R cap) (VVec cap l) (fun c =>
  let cap1 := N.max cap c in
  with_local (ser_size R (len l)) (VVec cap1 l) (fun n vf s =>
  let put l2 := VVec (N.max cap1 (len l2)) l2 in
  then_ (torn_map (fun x => with_local (ser_bool R false) x
                     (fun b vf s => (VB (le 1 (if b then 1 else 0)), Cont vf s)))
           (resize (N.to_nat n) (VB (le 1 0)) l) vf s)
    put (fun l2 vf s => (put l2, Cont vf s)))).

(** serialize(s, std::string), src/checkpoint/container/string_serialize.h:53-79 *)
Definition torn_string (cap : N) (b : bytes) : bool -> state H -> val * outcome :=
  with_local (ser_size R (len b)) (VStr cap b) (fun n vf s =>
  let put l := match unchars l with
               | Some b2 => VStr (N.max cap (len b2)) b2
               | None => VStr cap b
               end in
  then_ (torn_array CHAR (chars (resize (N.to_nat n) Byte.x00 b)) vf s) put (fun l vf s =>
    match unchars l with
    | Some _ => (put l, Cont vf s)
    | None => (put l, Stop Stuck [])
    end)).

(** serialize(s, std::array), src/checkpoint/container/array_serialize.h:54-57 *)
Definition torn_stdarray (t : ty) (l : list val) (vf : bool) (s : state H) : val * outcome :=
  then_ (torn_array t l vf s) VSeq (fun l vf s => (VSeq l, Cont vf s)).

(** Elements appended one by one: deserializeOrderedElems for elements that cannot be
    copied, list_serialize.h:76-95; deserializeQueueElems, queue_serialize.h:54-65. *)
Definition torn_append (t : ty) (n : nat) (l : list val) : bool -> state H -> list val * outcome :=
  torn_fold (fun acc (_ : unit) =>
    with_temp t acc (fun x vf s => (acc ++ [x], Cont vf s))) (repeat tt n) l.

(** serializeOrderedContainer, src/checkpoint/container/list_serialize.h:105-126, with
    deserializeOrderedElems, 57-95.  The object that new elements are copied from is in raw
    storage. *)
Definition torn_list (ct t : ty) (l : list val) : bool -> state H -> val * outcome :=
  with_local (ser_container_size E MUnpacking R ct (len l)) (VSeq l) (fun n vf s =>
  if copyc E t then
    with_local (construct E t) (VSeq l) (fun d vf s =>
      match torn_map (torn_ser t) (resize (N.to_nat n) d l) vf s with
      | (l', Cont vf s) => (VSeq l', Cont vf s)
      | (l', Stop e lost) => (VSeq l', Stop e (lost ++ [(t, d)]))
      end) vf s
  else
    then_ (torn_append t (N.to_nat n) l vf s) VSeq (fun l' vf s => (VSeq l', Cont vf s))).

(** std::queue, src/checkpoint/container/queue_serialize.h:54-65, 82-95 *)
Definition torn_queue (t : ty) (l : list val) : bool -> state H -> val * outcome :=
  with_local (ser_container_size E MUnpacking R (TQueue t) (len l)) (VSeq l) (fun n vf s =>
  then_ (torn_append t (N.to_nat n) l vf s) VSeq (fun l' vf s => (VSeq l', Cont vf s))).

(** serializeMapLikeContainer, src/checkpoint/container/map_serialize.h:59-76, 86-97 *)
Definition torn_assoc (k : assoc) (t : ty) (c : val) (vf : bool) (s : state H) : val * outcome :=
  match elements c with
  | None => (c, Stop Stuck [])
  | Some l =>
    with_local (ser_container_size E MUnpacking R (TAssoc k t) (len l)) c (fun n =>
    torn_fold (fun acc (_ : unit) => with_temp t acc (fun x vf s =>
      match emplace E k t acc x with
      | Some c' => (c', Cont vf s)
      | None => (acc, Stop Stuck [])
      end)) (repeat tt (N.to_nat n)) c) vf s
  end.

(** serialize(s, pair), src/checkpoint/container/tuple_serialize.h:75-80 *)
Definition torn_pair (a b : ty) (x y : val) (vf : bool) (s : state H) : val * outcome :=
  then_ (torn_ser a x vf s) (fun x' => VSeq [x'; y]) (fun x' vf s =>
  then_ (torn_ser b y vf s) (fun y' => VSeq [x'; y']) (fun y' vf s => (VSeq [x'; y'], Cont vf s))).

(** tuple_helper, src/checkpoint/container/tuple_serialize.h:56-73 *)
Fixpoint torn_tuple (ts : list ty) (l : list val) (vf : bool) (s : state H)
  : list val * outcome :=
  match ts, l with
  | [], [] => ([], Cont vf s)
  | t :: ts', v :: l' =>
    then_ (torn_ser t v vf s) (fun x => x :: l') (fun x vf s =>
    then_ (torn_tuple ts' l' vf s) (fun xs => x :: xs) (fun xs vf s => (x :: xs, Cont vf s)))
  | _, _ => (l, Stop Stuck [])
  end.

(** deserializeOptional, src/checkpoint/container/optional_serialize.h:53-74: assigned after
    the value has been read. *)
Definition torn_optional (t : ty) (o : option val) : bool -> state H -> val * outcome :=
  with_local (ser_bool R false) (VOpt o) (fun has vf s =>
  if has then with_temp t (VOpt o) (fun x vf s => (VOpt (Some x), Cont vf s)) vf s
  else (VOpt None, Cont vf s)).

(** SerializeEntry::serialize, src/checkpoint/container/variant_serialize.h:58-91: assigned
    after the alternative has been read. *)
Fixpoint torn_entry (ts : list ty) (v : val) (entry : N) (cur : nat) (vf : bool) (s : state H)
  : val * outcome :=
  match ts with
  | [] => (v, Cont vf s)
  | t :: ts' =>
    if entry =? N.of_nat cur
    then with_temp t v (fun x vf s => (VVar cur x, Cont vf s)) vf s
    else torn_entry ts' v entry (S cur) vf s
  end.
(** serialize(s, variant), src/checkpoint/container/variant_serialize.h:118-123 *)
Definition torn_variant (ts : list ty) (v : val) (vf : bool) (s : state H) : val * outcome :=
  match variant_index v with
  | None => (v, Stop Stuck [])
  | Some i =>
    with_local (ser_size R i) v (fun entry => torn_entry ts v entry 0) vf s
  end.

(** serialize(s, unique_ptr), src/checkpoint/container/unique_ptr_serialize.h:53-80: the
    pointer owns a new object before the object is read. *)
Definition torn_unique (t : ty) (p : option val) : bool -> state H -> val * outcome :=
  let is_null := match p with None => true | Some _ => false end in
  with_local (ser_bool R is_null) (VOpt p) (fun is_null' vf s =>
  if (is_null' : bool) then (VOpt None, Cont vf s)
  else
    with_local (reconstruct_pointed E MUnpacking R t p) (VOpt p) (fun target vf s =>
      match target with
      | None => (VOpt p, Stop UB [])
      | Some v =>
        then_ (torn_ser t v vf s) (fun x => VOpt (Some x)) (fun x vf s =>
          (VOpt (Some x), Cont vf s))
      end) vf s).

(** A user-defined serialize function: [s | member] for the listed members
    (called by dispatch_serializer_nonbyte.h:61-67, 121-127). *)
Definition torn_members (ts : list ty) (is_ : list nat) (fs : list val)
  : bool -> state H -> list val * outcome :=
  torn_fold (fun fs i vf s =>
    match nth_error ts i, nth_error fs i with
    | Some t, Some v =>
      then_ (torn_ser t v vf s) (fun x => upd fs i x) (fun x vf s => (upd fs i x, Cont vf s))
    | _, _ => (fs, Stop Stuck [])
    end) is_ fs.

(** applyStatic for one object of static class [c], dispatch_serializer_nonbyte.h:174-201 *)
Definition torn_static (c : nat) (v : val) (vf : bool) (s : state H) : val * outcome :=
  match v, cls E c with
  | VObj d ls, Some k =>
    match nth_error ls (level E c) with
    | Some fs =>
      let put fs' := VObj d (upd ls (level E c) fs') in
      then_ (torn_members (cfields k) (cser k MUnpacking) fs vf s) put
        (fun fs' vf s => (put fs', Cont vf s))
    | None => (v, Stop Stuck [])
    end
  | _, _ => (v, Stop Stuck [])
  end.

(** virtualSerialize, virtual_serialize.h:60-66, derived.h:53-81, base.h:55-70: the classes of
    the object, the base first. *)
Definition torn_dyn (v : val) (vf : bool) (s : state H) : val * outcome :=
  match v with
  | VObj d _ =>
    if is_virtual E (TClass d)
    then torn_fold (fun v c vf s => torn_ser (TClass c) v true s)
           (chain E d) v vf s
    else (v, Stop Stuck [])
  | _ => (v, Stop Stuck [])
  end.

(** The overload of [serialize(s, x)] for the type (dispatch_serializer_nonbyte.h:174-201).
    Enumerations and durations are read into a local variable (enum_serialize.h:54-63,
    chrono_serialize.h:53-58). *)
Definition torn_elem (t : ty) (v : val) (vf : bool) (s : state H) : val * outcome :=
  match t, v with
  | TEnum _ uid usz, VB b | TChrono _ uid usz, VB b =>
    with_local (ser_underlying R uid usz b) v (fun x vf s => (x, Cont vf s)) vf s
  | TString, VStr cap b => torn_string cap b vf s
  | TVector t', VVec cap l => torn_vector t' cap l vf s
  | TVecBool, VVec cap l => torn_vecbool cap l vf s
  | TArray _ t', VSeq l => torn_stdarray t' l vf s
  | TList dq t', VSeq l => torn_list (TList dq t') t' l vf s
  | TQueue t', VSeq l => torn_queue t' l vf s
  | TAssoc k t', _ => torn_assoc k t' v vf s
  | TPair a b, VSeq [x; y] => torn_pair a b x y vf s
  | TTuple ts, VSeq l =>
    then_ (torn_tuple ts l vf s) VSeq (fun l' vf s => (VSeq l', Cont vf s))
  | TOptional t', VOpt o => torn_optional t' o vf s
  | TVariant ts, _ => torn_variant ts v vf s
  | TUnique t', VOpt o => torn_unique t' o vf s
  | TClass c, _ => torn_static c v vf s
  | _, _ => (v, Stop Stuck [])
  end.

(** SerializerDispatch, dispatch_serializer_byte.h:67-80, dispatch_serializer_nonbyte.h:
    217-234.  contiguousBytes may fail after it has overwritten a part of the memory. *)
Definition torn_ap (t : ty) (vs : list val) (vf : bool) (s : state H) : list val * outcome :=
  if bytecopy E t then
    match opt_all (map (obj_bytes E t) vs) with
    | Some bs =>
      match contig H (concat bs) s with
      | Ok (b, s') => (unflatten E t vs b, Cont vf s')
      | Err e => (unflatten E t vs (short s (concat bs)), Stop e [])
      end
    | None => (vs, Stop Stuck [])
    end
  else if is_virtual E t then
    if vf then torn_map (torn_elem t) vs false s
    else match vs with
         | [] => ([], Cont vf s)
         | v :: r => then_ (torn_dyn v vf s) (fun v' => v' :: r) (fun v' vf s => (v' :: r, Cont vf s))
         end
  else torn_map (torn_elem t) vs vf s.

(** Traverse::with, src/checkpoint/dispatch/dispatch.impl.h:136-167: the check before reading
    leaves the object as it was, the check after reading comes when it has been read. *)
Definition torn_traverse (t : ty) (vs : list val) (vf : bool) (s : state H)
  : list val * outcome :=
  if chk E then
    with_local (with_type_idx E MUnpacking t) vs (fun _ vf s =>
      match torn_ap t vs vf s with
      | (vs', Cont vf s) =>
        with_local (with_mem_used E MUnpacking t (length vs)) vs' (fun _ vf s => (vs', Cont vf s)) vf s
      | (vs', Stop e lost) => (vs', Stop (bump (tix E t) e) lost)
      end) vf s
  else torn_ap t vs vf s.
End Rec.

(** The recursive traversal (dispatch.impl.h:136-167). *)
Fixpoint torn_with (fuel : nat) (t : ty) (vs : list val) (vf : bool) (s : state H)
  : list val * outcome :=
  match fuel with
  | O => (vs, Stop NoFuel [])
  | S f => torn_traverse (with_ E MUnpacking f) (torn_with f) t vs vf s
  end.

(** Traverse::with on a new traverser, src/checkpoint/dispatch/dispatch.impl.h:169-188 *)
Definition torn_root (fuel : nat) (t : ty) (v : val) (s : state H) : val * outcome :=
  if chk E then torn_ser (torn_with fuel) t v false s
  else
    with_local (with_type_idx E MUnpacking t) v (fun _ vf s =>
    then_ (torn_ser (torn_with fuel) t v vf s) (fun x => x) (fun x vf s =>
    with_local (with_mem_used E MUnpacking t 1) x (fun _ vf s => (x, Cont vf s)) vf s)) false s.
End Torn.
Arguments Cont {H} vf s.
Arguments Stop {H} e lost.

(** std::istream::read stores the characters there are and then sets failbit
    (stream_serializer.h:81-86). *)
Definition short_stream (i : istream) (old : bytes) : bytes :=
  i_data i ++ skipn (length (i_data i)) old.

(** deserializeInPlaceFromStream, checkpoint_api.impl.h:144-149: the object after the call has
    returned or thrown. *)
Definition in_place_from_stream (E : env) (f : nat) (t : ty) (i : istream) (target : val)
  : val * outcome stream_unpacker :=
  torn_root E stream_unpacker short_stream f t target i.

(** deserializeInPlace, checkpoint_api.impl.h:82-86: the object after the call has returned or
    thrown.  Reading past the end of the buffer is undefined behaviour, so what it leaves is of
    no interest. *)
Definition in_place_from_memory (E : env) (f : nat) (t : ty) (mem : bytes) (off : nat) (target : val)
  : val * outcome unpacker :=
  torn_root E unpacker (fun _ old => old) f t target {| u_buf := mem; u_cur := off; u_used := 0 |}.
