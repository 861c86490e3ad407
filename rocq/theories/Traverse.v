(** The traversal: src/checkpoint/dispatch/*.h and src/checkpoint/container/*.h,
    function by function, for a serializer running in mode [m].

    The functions take the recursive call [rec] (Traverse::with on an array of
    objects) as a parameter; [with_] at the end ties the knot with fuel. *)
From Coq Require Import List NArith Arith Bool.
From Verif Require Import Base Syntax Prog.
Import ListNotations.
Local Open Scope N_scope.
Local Open Scope prog_scope.

(** typeregistry::validateIndex, src/checkpoint/dispatch/type_registry.h:95-101 *)
Definition dead_mask : N := 4278190335.  (* 0xFF0000FF *)
(** type_registry.h:97. *)
Definition dead_mark : N := 3724542125.  (* 0xDE0000AD *)
(** validateIndex, type_registry.h:99-101. *)
Definition validate_index (i : N) : bool := dead_mark =? N.land i dead_mask.

(** std::vector::resize(n, d) / list::resize(n, d)
    (vector_serialize.h:76, 88, list_serialize.h:71). *)
Definition resize {A} (n : nat) (d : A) (l : list A) : list A :=
  firstn n l ++ repeat d (n - length l).

(** Replace element [i]
    (assignment to a member or element through the reference passed to [s | x], dispatch.impl.h:56-59). *)
Fixpoint upd {A} (l : list A) (i : nat) (x : A) : list A :=
  match l, i with
  | [], _ => []
  | _ :: r, O => x :: r
  | y :: r, S i' => y :: upd r i' x
  end.

(** std::set/map::emplace into a container kept sorted by [lt]: at the upper
    bound of the equivalent elements (map_serialize.h:74). *)
Fixpoint insert_sorted (lt : val -> val -> bool) (x : val) (l : list val) : list val :=
  match l with
  | [] => [x]
  | y :: r => if lt x y then x :: y :: r else y :: insert_sorted lt x r
  end.

(** cont.emplace(std::move( *reconstructed )), src/checkpoint/container/
    map_serialize.h:74.  Containers with unique keys ignore an element whose key
    is already present. *)
Definition emplace (E : env) (k : assoc) (t : ty) (c : val) (x : val) : option val :=
  let ct := TAssoc k t in
  match k, c with
  | AOrd multi _, VSeq l =>
    if negb multi && existsb (fun y => negb (less E ct x y) && negb (less E ct y x)) l
    then Some (VSeq l)
    else Some (VSeq (insert_sorted (less E ct) x l))
  | AHash multi _, VBag l =>
    if negb multi && existsb (keq E ct x) l
    then Some (VBag l)
    else Some (VBag (hplace E ct l x))
  | _, _ => None
  end.

(** Elements of an associative container in iteration order
    (container_serialize.h:74-79). *)
Definition elements (c : val) : option (list val) :=
  match c with VSeq l | VBag l => Some l | _ => None end.

(** Object representation of a byte-copyable object of static type [t]
    (for a byte-copyable polymorphic class: of the part of class [t];
    simplification: base-class parts and the vptr are not included)
    (contiguousTyped, base_serializer.h:162-165). *)
Definition obj_bytes (E : env) (t : ty) (v : val) : option bytes :=
  match t, v with
  | _, VB b => Some b
  | TClass c, VObj _ ls =>
    match nth_error ls (level E c) with
    | Some [VB b] => Some b
    | _ => None
    end
  | _, _ => None
  end.
(** The object after its memory has been overwritten, unpacker.impl.h:86-99. *)
Definition obj_setbytes (E : env) (t : ty) (v : val) (b : bytes) : val :=
  match t, v with
  | TClass c, VObj d ls => VObj d (upd ls (level E c) [VB b])
  | _, _ => VB b
  end.

(** The objects of an array after their memory has been overwritten by [b]
    (unpacker.impl.h:86-99). *)
Fixpoint unflatten (E : env) (t : ty) (vs : list val) (b : bytes) : list val :=
  match vs with
  | [] => []
  | v :: r =>
    match obj_bytes E t v with
    | Some x => obj_setbytes E t v (firstn (length x) b)
                :: unflatten E t r (skipn (length x) b)
    | None => v :: unflatten E t r b
    end
  end.

Section Functions.
Variable E : env.
Variable m : mode.

(** withTypeIdx<T>, src/checkpoint/dispatch/dispatch.impl.h:73-105 *)
Definition with_type_idx (t : ty) : prog unit :=
  match m with
  | MPacking | MSizing => Contig (le 4 (tix E t)) (fun _ => Ret tt)
  | MUnpacking =>
    Contig (le 4 0) (fun b =>
      let i := unle b in
      if negb (validate_index i) || negb (tix E t =? i)
      then Fail (SerErr 0 [WrongType (tix E t) i (tix E t)]) else Ret tt)
  | _ => Ret tt
  end.

(** withMemUsed<T>, src/checkpoint/dispatch/dispatch.impl.h:107-134 *)
Definition with_mem_used (t : ty) (n : nat) : prog unit :=
  let mem_used := wrap64 (sizeof E t * N.of_nat n) in
  match m with
  | MPacking | MSizing => Contig (le 8 mem_used) (fun _ => Ret tt)
  | MUnpacking =>
    Contig (le 8 0) (fun b =>
      if unle b =? mem_used then Ret tt
      else Fail (SerErr 0 [MemUsed (tix E t) (unle b) mem_used]))
  | _ => Ret tt
  end.

Section Rec.
(** Traverse::with(T& target, TraverserT& s, len) at the next nesting level. *)
Variable rec : ty -> list val -> prog (list val).

(** operator|, src/checkpoint/dispatch/dispatch.impl.h:56-59 *)
Definition ser (t : ty) (v : val) : prog val :=
  vs <- rec t [v];;
  match vs with [x] => Ret x | _ => Fail Stuck end.

(** [s | n] for a local variable [n] of an unsigned integer type
    (dispatch.impl.h:56-59). *)
Definition ser_word (id sz : nat) (n : N) : prog N :=
  v <- ser (TPrim id sz) (VB (le sz n));;
  match v with VB b => Ret (unle b) | _ => Fail Stuck end.
(** [s | n] for a size_t (e.g. container_serialize.h:52-62). *)
Definition ser_size (n : N) : prog N := ser_word 0 8 n.
(** [s | n] for a vrt::TypeIdx (virtual_serialize.h:100-129). *)
Definition ser_int (n : N) : prog N := ser_word 3 4 n.

(** [s | b] for a local bool; using a bool whose representation is neither 0
    nor 1 is undefined behaviour (dispatch.impl.h:56-59). *)
Definition ser_bool (b : bool) : prog bool :=
  n <- ser_word 1 1 (if b then 1 else 0);;
  if n =? 0 then Ret false else if n =? 1 then Ret true else Fail UB.

(** serializeArray, src/checkpoint/dispatch/dispatch.impl.h:229-234 *)
Definition ser_array (t : ty) (vs : list val) : prog (list val) :=
  match vs with
  | [] => Ret []
  | _ => rec t vs
  end.

(** Reconstructor<T>::construct on raw storage (reconstructor.h:142-145). *)
Definition construct (t : ty) : prog val :=
  Note (EvConstruct t) (of_opt (recon E t)).

(** std::move out of a temporary [x] of type [t] in raw storage that is freed
    without running its destructor (dispatch/allocator.h:53-59), as in
    container/{vector,list,queue,variant,map}_serialize.h.  The element of a map is
    a pair with a constant key, which is copied.
    Simplification: assigning to a variant that holds the same alternative is
    treated as move construction. *)
Definition leave (t : ty) (x : val) {A} (k : prog A) : prog A :=
  if movec E t then k else Note (EvAbandon t x) k.
(** The same for an element of an associative container (map_serialize.h:66-75). *)
Definition leave_elem (a : assoc) (t : ty) (x : val) {A} (k : prog A) : prog A :=
  match a, t, x with
  | (AOrd _ true | AHash _ true), TPair kt vt, VSeq [ke; ve] =>
    Note (EvAbandon kt ke) (leave vt ve k)
  | _, _, _ => leave t x k
  end.

(** serializeVectorMeta, src/checkpoint/container/vector_serialize.h:57-69:
    returns capacity after reserve and the size read. *)
Definition ser_vector_meta (cap : N) (n : N) : prog (N * N) :=
  cap' <- ser_size cap;;
  n' <- ser_size n;;
  Ret (N.max cap cap', n').

(** constructVectorData, src/checkpoint/container/vector_serialize.h:71-107 *)
Definition construct_vector_data (t : ty) (n : nat) (l : list val) : prog (list val) :=
  if defc E t then
    d <- of_opt (dflt E t);; Ret (resize n d l)
  else if copyc E t then
    d <- construct t;; Note (EvAbandon t d) (Ret (resize n d l))
  else
    foldP (fun acc _ => d <- construct t;; leave t d (Ret (acc ++ [d]))) (repeat tt n) l.

(** serialize(s, vector<T>), src/checkpoint/container/vector_serialize.h:109-121
    and footprint variant 147-155 *)
Definition ser_vector (t : ty) (cap : N) (l : list val) : prog val :=
  if is_footprinting m then
    Count (sizeof E (TVector t))
      (l' <- ser_array t l;;
       Count (wrap64 (sizeof E t * (cap - len l))) (Ret (VVec cap l')))
  else
    meta <- ser_vector_meta cap (len l);;
    let '(cap', n) := meta in
    l1 <- (if is_unpacking m
           then construct_vector_data t (N.to_nat n) l
           else Ret l);;
    l2 <- ser_array t l1;;
    Ret (VVec (N.max cap' (len l2)) l2).

(** serialize(s, vector<bool>), src/checkpoint/container/vector_serialize.h:
    123-145 and footprint variant 157-164 *)
Definition ser_vecbool (cap : N) (l : list val) : prog val :=
  if is_footprinting m then
    Count (sizeof E TVecBool) (Ret (VVec cap l))
  else
    meta <- ser_vector_meta cap (len l);;
    let '(cap', n) := meta in
    if is_unpacking m then
      let l1 := resize (N.to_nat n) (VB (le 1 0)) l in
      l2 <- mapP (fun _ => b <- ser_bool false;; Ret (VB (le 1 (if b then 1 else 0)))) l1;;
      Ret (VVec (N.max cap' (len l2)) l2)
    else
      mapP (fun e => ser BOOL e) l;;;
      Ret (VVec cap' l).

(** serialize(s, std::string), src/checkpoint/container/string_serialize.h:53-79.
    Resizing a string keeps its prefix; the new capacity is not observable
    through the library except by footprinting (libstdc++: at least the size). *)
Definition chars (b : bytes) : list val := map (fun c => VB [c]) b.
(** The bytes of the elements at str.c_str() (string_serialize.h:53-79). *)
Fixpoint unchars (l : list val) : option bytes :=
  match l with
  | [] => Some []
  | VB [c] :: r => option_map (cons c) (unchars r)
  | _ => None
  end.
(** serialize(s, std::string), string_serialize.h:53-79. *)
Definition ser_string (cap : N) (b : bytes) : prog val :=
  if is_footprinting m then
    Count (sizeof E TString)
      (ser_array CHAR (chars (b ++ repeat Byte.x00 (N.to_nat (cap - len b))));;;
       Ret (VStr cap b))
  else
    n <- ser_size (len b);;
    let b1 := resize (N.to_nat n) Byte.x00 b in
    l <- ser_array CHAR (chars b1);;
    b2 <- of_opt (unchars l);;
    Ret (VStr (N.max cap (len b2)) b2).

(** serialize(s, std::array), src/checkpoint/container/array_serialize.h:54-57 *)
Definition ser_stdarray (t : ty) (l : list val) : prog val :=
  l' <- ser_array t l;; Ret (VSeq l').

(** serializeContainerSize, src/checkpoint/container/container_serialize.h:52-62 *)
Definition ser_container_size (ct : ty) (n : N) : prog N :=
  if is_footprinting m then Count (sizeof E ct) (Ret n) else ser_size n.

(** serializeContainerElems, src/checkpoint/container/container_serialize.h:74-79 *)
Definition ser_container_elems (t : ty) (l : list val) : prog (list val) :=
  mapP (ser t) l.

(** deserializeOrderedElems, src/checkpoint/container/list_serialize.h:57-95 *)
Definition deser_ordered (t : ty) (n : nat) (l : list val) : prog (list val) :=
  if copyc E t then
    d <- construct t;;
    Note (EvAbandon t d) (mapP (ser t) (resize n d l))
  else
    foldP (fun acc _ => d <- construct t;; x <- ser t d;; leave t x (Ret (acc ++ [x])))
      (repeat tt n) l.

(** serializeOrderedContainer, src/checkpoint/container/list_serialize.h:105-126 *)
Definition ser_list (ct t : ty) (l : list val) : prog val :=
  n <- ser_container_size ct (len l);;
  l' <- (if is_unpacking m then deser_ordered t (N.to_nat n) l
         else ser_container_elems t l);;
  Ret (VSeq l').

(** deserializeEmplaceElems, src/checkpoint/container/map_serialize.h:59-76 *)
Definition deser_emplace (k : assoc) (t : ty) (n : nat) (c : val) : prog val :=
  foldP (fun acc _ =>
           d <- construct t;; x <- ser t d;; leave_elem k t x (of_opt (emplace E k t acc x)))
    (repeat tt n) c.

(** serializeMapLikeContainer, src/checkpoint/container/map_serialize.h:86-97 *)
Definition ser_assoc (k : assoc) (t : ty) (c : val) : prog val :=
  l <- of_opt (elements c);;
  n <- ser_container_size (TAssoc k t) (len l);;
  if is_unpacking m then deser_emplace k t (N.to_nat n) c
  else ser_container_elems t l;;; Ret c.

(** std::queue, src/checkpoint/container/queue_serialize.h:54-95: packing pops a
    copy of the queue front to back; unpacking pushes at the back.
    Footprint: 107-117, contiguousBytes(nullptr, sizeof(value), size). *)
Definition ser_queue (t : ty) (l : list val) : prog val :=
  if is_footprinting m then
    Count (sizeof E (TQueue t)) (Count (wrap64 (sizeof E t * len l)) (Ret (VSeq l)))
  else
    n <- ser_container_size (TQueue t) (len l);;
    if is_unpacking m then
      l' <- foldP (fun acc _ => d <- construct t;; x <- ser t d;; leave t x (Ret (acc ++ [x])))
              (repeat tt (N.to_nat n)) l;;
      Ret (VSeq l')
    else
      mapP (ser t) l;;; Ret (VSeq l).

(** stack / priority_queue: footprint only, queue_serialize.h:97-117 *)
Definition ser_adaptor (t : ty) (l : list val) : prog val :=
  if is_footprinting m then
    Count (sizeof E (TAdaptor t)) (Count (wrap64 (sizeof E t * len l)) (Ret (VSeq l)))
  else Fail Stuck.

(** serialize(s, pair), src/checkpoint/container/tuple_serialize.h:75-80 *)
Definition ser_pair (a b : ty) (x y : val) : prog val :=
  Count (sizeof E (TPair a b))
    (x' <- ser a x;; y' <- ser b y;; Ret (VSeq [x'; y'])).

(** tuple_helper, src/checkpoint/container/tuple_serialize.h:56-73 *)
Fixpoint ser_tuple (ts : list ty) (l : list val) : prog (list val) :=
  match ts, l with
  | [], [] => Ret []
  | t :: ts', v :: l' =>
    x <- ser t v;; xs <- ser_tuple ts' l';; Ret (x :: xs)
  | _, _ => Fail Stuck
  end.

(** serialize(s, optional) and deserializeOptional,
    src/checkpoint/container/optional_serialize.h:53-91 *)
Definition ser_optional (t : ty) (o : option val) : prog val :=
  if is_footprinting m then
    Count (sizeof E (TOptional t))
      match o with
      | Some _ => Count (sizeof E t) (Ret (VOpt o))
      | None => Ret (VOpt o)
      end
  else if is_unpacking m then
    has <- ser_bool false;;
    if has then
      d <- construct t;;
      x <- ser t d;;
      Note (EvAbandon t x) (Ret (VOpt (Some x)))
    else Ret (VOpt None)
  else
    ser_bool (match o with Some _ => true | None => false end);;;
    match o with
    | Some v => x <- ser t v;; Ret (VOpt (Some x))
    | None => Ret (VOpt None)
    end.

(** SerializeEntry<Args...>::serialize(s, v, entry, cur),
    src/checkpoint/container/variant_serialize.h:58-91.  [ts] are the remaining
    alternatives, [cur] the number of the first of them. *)
Fixpoint ser_entry (ts : list ty) (v : val) (entry : N) (cur : nat) : prog val :=
  match ts with
  | [] => Ret v
  | t :: ts' =>
    if entry =? N.of_nat cur then
      if is_unpacking m then
        d <- construct t;; x <- ser t d;; leave t x (Ret (VVar cur x))
      else
        match v with
        | VVar i x =>
          if Nat.eqb i cur then x' <- ser t x;; Ret (VVar i x') else Fail Stuck
        | _ => Fail Stuck
        end
    else ser_entry ts' v entry (S cur)
  end.

(** v.index(); variant_npos = size_t(-1) for a valueless variant
    (variant_serialize.h:120). *)
Definition variant_index (v : val) : option N :=
  match v with
  | VVar i _ => Some (N.of_nat i)
  | VVarNone => Some (two64 - 1)
  | _ => None
  end.

(** serialize(s, variant), src/checkpoint/container/variant_serialize.h:118-123 *)
Definition ser_variant (ts : list ty) (v : val) : prog val :=
  i <- of_opt (variant_index v);;
  entry <- ser_size i;;
  ser_entry ts v entry 0.

(** _checkpointDynamicTypeIndex of the object, src/checkpoint/dispatch/vrt/
    derived.h:82-86, base.h:71-75: the static member Type<T>::idx
    (object_registry.h:86-89, 118-119), which is zero until its initialiser has run. *)
Definition dyn_type_idx (v : val) : prog N :=
  match v with
  | VObj d _ =>
    match obj_idx E d, cls E d with
    | Some i, _ => Ret (N.of_nat i)
    | None, Some _ => Ret 0
    | None, None => Fail Stuck
    end
  | _ => Fail Stuck
  end.

(** SerializeVirtualTypeIfNeeded::apply for virtual types,
    src/checkpoint/dispatch/vrt/virtual_serialize.h:100-129.  no_type_idx = -1
    (registry_common.h:53). *)
Definition ser_virtual_type (target : option val) : prog N :=
  entry <- (if is_unpacking m then Ret (2 ^ 32 - 1)
            else match target with
                 | Some v => dyn_type_idx v
                 | None => Fail UB
                 end);;
  entry' <- (if is_footprinting m then Ret entry else ser_int entry);;
  match target with
  | Some v =>
    i <- dyn_type_idx v;;
    if (entry' =? i) || negb (asserts E) then Ret entry' else Fail AssertErr
  | None => Ret entry'
  end.

(** objregistry::allocateConcreteType / constructConcreteType and the
    static_cast, src/checkpoint/dispatch/vrt/virtual_serialize.h:171-188,
    object_registry.h:132-140: vector::at throws out_of_range for an unknown
    index; constructAllowFail asserts if the class cannot be constructed, and
    returns nullptr if assertions are compiled out (reconstructor.h:147-175), which
    the caller dereferences (unique_ptr_serialize.h:68-72). *)
Definition construct_concrete (c : nat) (entry : N) : prog val :=
  match nth_error (oreg E (root E c)) (N.to_nat entry) with
  | None => Fail RangeErr
  | Some d =>
    Note (EvConstruct (TClass d))
      match recon E (TClass d) with
      | None => if asserts E then Fail AssertErr else Fail UB
      | Some o =>
        if existsb (Nat.eqb c) (chain E d) then Ret o else Fail UB
      end
  end.

(** reconstructPointedToObjectIfNeeded, src/checkpoint/dispatch/vrt/
    virtual_serialize.h:217-230 (with 83-98 and 140-188) *)
Definition reconstruct_pointed (t : ty) (target : option val) : prog (option val) :=
  match t with
  | TClass c =>
    if is_virtual E t then
      entry <- ser_virtual_type target;;
      match target with
      | Some v => Ret (Some v)
      | None =>
        if is_unpacking m then o <- construct_concrete c entry;; Ret (Some o)
        else Ret None
      end
    else
      match target with
      | Some v => Ret (Some v)
      | None => if is_unpacking m then o <- construct t;; Ret (Some o) else Ret None
      end
  | _ =>
    match target with
    | Some v => Ret (Some v)
    | None => if is_unpacking m then o <- construct t;; Ret (Some o) else Ret None
    end
  end.

(** serialize(s, unique_ptr), src/checkpoint/container/unique_ptr_serialize.h:
    53-80 *)
Definition ser_unique (t : ty) (p : option val) : prog val :=
  let is_null := match p with None => true | Some _ => false end in
  is_null' <- (if is_footprinting m
               then Count (sizeof E (TUnique t)) (Ret is_null)
               else ser_bool is_null);;
  if (is_null' : bool) then
    Ret (VOpt (if is_unpacking m then None else p))
  else
    target <- reconstruct_pointed t p;;
    match target with
    | None => Fail UB
    | Some v => x <- ser t v;; Ret (VOpt (Some x))
    end.

(** shared_ptr_serialize.h:51-68 and raw_ptr_serialize.h:60-80: footprint only *)
Definition ser_followed (ct t : ty) (p : option val) : prog val :=
  if is_footprinting m then
    Count (sizeof E ct)
      match p with
      | None => Ret (VOpt None)
      | Some v => x <- ser t v;; Ret (VOpt (Some x))
      end
  else Fail Stuck.

(** serializeEnum, src/checkpoint/container/enum_serialize.h:54-63, and
    serialize(s, duration), src/checkpoint/container/chrono_serialize.h:53-58:
    convert to the underlying value, serialize it, convert back. *)
Definition ser_underlying (uid usz : nat) (b : bytes) : prog val :=
  ser (TPrim uid usz) (VB b).

(** A user-defined serialize function: [s | member] for the listed members
    (called by dispatch_serializer_nonbyte.h:61-67, 121-127). *)
Definition ser_members (ts : list ty) (is_ : list nat) (fs : list val) : prog (list val) :=
  foldP (fun fs i =>
           match nth_error ts i, nth_error fs i with
           | Some t, Some v => x <- ser t v;; Ret (upd fs i x)
           | _, _ => Fail Stuck
           end) is_ fs.

(** applyStatic for one object of static class [c]: Dispatcher::serializeIntrusive
    / serializeNonIntrusive, src/checkpoint/dispatch/dispatch_serializer_nonbyte.h:
    174-201. *)
Definition apply_static (c : nat) (v : val) : prog val :=
  match v, cls E c with
  | VObj d ls, Some k =>
    match nth_error ls (level E c) with
    | Some fs =>
      Note (EvSerialize c)
        (fs' <- ser_members (cfields k) (cser k m) fs;;
         Note (EvReturn c) (Ret (VObj d (upd ls (level E c) fs'))))
    | None => Fail Stuck
    end
  | _, _ => Fail Stuck
  end.

(** virtualSerialize and the generated _checkpointDynamicSerialize functions,
    src/checkpoint/dispatch/vrt/virtual_serialize.h:60-66, derived.h:53-81,
    base.h:55-70: PARENT first, then the dispatcher of this class, which sets the
    flag and does [ser | obj] (serializer_registry.h:116-122).
    Simplification: the registry lookups are resolved (see Registry.v for the
    registries), and the recursion over PARENT is a loop over the chain.  An
    object reached through a polymorphic reference has a polymorphic class. *)
Definition dyn_serialize (v : val) : prog val :=
  match v with
  | VObj d _ =>
    if is_virtual E (TClass d)
    then foldP (fun v c => Note (EvRegistry c) (SetV true (ser (TClass c) v))) (chain E d) v
    else Fail Stuck
  | _ => Fail Stuck
  end.

(** applyStatic for one object of a non-class type: the overload of
    [serialize(s, x)] for that type (dispatch_serializer_nonbyte.h:174-201). *)
Definition apply_elem (t : ty) (v : val) : prog val :=
  match t, v with
  | TEnum _ uid usz, VB b | TChrono _ uid usz, VB b => ser_underlying uid usz b
  | TString, VStr cap b => ser_string cap b
  | TVector t', VVec cap l => ser_vector t' cap l
  | TVecBool, VVec cap l => ser_vecbool cap l
  | TArray _ t', VSeq l => ser_stdarray t' l
  | TList dq t', VSeq l => ser_list (TList dq t') t' l
  | TQueue t', VSeq l => ser_queue t' l
  | TAssoc k t', _ => ser_assoc k t' v
  | TPair a b, VSeq [x; y] => ser_pair a b x y
  | TTuple ts, VSeq l => l' <- ser_tuple ts l;; Ret (VSeq l')
  | TOptional t', VOpt o => ser_optional t' o
  | TVariant ts, _ => ser_variant ts v
  | TUnique t', VOpt o => ser_unique t' o
  | TClass c, _ => apply_static c v
  | TShared t', VOpt o | TRaw t', VOpt o => ser_followed t t' o
  | TAdaptor t', VSeq l => ser_adaptor t' l
  | TCounted _ sz, _ =>
    if is_footprinting m then Count (N.of_nat sz) (Ret v) else Fail Stuck
  | TOpaque _ sz, _ =>
    if is_footprinting m then Note (EvFirst t) (Count (N.of_nat sz) (Ret v)) else Fail Stuck
  | _, _ => Fail Stuck
  end.

(** SerializerDispatch: byte-copyable arrays in one contiguousBytes call
    (src/checkpoint/dispatch/dispatch_serializer_byte.h:67-80), polymorphic
    objects through virtualSerialize - which ignores [num] -
    (src/checkpoint/dispatch/dispatch_serializer_nonbyte.h:217-227), everything
    else element by element (229-234). *)
Definition ap (t : ty) (vs : list val) : prog (list val) :=
  if bytecopy E t then
    match opt_all (map (obj_bytes E t) vs) with
    | Some bs => Contig (concat bs) (fun b => Ret (unflatten E t vs b))
    | None => Fail Stuck
    end
  else if is_virtual E t then
    GetV (fun disabled =>
      if (disabled : bool) then SetV false (mapP (apply_elem t) vs)
      else match vs with
           | [] => Ret []
           | v :: r => v' <- dyn_serialize v;; Ret (v' :: r)
           end)
  else mapP (apply_elem t) vs.

(** Traverse::with(T& target, TraverserT& t, len),
    src/checkpoint/dispatch/dispatch.impl.h:136-167 *)
Definition traverse (t : ty) (vs : list val) : prog (list val) :=
  if chk E then
    with_type_idx t;;;
    vs' <- catch (tix E t) (ap t vs);;
    with_mem_used t (length vs);;;
    Ret vs'
  else ap t vs.
End Rec.

(** The recursive traversal (dispatch.impl.h:136-167). *)
Fixpoint with_ (fuel : nat) (t : ty) (vs : list val) : prog (list val) :=
  match fuel with
  | O => Fail NoFuel
  | S f => traverse (with_ f) t vs
  end.

(** Traverse::with(T& target, Args&&... args) on a freshly constructed
    traverser, src/checkpoint/dispatch/dispatch.impl.h:169-188 *)
Definition with_root (fuel : nat) (t : ty) (v : val) : prog val :=
  if chk E then ser (with_ fuel) t v
  else
    with_type_idx t;;;
    v' <- ser (with_ fuel) t v;;
    with_mem_used t 1;;;
    Ret v'.
End Functions.
