(** Threads that serialize at the same time.

    Every thread has a serializer of its own; what threads share is
    - the process-wide serializer registry (serializer_registry.h:57-159), which is written
      on every dynamic dispatch (link_derived_to_base_idx.h:51-59, called from
      derived.h:61-64 and base.h:62-65);
    - the table of type names (type_registry.h:80-86): the message of a serialization_error
      is made with operator[] (type_registry.h:126-128, dispatch.impl.h:94-99, 125, 155,
      243), which inserts an index that is not there and counts as a modification for the
      purposes of data races in any case;
    - a flag per type without serialization code (dispatch_serializer_nonbyte.h:161-169).
    The other registries are only read after the static initialization.
    Simplifications: memory is sequentially consistent, every access to an entry, to the
    table and to a flag is one step, the lookups for one throw are one step, and a class
    links its entries right before they are searched (derived.h does so before it calls
    PARENT). *)
From Coq Require Import List NArith Arith Bool.
From Verif Require Import Base Syntax Prog Serializers Traverse Api Registry.
Import ListNotations.

(** What threads share: the serializer registry (serializer_registry.h:84-129) and, for every
    type, whether it has not been counted yet (dispatch_serializer_nonbyte.h:161).  What the
    table of names holds has no effect. *)
Record shared := { regs :> sregs; first : ty -> bool }.
(** link_derived_to_base_idx.h:51-59. *)
Definition set_regs (r : shared) (x : sregs) : shared := {| regs := x; first := first r |}.
(** firstCall = false, dispatch_serializer_nonbyte.h:163. *)
Definition set_counted (r : shared) (t : ty) : shared :=
  {| regs := regs r; first := fun u => if ty_eqb u t then false else first r u |}.

(** A piece of memory that threads share: the entry of a class at a position
    (serializer_registry.h:57-73), the table of names (type_registry.h:80-86), the flag of a
    type (dispatch_serializer_nonbyte.h:161). *)
Inductive place :=
| Entry (c i : nat)
| TypeNames
| First (t : ty).

Section Threads.
(** checkpoint_base_type_t (registry_common.h:58-71) *)
Variable base : nat -> nat.
(** checkpoint_serializer_variadic_args(), serializers_headers.h:55-64 *)
Variable ss : list nat.
(** Assertions are compiled in (common.h:84-103). *)
Variable dbg : bool.

Section Thread.
Variable H : serializer.
Variable A : Type.
(** The type of the serializer of this thread. *)
Variable me : nat.

(** Where a thread is: in the serialization code; linking the entries of class [c] for
    the serializers [todo] (serialize_instantiator.h:64-77, 102-124); searching the entries
    of class [c] at position [k] (serializer_registry.h:131-159); reading the flag of type
    [t] and, if it was found to be set, clearing it (dispatch_serializer_nonbyte.h:161-169);
    making the message of an exception, [n] lookups to go (dispatch.impl.h:94-99, 125,
    152-156, 243); or at its end. *)
Inductive thread :=
| Run (p : prog A) (vf : bool) (s : state H)
| Linking (c : nat) (todo : list nat) (p : prog A) (vf : bool) (s : state H)
| Looking (c : nat) (k : nat) (p : prog A) (vf : bool) (s : state H)
| Checking (t : ty) (p : prog A) (vf : bool) (s : state H)
| Clearing (t : ty) (seen : bool) (p : prog A) (vf : bool) (s : state H)
| Naming (n : nat) (e : fail)
| Done (r : res (A * bool * state H)).

(** The entry that was found is called, serializer_registry.h:113-123. *)
Definition found (f : nat * nat) (c : nat) (p : prog A) (vf : bool) (s : state H) : thread :=
  if Nat.eqb (snd f) me then Run p vf (note H (EvRegistry c) s) else Done (Err UB).

(** An exception is thrown.  A serialization_error names a type where it is thrown and one
    in every frame it is caught in (dispatch.impl.h:94-100, 125-129, 152-157, 243-246). *)
Definition throw (e : fail) : thread :=
  match e with SerErr d _ => Naming (S d) e | _ => Done (Err e) end.

(** One step of a thread: of Prog.interp, of linkDerivedToBase
    (link_derived_to_base_idx.h:51-59), of getObjIdx for a root class and of getBaseIdx for
    a derived one (serializer_registry.h:131-159). *)
Definition step (t : thread) (r : shared) : thread * shared :=
  match t with
  | Run p vf s =>
    match p with
    | Ret a => (Done (Ok (a, vf, s)), r)
    | Contig b k =>
      match contig H b s with
      | Ok (b', s') => (Run (k b') vf s', r)
      | Err e => (throw e, r)
      end
    | Count n k => (Run k vf (count H n s), r)
    | GetV k => (Run (k vf) vf s, r)
    | SetV v k => (Run k v s, r)
    | Note (EvRegistry c) k => (Linking c ss k vf s, r)
    | Note (EvFirst t) k => (Checking t k vf s, r)
    | Note e k => (Run k vf (note H e s), r)
    | Fail e => (throw e, r)
    end
  | Linking c todo p vf s =>
    match todo with
    | [] => (Looking c 0 p vf s, r)
    | x :: todo' => (Linking c todo' p vf s, set_regs r (link r x c (base c)))
    end
  | Looking c k p vf s =>
    match sr_idx r (base c) me with
    | None => (Done (Err Stuck), r)
    | Some j =>
      if Nat.eqb c (base c) then
        match get_obj_idx dbg r c j with
        | Ok f => (found f c p vf s, r)
        | Err e => (Done (Err e), r)
        end
      else
        match nth_error (sr_reg r c) k with
        | Some e =>
          match se_base e with
          | Some i => if Nat.eqb i j then (found (se_fun e) c p vf s, r)
                      else (Looking c (S k) p vf s, r)
          | None => (Looking c (S k) p vf s, r)
          end
        | None => (Done (Err (if dbg then AssertErr else CallErr)), r)
        end
    end
  | Checking t p vf s => (Clearing t (first r t) p vf s, r)
  | Clearing t seen p vf s =>
    (Run p vf (note H (EvFirst t) s), if seen then set_counted r t else r)
  | Naming (S n) e => (Naming n e, r)
  | Naming O e => (Done (Err e), r)
  | Done x => (Done x, r)
  end.

(** What a thread touches in its next step and whether it writes it
    (link_derived_to_base_idx.h:57-58, dispatch_serializer_nonbyte.h:163,
    type_registry.h:126-128) or only reads it (serializer_registry.h:141-145, 150-151,
    dispatch_serializer_nonbyte.h:162). *)
Definition touches (t : thread) (r : shared) : option (place * bool) :=
  match t with
  | Linking c (x :: _) _ _ _ =>
    match sr_idx r c x, sr_idx r (base c) x with
    | Some i, Some _ => Some (Entry c i, true)
    | _, _ => None
    end
  | Looking c k _ _ _ =>
    if Nat.eqb c (base c)
    then match sr_idx r (base c) me with Some j => Some (Entry c j, false) | None => None end
    else if Nat.ltb k (length (sr_reg r c)) then Some (Entry c k, false) else None
  | Checking t _ _ _ => Some (First t, false)
  | Clearing t true _ _ _ => Some (First t, true)
  | Naming (S _) _ => Some (TypeNames, true)
  | _ => None
  end.

(** The events of a run, also of one that fails: the calls of note of Prog.interp
    (the calls of derived.h:53-81 and base.h:55-70). *)
Fixpoint trace (p : prog A) (vf : bool) (s : state H) : list event :=
  match p with
  | Ret _ | Fail _ => []
  | Contig b k => match contig H b s with Ok (b', s') => trace (k b') vf s' | Err _ => [] end
  | Count n k => trace k vf (count H n s)
  | GetV k => trace (k vf) vf s
  | SetV v k => trace k v s
  | Note e k => e :: trace k vf (note H e s)
  end.
End Thread.

(** A task: traversals one after the other, each with a serializer of its own of type
    [me]; what follows depends on the result (checkpoint_api.impl.h:56-149). *)
Inductive task (B : Type) : Type :=
| Final (b : B)
| Pass (H : serializer) (A : Type) (me : nat) (p : prog A) (vf : bool) (s : state H)
    (k : res (A * bool * state H) -> task B).

(** A task that is being run (checkpoint_api.impl.h:56-149). *)
Inductive active (B : Type) : Type :=
| Ended (b : B)
| Active (H : serializer) (A : Type) (me : nat) (t : thread H A)
    (k : res (A * bool * state H) -> task B).

(** The first traversal of a task begins, dispatch.impl.h:169-188. *)
Definition start {B} (x : task B) : active B :=
  match x with
  | Final _ b => Ended B b
  | Pass _ H A me p vf s k => Active B H A me (Run H A p vf s) k
  end.

(** One step of a task: of its traversal, or on to the next one
    (dispatch.impl.h:136-188). *)
Definition astep {B} (a : active B) (r : shared) : active B * shared :=
  match a with
  | Ended _ b => (Ended B b, r)
  | Active _ H A me t k =>
    match t with
    | Done _ _ x => (start (k x), r)
    | _ => let '(t', r') := step H A me t r in (Active B H A me t' k, r')
    end
  end.
(** What the next step touches (link_derived_to_base_idx.h:51-59, type_registry.h:126-128,
    dispatch_serializer_nonbyte.h:161-169). *)
Definition atouches {B} (a : active B) (r : shared) : option (place * bool) :=
  match a with
  | Ended _ _ => None
  | Active _ H A me t _ => touches H A me t r
  end.

(** Any number of tasks under a schedule, which says which one takes the next step
    (threads that call checkpoint_api.impl.h:56-149). *)
Fixpoint update {X} (l : list X) (i : nat) (x : X) : list X :=
  match l, i with
  | [], _ => []
  | _ :: l', O => x :: l'
  | y :: l', S i' => y :: update l' i' x
  end.
(** The tasks under a schedule (threads that call checkpoint_api.impl.h:56-149). *)
Fixpoint run {B} (sched : list nat) (l : list (active B)) (r : shared) : list (active B) * shared :=
  match sched with
  | [] => (l, r)
  | i :: rest =>
    match nth_error l i with
    | Some a => let '(a', r') := astep a r in run rest (update l i a') r'
    | None => run rest l r
    end
  end.

(** The result of a task that is run alone, traversal by traversal (Prog.interp), and
    the classes it dispatches dynamically, with the serializer it does so for
    (checkpoint_api.impl.h:56-149). *)
Fixpoint result {B} (x : task B) : B :=
  match x with
  | Final _ b => b
  | Pass _ H A me p vf s k => result (k (interp H p vf s))
  end.
(** The registry entries used by the dynamic dispatches of a trace (link_derived_to_base_idx.h:51-59). *)
Definition dispatches (me : nat) (l : list event) : list (nat * nat) :=
  flat_map (fun e => match e with EvRegistry c => [(c, me)] | _ => [] end) l.
(** Those used by a task (checkpoint_api.impl.h:56-149). *)
Fixpoint uses {B} (x : task B) : list (nat * nat) :=
  match x with
  | Final _ b => []
  | Pass _ H A me p vf s k => dispatches me (trace H A p vf s) ++ uses (k (interp H p vf s))
  end.
(** The events of all its traversals (checkpoint_api.impl.h:56-149). *)
Fixpoint events {B} (x : task B) : list event :=
  match x with
  | Final _ b => []
  | Pass _ H A me p vf s k => trace H A p vf s ++ events (k (interp H p vf s))
  end.
End Threads.
Arguments Run {H A}. Arguments Linking {H A}. Arguments Looking {H A}. Arguments Done {H A}.
Arguments Checking {H A}. Arguments Clearing {H A}. Arguments Naming {H A}. Arguments throw {H A}.
Arguments Final {B}. Arguments Pass {B}. Arguments Ended {B}. Arguments Active {B}.

(** Two threads are about to touch the same piece of memory, one of them writing: undefined
    behaviour in C++ (a data race)
    (link_derived_to_base_idx.h:57-58 against serializer_registry.h:141-159,
    type_registry.h:126-128, dispatch_serializer_nonbyte.h:162-163). *)
Definition conflict (a b : option (place * bool)) : Prop :=
  match a, b with
  | Some (x, w), Some (y, w') => x = y /\ (w = true \/ w' = true)
  | _, _ => False
  end.

(** ** The entry points *)

(** checkpoint_serializer_variadic_args(), serializers_headers.h:55-64 *)
Definition FOOTPRINTER : nat := 0.
(** serializers_headers.h:57. *)
Definition PACKER : nat := 1.
(** serializers_headers.h:58. *)
Definition PACKER_USER : nat := 2.
(** serializers_headers.h:59. *)
Definition PACKER_IO : nat := 3.
(** serializers_headers.h:60. *)
Definition UNPACKER : nat := 4.
(** serializers_headers.h:61. *)
Definition UNPACKER_IO : nat := 5.
(** serializers_headers.h:62. *)
Definition SIZER : nat := 6.
(** serializers_headers.h:63. *)
Definition STREAM_PACKER : nat := 7.
(** serializers_headers.h:64. *)
Definition STREAM_UNPACKER : nat := 8.
(** serializers_headers.h:55-64. *)
Definition all_serializers : list nat := [0; 1; 2; 3; 4; 5; 6; 7; 8]%nat.

(** The calls of Api.v (checkpoint_api.impl.h:56-149, without the file ones). *)
Inductive call :=
| CSize (f : nat) (t : ty) (v : val)
| CFootprint (f : nat) (t : ty) (v : val) (offset : N)
| CSerialize (f : nat) (t : ty) (v : val) (fn : option (N -> option region))
| CDeserialize (f : nat) (t : ty) (mem : bytes) (off : nat)
| CInPlace (f : nat) (t : ty) (mem : bytes) (off : nat) (target : val)
| CToStream (f : nat) (t : ty) (v : val) (o : ostream)
| CFromStream (f : nat) (t : ty) (i : istream)
| CInPlaceFromStream (f : nat) (t : ty) (i : istream) (target : val).

(** What a call gives (checkpoint_api.impl.h:56-149). *)
Inductive answer :=
| ASize (r : res (val * N))
| ASerialized (r : res serialized)
| AObject (r : res (val * N))
| AOut (r : res (val * ostream))
| AIn (r : res (val * istream)).

Section Calls.
Variable E : env.

(** The result of a call on its own: checkpoint_api.impl.h:56-149, through Api.v *)
Definition answer_of (c : call) : answer :=
  match c with
  | CSize f t v => ASize (get_size E f t v)
  | CFootprint f t v o => ASize (get_footprint E f t v o)
  | CSerialize f t v fn => ASerialized (serialize E f t v fn)
  | CDeserialize f t mem off => AObject (deserialize E f t mem off)
  | CInPlace f t mem off x => AObject (deserialize_in_place E f t mem off x)
  | CToStream f t v o => AOut (serialize_to_stream E f t v o)
  | CFromStream f t i => AIn (deserialize_from_stream E f t i)
  | CInPlaceFromStream f t i x => AIn (deserialize_in_place_from_stream E f t i x)
  end.

(** Standard::size, dispatch.impl.h:195-199 *)
Definition size_task (f : nat) (t : ty) (v : val) (k : res (val * N) -> task answer) : task answer :=
  Pass sizer val SIZER (with_root E MSizing f t v) false 0%N
    (fun x => k (match x with Ok (v', _, n) => Ok (v', n) | Err e => Err e end)).
(** Standard::pack into memory and validatePackerBufferSize, dispatch.impl.h:208-211,
    236-248 *)
Definition pack_task (f : nat) (t : ty) (v : val) (size : N) (managed : bool) (calls : list N)
  (r : region) : task answer :=
  Pass packer val (if managed then PACKER else PACKER_USER) (with_root E MPacking f t v) false
    {| p_buf := r_before r ++ r_buf r ++ r_after r; p_cur := length (r_before r); p_used := 0 |}
    (fun x =>
       match x with
       | Err e => Final (ASerialized (Err e))
       | Ok (v', _, s) =>
         if (p_used s =? size)%N
         then Final (ASerialized
                (Ok {| s_managed := managed; s_size := size;
                       s_bytes := firstn (N.to_nat size) (skipn (length (r_before r)) (p_buf s));
                       s_mem := p_buf s; s_calls := calls; s_obj := v' |}))
         else (* the exception names the type too *)
           Pass packer val PACKER (Fail (SerErr 0 [Sized (tix E t) size (p_used s)])) false s
             (fun _ => Final (ASerialized (Err (SerErr 0 [Sized (tix E t) size (p_used s)]))))
       end).
(** packBuffer and serializeType, dispatch.impl.h:250-273 *)
Definition serialize_task (f : nat) (t : ty) (v : val) (fn : option (N -> option region))
  : task answer :=
  size_task f t v (fun x =>
    match x with
    | Err e => Final (ASerialized (Err e))
    | Ok (v1, size) =>
      let '(user_buf, calls) :=
        match fn with
        | None => (None, [])
        | Some g => (g size, [size])
        end in
      match user_buf with
      | None =>
        pack_task f t v1 size true calls
          {| r_before := []; r_buf := repeat Byte.x00 (N.to_nat size); r_after := [] |}
      | Some r => pack_task f t v1 size false calls r
      end
    end).
(** Standard::unpack from memory, dispatch.impl.h:218-222 *)
Definition unpack_task (f : nat) (t : ty) (mem : bytes) (off : nat) (target : val) : task answer :=
  Pass unpacker val UNPACKER (with_root E MUnpacking f t target) false
    {| u_buf := mem; u_cur := off; u_used := 0 |}
    (fun x => Final (AObject
       match x with
       | Ok (v, _, s) => Ok (v, N.of_nat (u_cur s - off))
       | Err e => Err e
       end)).
(** deserializeInPlaceFromStream, checkpoint_api.impl.h:144-149 *)
Definition from_stream_task (f : nat) (t : ty) (i : istream) (target : val) : task answer :=
  Pass stream_unpacker val STREAM_UNPACKER (with_root E MUnpacking f t target) false i
    (fun x => Final (AIn match x with Ok (v, _, i') => Ok (v, i') | Err e => Err e end)).

(** A call as a task, checkpoint_api.impl.h:56-149 *)
Definition call_task (c : call) : task answer :=
  match c with
  | CSize f t v => size_task f t v (fun x => Final (ASize x))
  | CFootprint f t v o =>
    Pass footprinter val FOOTPRINTER (with_root E MFootprinting f t v) false 0%N
      (fun x => Final (ASize
         match x with
         | Ok (v', _, n) => Ok (v', wrap64 (o + N.max n (sizeof E t)))
         | Err e => Err e
         end))
  | CSerialize f t v fn => serialize_task f t v fn
  | CDeserialize f t mem off =>
    match recon E t with
    | Some o => unpack_task f t mem off o
    | None => Final (AObject (Err Stuck))
    end
  | CInPlace f t mem off x => unpack_task f t mem off x
  | CToStream f t v o =>
    size_task f t v (fun x =>
      match x with
      | Err e => Final (AOut (Err e))
      | Ok (v1, _) =>
        Pass stream_packer val STREAM_PACKER (with_root E MPacking f t v1) false o
          (fun y => Final (AOut match y with Ok (v2, _, o') => Ok (v2, o') | Err e => Err e end))
      end)
  | CFromStream f t i =>
    match recon E t with
    | Some o => from_stream_task f t i o
    | None => Final (AIn (Err Stuck))
    end
  | CInPlaceFromStream f t i x => from_stream_task f t i x
  end.
End Calls.
