# Formal model of magistrate (checkpoint) in Coq

## 1. What is modelled

magistrate has one templated traversal (`serialize(s, obj)`, `s | obj`) that is
instantiated with different serializers (Sizer, Packer, Unpacker, stream and
footprint variants).  The model mirrors this: serialization code is a program over a
small set of serializer operations, written once per C++ function and parameterised by
the mode, and a serializer is an interpreter of such programs.  Every definition of the
model cites the lines of the source it stands for and says what it simplifies.

Model files (definitions only):

| file | models |
|------|--------|
| `Base.v` | bytes, little-endian words, 64-bit wrap, outcomes |
| `Syntax.v` | the universe of C++ types, their values, the class table (`env`) |
| `Prog.v` | what serialization code may do to a serializer (`contiguousBytes`, `countBytes`, reading and setting the virtual-dispatch flag, events, failing), as a free monad, and its interpretation |
| `Serializers.v` | Sizer, PackerBuffer, UnpackerBuffer, StreamPacker, StreamUnpacker, Footprinter |
| `Traverse.v` | `dispatch/*` and the standard library types of `container/*`, function by function |
| `Api.v` | the entry points of `checkpoint_api.impl.h` and `dispatch.impl.h` for memory and `std::ostream`/`std::istream`, buffers, allocation events |
| `Registry.v` | type registry, object registry, serializer registry, linking, dynamic dispatch through them |
| `Declare.v` | hierarchies in which some class is not declared, or names another class than its base |
| `IO.v` | `IOBuffer` and the file entry points as sequences of system calls with a fault oracle, crash states |
| `Construct.v` | the reconstruction mechanisms and their precedence |
| `Select.v` | the overloads and traits that choose the serialization mechanism |
| `Views.v` | Kokkos View, DynRankView, DynamicView, UnorderedMap, layouts, ViewEquality |
| `Device.v` | views in memory that the host cannot access, through a host mirror |
| `Pointers.v` | the documented patterns for raw and shared pointers |
| `User.v` | serialize functions of users that branch, loop, use local variables and change the object |
| `Crs.v` | extents-only and contents-only serialization of views, StaticCrsGraph, CrsMatrix, footprints of maps |
| `Conc.v` | interleaved calls that share the serializer registry |
| `Torn.v` | reading over an object once more, with the state in which an exception leaves the object |
| `Streams.v` | streams of another static type than `std::ostream`/`std::istream` |
| `StreamState.v` | streams with their fail state, also after an exception, and with an exceptions mask |
| `Custom.v` | traversals by serializers of the user's own, in mode None |
| `Dispatchers.v` | serializers with a dispatcher of their own, in the modes None, Packing and Sizing |
| `Ndim.v` | views in builds with the recursive traversal (`CHECKPOINT_KOKKOS_NDIM_TRAVERSE`) |
| `Startup.v` | the registries while static initialisers are still running |

Specification files, independent of the traversal:

| file | contents |
|------|----------|
| `Spec.v` | typing of values, well-formed class tables, observable equality `sim`, `copy_of`, wire format `enc`, in-place targets |
| `Robust.v` | objects of a type whatever their contents, what reading arbitrary bytes may lead to |
| `TornSpec.v` | objects that have been read in part, containers whose elements are read elsewhere |
| `Cells.v` | the bytes and objects that a serializer with a dispatcher of its own is handed |
| `Members.v`, `MembersSpec.v` | classes, vectors, optionals and pointers with Kokkos objects inside; when such an object is a copy of another |
| `ObjectIO.v` | the calls of the API for streams and files, for the traversals of Views.v and Members.v |
| `Message.v`, `KMessage.v` | what the message of a serialization_error has to say |
| head of `Grow.v`, `GrowMembers.v` | one program has all types and classes of another |
| `Layout.v` | positions inside an encoding (`path`), damaged frames, class versions |
| `ViewSpec.v`, `CrsSpec.v`, `PointersSpec.v`, `UserSpec.v`, head of `KMap.v` and `DynViews.v` | views, index order, graphs, pointers, serialize functions, maps |
| head of `Foot.v`, `DynFoot.v`, `Tidy.v`, `Stable.v`, `KStable.v`, `Asserts.v` | owned storage, types without lost storage, stable values and objects, a build without assertions |

Proof files: `ProgFacts EnvFacts Closure Fails ValFacts Pack Unpack ApiFacts ApiInv
LayoutFacts RegistryFacts ReadOnly IOFacts Trunc Stable Foot Tidy ViewFacts ViewRound
ViewEq KMap DynViews CrsFacts CrsFoot DynFoot DeviceFacts PointersFacts UserFacts SelectFacts
ConcFacts Land LandFacts SettleFacts RobustFacts TornFacts
TornCut Asserts AssertViews AssertMembers Media Grow GrowMembers
Damage DamageDyn DamageMembers MessageFacts KMessageFacts MembersFacts ObjectFacts FootCopy MembersFoot DispatchFacts ViewFoot KStable KRefoot MapAgain Inflate Patch Parts`.  `Examples.v` holds a class table with fourteen classes
and the values used as concrete cases; `Conform.v` computes in the model what the unit
tests of the source expect (tests of the model, not proofs).  Theorems, each with a concrete case beside it:
`PropMemory PropFile PropRelease PropReadOnly PropTypes PropLaws PropVirtual PropFoot PropConstruct
PropTidy PropViews PropCrs PropDevice PropPointers PropUser PropSelect PropConc PropStream
PropSettle PropFull PropRobust PropTorn PropAsserts PropMedia
PropGrow PropExchange PropStartup PropMessage PropKMessage PropMembers PropObjects PropBuilds PropRefoot PropKFoot
PropDeclare PropCustom PropDispatch PropNdim PropDamage PropDamageDyn PropDamageMembers
PropMerge PropLeftover PropOnto PropStreamState PropKStable PropKRefoot PropMapAgain PropInflate PropPatch PropParts PropKParts PropKPatch PropKElems`.

Types are a first-order universe (`ty`) with user classes referenced by number into a
class table, so recursive and polymorphic classes are covered.  The traversal recurses on
fuel; running out of fuel is a separate outcome, and theorems hold for all fuel above the
depth of the value, which excludes it.

Outcomes are explicit: normal, `serialization_error` with a depth, other exceptions,
failed assertion, process termination, undefined behaviour, ill-typed ("stuck"), out of
fuel.  The packer and the memory unpacker do no bounds checking in the source, so an
access outside the buffer is undefined behaviour in the model.

## 2. Trusted base

* The kernel of Coq 8.16.1.
* `Print Assumptions` follows every theorem named in the manifest, in the file that
  proves it.  The answer is the same for all of them: **Closed under the global context**.
  No axiom, of the standard library or otherwise, is used.  (`coqchk` lists the seven
  parameters of `Coq.ssr.ssrunder.Under_rel`, which is loaded with ssreflect by a library
  and used by no theorem here.)
* The reading of the C++ source given by the comments on the definitions.
* Facts about the program, stated as hypotheses of theorems and never as axioms:
  * `wf_env`: the class table is well formed; the `serialize` function of a class visits
    its members once and in the same order in all modes; comparison, hash and equality
    functions respect observable equality; constructors build objects that are valid
    targets.
  * `has_ty`: the value has the type, and the classes it contains are as the compiler
    and the library require them.
  * The fields `asserts` and `chk` of the class table say whether the program was
    compiled with assertions and with type checking; theorems hold for both settings
    unless they name one.
  * The behaviour of Kokkos (`wf_kokkos`, `wf_span`): insertion into a map, capacity
    after rehash at least the requested one, span of a layout.
  * `movec`: whether moving from a value of a type leaves no storage behind.

## 3. What is simplified

* Template and overload resolution: what the compiler detects about a type is an input;
  `Select.v` and `Construct.v` model the overloads that use it.
* Alignment, padding and the addresses of objects.
* The wording of error messages: a message is the list of its lines, each with the numbers and the type
  identifiers it contains. Of other exceptions than serialization_error only the kind is modelled.
* C++ streams: data, room, fail state and the number of bytes read; no formatting.
  The exceptions mask and the state of a stream after an exception are in `StreamState.v`
  only (C73); elsewhere a stream does not throw.
* String capacities are part of observable equality only where the library preserves
  them.
* A moved-from or empty deque owns nothing (libstdc++ keeps a block).
* Move assignment of a variant that already holds the alternative is move construction.
* Raw and shared pointers: no two point to the same object.
* A user `reconstruct` function constructs the object it returns.
* Concurrency: memory is sequentially consistent; the links of a class are written right
  before the lookup; the file entry points are not among the concurrent calls; the table
  of type names is one place, written by every lookup (`operator[]` of an unordered_map),
  and one lookup is made for each frame of a serialization_error (the source makes
  three for a type mismatch).

## 4. What is not modelled

* `std::bad_alloc` from `reserve`, `resize` and node allocation.
* SIGBUS when a sparse mapped file runs out of disk, and changes to a file by others
  while it is mapped.
* variants whose first alternative cannot be default constructed: such a variant has no
  default value in the model, so it is only restored in place.
* Serializers with a `contiguousTyped` function of their own; serializers of the user's own in
  the modes Unpacking and Footprinting; dispatchers that change objects or use the serializer.
* Kokkos: access of the host to memory it cannot access as a fault (`Device.v` shows that
  the code goes through the mirror; DynamicView and UnorderedMap are in host memory),
  operations of other threads on the elements of atomic views.

## 5. Properties: method, theorems, status

"Traversal induction" is induction on the fuel of the open-recursive traversal, with
inversion of the typing judgement `has_ty`.

### C01 Memory round trip (proved)

* Method: the packing traversal emits the wire format `enc t v` (Pack.v) and the unpacking traversal reads `enc t v` into an observably equal value (Unpack.v), both by traversal induction; composed in ApiFacts.v
* Theorems: `C01_memory_round_trip`
* Types and values of the specification relation has_ty; arrays of several polymorphic objects, byte-copyable polymorphic classes and valueless variants are outside it and are treated in C25, C26 and C19.

### C02 Reported size is exact (proved)

* Method: the sizer counts the length of `enc`, the packer uses exactly that many bytes
* Theorems: `C02_size_exact`

### C03 Serialization stays inside its buffer (proved)

* Method: packer over a memory with arbitrary surrounding bytes; invariant on the write position
* Theorems: `C03_stays_in_buffer`

### C04 Deserialization consumes exactly what was written (proved)

* Method: the read lemma holds for any bytes after the object and any bytes before it
* Theorems: `C04_exact_consumption`

### C05 Object sequences on one stream (partial)

* Method: induction on the list of objects with the read lemma; for other streams, interpretation of the program with failing dispatches (Streams.v)
* Theorems: `C05_stream_sequences`, `C05_any_stream_partial`, `C05_other_streams`, `C05_refuted`
* C05_stream_sequences proves it for std::ostream and std::istream. False for streams of another static type (std::ofstream, std::stringstream): the serializers for these are not linked in the virtual registries, so objects of classes derived from a polymorphic class fail an assertion (C05_refuted); C05_any_stream_partial covers programs without polymorphic hierarchies and C05_other_streams says exactly which calls fail. unlinked_dispatch derives the behaviour from the registries.

### C06 Truncated stream is reported (proved)

* Method: a program that consumes x and is given a strict prefix of x runs short (Trunc.v); the stream serializer throws
* Theorems: `C06_truncated_stream`

### C07 The encoding does not depend on the medium (proved)

* Method: all packers emit `enc`; all unpackers read it
* Theorems: `C07_medium_independent`
* Streams are std::ostream and std::istream; on streams of another static type a call that does not fail does the same, see C05_other_streams.

### C08 File round trip and replacement (proved)

* Method: file model without faults, composed with C01
* Theorems: `C08_file_round_trip`

### C09 File-system failures are never silent (partial)

* Method: file model with a fault oracle, case analysis over every system call
* Theorems: `C09_read_failures`, `C09_write_failures_partial`, `C09_fallocate_refuted`
* False as stated: fallocate failures other than ENOSPC are ignored by the source; every other failure is shown to be reported.

### C10 Serializing is read-only and repeatable (proved)

* Method: the traversal in sizing, packing and footprinting mode returns the value it was given (ReadOnly.v, by the closure principle)
* Theorems: `C10_read_only`, `C10_repeatable`

### C11 Wrong root type is detected (proved)

* Method: the first word read differs from the expected one; uniqueness from C14
* Theorems: `C11_memory`, `C11_stream`
* Holds for up to 65536 registered types; C14_limit shows that the bound is sharp.

### C12 Nested type mismatches are detected under error checking (proved)

* Method: readers and writers agree up to the position given by the relation `path`, then the type word differs
* Theorems: `C12_mismatch`
* Positions are given by the relation path of Layout.v; the conclusion includes the message of the error.

### C13 Error depth equals nesting depth (proved)

* Method: induction over the position; the depth counts the enclosing objects
* Theorems: `C13_depth`
* Positions and damaged frames are given by the relations path and damaged of Layout.v; the conclusion includes the message of the error.

### C14 Type identifiers are unique and recognisable (proved)

* Method: invariant over registration lists of any order and length
* Theorems: `C14_unique`, `C14_marker`, `C14_limit`

### C15 Sizing/packing disagreement is reported (partial)

* Method: packer lemma for arbitrary programs
* Theorems: `C15_no_buffer_partial`, `C15_less_partial`, `C15_more_overflows`, `C15_refuted`
* False as stated: a function that packs more than it sized writes past the buffer before the size is compared. Proved: no buffer is ever returned, and packing less throws.

### C16 Sequence containers keep length, order and capacity (proved)

* Method: corollaries of the write and read lemmas, stated on element lists
* Theorems: `C16_vector`, `C16_vector_bool`, `C16_sequence`

### C17 Associative containers keep their contents (proved)

* Method: corollaries of the read lemma; ordered: equal sequences, unordered: permutations
* Theorems: `C17_ordered`, `C17_unordered`

### C18 Nullness survives (proved)

* Method: corollaries of the read lemma
* Theorems: `C18_optional`, `C18_unique_ptr`

### C19 Variants keep their alternative (partial)

* Method: corollary of the read lemma; witness for the valueless case
* Theorems: `C19_variant_partial`, `C19_valueless_refuted`
* False for valueless variants; proved for every variant holding an alternative.

### C20 In-place deserialization replaces the target (partial)

* Method: the read lemma holds for any target in the relation `target`; laws for the targets outside it; `land` applied to its own result
* Theorems: `C20_in_place_partial`, `C20_queue_appends`, `C20_move_only_list_appends`, `C20_associative_merges`, `C20_associative_keeps`, `C20_twice`, `C20_refuted`
* False for queues, maps, sets and move-only containers that are not empty: the laws say what they hold afterwards. Proved for every other target; restoring twice into one of those is the same as restoring once, capacities included.

### C21 Polymorphic pointers restore the dynamic class (proved)

* Method: read lemma for owning pointers over class chains
* Theorems: `C21_polymorphic_pointer`, `C52_pointers_partial`
* C52_pointers_partial is the part about raw pointers.

### C22 Each class on the chain is serialized exactly once, base first (proved)

* Method: induction over the class chain, and over the registry model
* Theorems: `C22_chain_once`, `C22_registries`
* C22_registries shows the same for the dispatch through the object and serializer registries.

### C23 Virtual registries resolve correctly in any registration order (proved)

* Method: invariant over registration lists
* Theorems: `C23_objects`, `C23_serializers`

### C24 Dynamic class mismatch in place is caught (partial)

* Method: case analysis of the dynamic class index read
* Theorems: `C24_pointer_partial`, `C24_reference_refuted`, `C24_release_refuted`
* Proved for the pointee of an owning pointer in programs compiled with assertions; false for an object behind a base reference, where the library compares nothing, and with NDEBUG, where the mismatch is only printed.

### C25 Arrays of polymorphic objects round trip (partial)

* Method: the virtual flag after the first element is computed by the model; law and witness
* Theorems: `C25_short_arrays_partial`, `C25_only_first`, `C25_array_only_first`, `C25_refuted`
* False as stated: C25_only_first shows that exactly the first element survives.

### C26 Virtual dispatch state does not leak between objects (partial)

* Method: closure principle with the flag invariant `honest`
* Theorems: `C26_no_leak_partial`, `C26_refuted`
* False for polymorphic classes declared byte-copyable; proved for all others.

### C27 Memory footprint lower bounds (proved)

* Method: traversal induction in footprint mode against the relation `takes`
* Theorems: `C27_footprint`, `C27_offset`, `C27_total`, `C27_vector`, `C27_string`
* The owned storage is the specification relation takes of Foot.v.

### C28 Construction precedence and single construction (partial)

* Method: case analysis over all combinations of mechanisms
* Theorems: `C28_precedence`, `C28_object`, `C28_allow_fail_partial`, `C28_pointer`, `C28_release_refuted`
* False only for programs compiled with NDEBUG, where a class that cannot be constructed yields a null pointer; proved for all combinations of mechanisms otherwise. A type with two reconstruct functions is rejected by the compiler.

### C29 Caller-supplied buffer protocol (proved)

* Method: entry point model with the callback log
* Theorems: `C29_user_buffer`

### C30 Ownership on the error path (partial)

* Method: entry point model with allocation and release events
* Theorems: `C30_buffer_partial`, `C30_success`, `C30_user_memory_refuted`, `C30_stream_refuted`, `C30_file_refuted`
* False as stated; the refutations exhibit the leaks and the free of caller memory, the partial theorem covers library-allocated memory read from a buffer.

### C31 Crash while writing a checkpoint (partial)

* Method: disk states reachable from any subset of persisted pages
* Theorems: `C31_crash_one_page_partial`, `C31_process_stop_partial`, `C31_crash_refuted`
* False for files of several pages; proved for files of one page and for process stops.

### C32 Data is durable when serializeToFile returns (proved)

* Method: file model: normal return implies the msync of all bytes
* Theorems: `C32_durable_on_return`

### C33 Truncated file or buffer is reported (partial)

* Method: read lemma for files of sufficient length; witnesses otherwise
* Theorems: `C33_file_partial`, `C33_memory_refuted`, `C33_file_accepted_refuted`, `C33_file_ub_refuted`
* False as stated: memory and mapped reads have no bounds check.

### C34 Distinct objects have distinct encodings (proved)

* Method: reading back the common prefix with the read lemma
* Theorems: `C34_injective`, `C34_prefix_free`

### C35 Re-serialization is stable (partial)

* Method: the read value has the same layout-relevant capacities; induction on the number of rounds; in general the result of a read is a function of both objects (`land`) that is idempotent
* Theorems: `C35_stable_partial`, `C35_settles`, `C35_refuted`
* Proved for values without hash containers and classes whose default construction owns no spare capacity; false otherwise, with a witness. Whatever the constructors reserve, only the first restart can change the bytes: every later one reproduces the same object, capacities included.

### C36 Size arithmetic (proved)

* Method: length of `enc` as a sum of parts, sizer wrap explicit
* Theorems: `C36_sum_of_parts`

### C37 Independent serializations do not interfere (partial)

* Method: interleaving model with any number of threads, induction over the schedule
* Theorems: `C37_partial`, `C37_sequential_partial`, `C37_races`, `C37_refuted`
* False as stated: every dynamic dispatch writes entries of the process-wide serializer registry without synchronisation, making the message of a serialization_error looks type names up with operator[] of a process-wide table, and counting a type without serialization code writes a static flag the first time. C37_races characterises exactly when two calls race: a polymorphic class in common, both throw a serialization_error, or a type without serialization code in common that has not been counted yet. Proved for any number of calls with none of these in common, under every schedule; C37_sequential_partial covers the rest if the accesses are atomic. Memory is sequentially consistent in the model; the file entry points are not among the calls.

### C38 Member count mismatches are detected under error checking (proved)

* Method: the surplus or missing member makes the following size or type word differ
* Theorems: `C38_members`, `C38_anywhere`
* C38_anywhere is the statement for an object at any position; the reader visits no member twice and the class is smaller than 2^31 bytes.

### C39 Kokkos View round trip (partial)

* Method: the traversal of a view emits its label, layout and elements; read lemma for views
* Theorems: `C39_partial`, `C39_const_partial`, `C39_const_law`, `C39_const_refuted`
* False for views of constant elements of varying size: the sizer sees default elements and packing runs past the buffer; C39_const_law tells the three outcomes apart. Proved for all other views whose memory the host can access.

### C40 View element traversal is a bijection in row-major order (proved)

* Method: nested loops enumerate the indices in the order `row_major`
* Theorems: `C40_traversal`
* The index order is the specification relation row_major of ViewSpec.v.

### C41 View comparison decides equality (partial)

* Method: law of the recursion for every rank, witnesses
* Theorems: `C41_rank1_partial`, `C41_law`, `C41_static`, `C41_meta`, `C41_refuted`
* False for every rank but 1: the recursion counts the counts of the inner dimension as if they were verdicts. C41_law says what is decided for each rank, C41_meta what holds for every rank. C41_static: the check of compile-time extents looks at the wrong extents for data types such as T**[N][M], T***[N] or T*[N][M][K], so that views of these types are reported to differ from themselves.

### C42 Kokkos UnorderedMap round trip (partial)

* Method: slot-array model of the hash map; invariant over the inserted pairs
* Theorems: `C42_partial`, `C42_leftover`, `C42_in_place`, `C42_refuted`, `C42_in_place_refuted`
* False when a free slot holds the key of an occupied one, which default-constructed keys do: C42_leftover shows that such a map is written but cannot be read again in builds with error checking. Proved otherwise, up to the capacity Kokkos chooses for the requested one. Into a map that holds keys it is false too: C42_in_place says what such a map holds afterwards if there is room, C42_in_place_refuted is a case where elements are dropped without an error because there is none.

### C43 No storage is lost by a successful deserialization (partial)

* Method: events for abandoned temporaries, closure principle over `tidy` types
* Theorems: `C43_memory_partial`, `C43_stream_partial`, `C43_in_place_partial`, `C43_refuted`
* False as stated: C43_refuted exhibits lost copies of optionals, of map keys and of the element a list is filled from. Proved for every type that contains none of these with owning parts (relation tidy of Tidy.v).

### C44 Kokkos DynRankView round trip (proved)

* Method: as C39 with the rank taken from the value
* Theorems: `C44_dyn_rank_view`
* Views whose memory the host can access; element types without virtual serialization.

### C45 Kokkos DynamicView round trip (partial)

* Method: as C39 with the chunk arithmetic explicit
* Theorems: `C45_partial`, `C45_refuted`, `C45_truncated`
* False in two ways: the maximum extent is replaced by the allocated extent, and sizes are truncated to 32 bits so that deserialization aborts. The rest is proved.

### C46 Extents-only serialization of a View (proved)

* Method: words read and written in every mode; computation of the default view
* Theorems: `C46_extent_only`
* Views whose layout is not LayoutStride; others do not compile.

### C47 Contents-only serialization of a View (proved)

* Method: round trip of C39 followed by a proof about the checked deep copy
* Theorems: `C47_contents_only`
* Element types of the host round trip C39 (relation storable of CrsSpec.v).

### C48 Compressed row graph and matrix round trip (proved)

* Method: composition of the round trips of the member views
* Theorems: `C48_graph`, `C48_matrix`
* For every behaviour of the KokkosKernels constructor with respect to the block offsets of a matrix.

### C49 Footprint of Kokkos containers (partial)

* Method: tally lemmas of C27 for the header and the traversal; law for maps; witnesses
* Theorems: `C49_view_partial`, `C49_numbers`, `C49_dyn_rank`, `C49_dynamic`, `C49_const_refuted`, `C49_const_law`, `C49_map_law`, `C49_map_refuted`
* False for views of constant elements that own storage, which are counted as if they were default elements, and for maps, whose footprint ignores what keys and values own; C49_const_law and C49_map_law say what is counted.

### C50 File calls release the descriptor and the mapping (partial)

* Method: case analysis over the system calls of every phase, for any fault oracle; witnesses
* Theorems: `C50_write_partial`, `C50_read_partial`, `C50_read_new_partial`, `C50_refuted`
* False when the file could be opened but not prepared (e.g. an empty file, a full disk): the constructor throws, so the destructor does not run and the descriptor stays open. The partial theorems show that this is the only case.

### C51 Views in memory the host cannot access (partial)

* Method: the round trip of C39 for an arbitrary mirror, composed with the two deep copies; witness for strings
* Theorems: `C51_device_view_partial`, `C51_device_size`, `C51_device_dyn_rank_view`, `C51_refuted`
* False for elements whose serialized size varies, such as strings: the mirror is not filled while sizing, so the packer writes past the end of its buffer. Proved for elements of fixed serialized size, and for DynRankView for byte-copyable elements.

### C52 Documented patterns for raw and shared pointers (partial)

* Method: emission and reading of what a pointer points to, as for unique_ptr in C01; induction on the members; three refutations as laws
* Theorems: `C52_pointers_partial`, `C52_null_keeps`, `C52_null_refuted`, `C52_shared_null`, `C52_shared_in_place`
* False as documented: a null raw pointer read over another one leaves the target as it was, a null shared pointer is dereferenced while sizing, and reading over a shared pointer that is not null gives its object two owners. Proved for all other combinations.

### C53 Which mechanism serializes an object (partial)

* Method: case analysis over all combinations of traits, induction on array length and inheritance chain; equality of interpretations for the link to the traversal
* Theorems: `C53_one_mechanism`, `C53_same_in_all_modes`, `C53_split_alone`, `C53_traversal`, `C53_own_function_partial`, `C53_own_function_refuted`
* Only the last sentence is false: a byte-copy marker inherited from a base class disables the serialize function that a class declares itself. C53_traversal links the selection to the traversal the other theorems are about.

### C54 Serialize functions that branch and loop (proved)

* Method: a judgement that tracks what is known of the target, proved sound by induction for packing and unpacking; functions of visits and branches satisfy it by a static check
* Theorems: `C54_branches`, `C54_any_function`, `C54_vectors_of_pointers`, `C54_early_branch_refuted`, `C54_unallocated`
* C54_early_branch_refuted and C54_unallocated prove the last sentence (what goes wrong without the conditions). The code between calls of the library is a total function on the object.

### C55 Streams that cannot take everything (proved)

* Method: induction on the traversal: the stream packer with limited room writes a prefix of what the unlimited one writes; reading a prefix by the lemma for truncated streams
* Theorems: `C55_full_stream`, `C55_failed_stream`, `C55_read_back`
* std::ostream without an exception mask. A write that does not fit stores what fits and sets badbit; buffering inside the stream (data lost at flush) is not modelled.

### C56 Reading arbitrary bytes from a stream (partial)

* Method: total correctness by induction on the number of bytes left and then on the depth of the object that is read into
* Theorems: `C56_arbitrary_bytes_partial`, `C56_new_object_partial`, `C56_flag_refuted`, `C56_class_refuted`
* The last sentence is false: a flag byte other than 0 and 1 read into a bool, and the index of a class that is not derived from the class of the pointer, are undefined behaviour. Proved: everything else, and undefined behaviour needs a std::optional, std::unique_ptr or std::vector<bool> among the types. Memory and stack are unlimited in the model (a damaged size may throw std::bad_alloc or std::length_error in practice).

### C57 What a failed read leaves behind (partial)

* Method: the traversal once more with the state that an exception leaves; agreement with the traversal and an invariant (valid) by induction on it; for truncated streams, each step is complete or ends in the prefix
* Theorems: `C57_outcome`, `C57_outcome_memory`, `C57_valid`, `C57_valid_memory`, `C57_members`, `C57_tuple`, `C57_pair`, `C57_array`, `C57_at_once`, `C57_again`, `C57_destroyed_partial`, `C57_destroyed_memory_partial`, `C57_destroyed_refuted`
* Only the last sentence is false: elements of lists, queues, associative containers, optionals and variants are read in raw storage whose destructor does not destroy the object, so an exception loses what the element owns. C57_destroyed_partial says that nothing else is lost. C57_members is for objects of classes without virtual serialization, C57_array for elements that are not copied bytewise. std::bad_alloc is not modelled.

### C58 Builds without assertions (proved)

* Method: a relation between programs (the same up to the first failed assertion), closed under sequencing and preserved by every interpreter; shown of every function of the model by structural and fuel induction
* Theorems: `C58_size`, `C58_footprint`, `C58_serialize`, `C58_in_place`, `C58_deserialize`, `C58_to_stream`, `C58_in_place_from_stream`, `C58_from_stream`, `C58_to_file`, `C58_in_place_from_file`, `C58_from_file`, `C58_views`, `C58_members`, `C58_functions`, `C58_compare`, `C58_registries`
* Both builds are taken to register classes in the same order. Says nothing of what the build without assertions does where the other one stops; C24 and C56 do.

### C59 Damaged data is treated alike on every medium (proved)

* Method: the traversal never throws what a stream throws at its end (induction on the traversal); both unpackers are instances of one reader of bytes
* Theorems: `C59_in_place`, `C59_new_object`, `C59_file`, `C59_arbitrary_memory`
* For the types of Traverse.v; C64_any_bytes is the same for objects that contain Kokkos views and maps. What a file read finds behind the end of the file is the subject of C33.

### C60 Data exchanged between programs with different classes (partial)

* Method: a relation between the programs of two environments (the same up to a refusal), closed under sequencing and preserved by every interpreter; shown of every function of the model for the types of the smaller program
* Theorems: `C60_type_ids`, `C60_class_ids`, `C60_size`, `C60_footprint`, `C60_serialize`, `C60_in_place`, `C60_deserialize`, `C60_to_stream`, `C60_in_place_from_stream`, `C60_from_stream`, `C60_to_file`, `C60_in_place_from_file`, `C60_from_file`, `C60_exchange_partial`, `C60_objects`, `C60_object_exchange_partial`, `C60_class_order_refuted`, `C60_type_order_refuted`
* Only the last sentence is false: type identifiers and class indices are positions in the order of static initialisation, so a program linked in another order reads an object as one of another class, or one of another type, without an error. Proved in full for programs that only append (relation grows of Grow.v); C60_type_ids and C60_class_ids show that registering later is enough. C60_objects and C60_object_exchange_partial are the same for Kokkos views and maps and objects that contain them. Streams are std::ostream and std::istream.

### C61 Calls made during static initialisation (partial)

* Method: the state during static initialisation and the state after it both extend the program that has only what is registered so far (C60); dispatch by structural induction on the chain; witnesses for what goes wrong
* Theorems: `C61_registered_partial`, `C61_exchange_partial`, `C61_dispatch_partial`, `C61_unregistered`, `C61_class_refuted`, `C61_dispatch_refuted`, `C61_later_refuted`
* False as stated: the indices are zero until their initialisers have run. Proved for calls whose types, classes and serializer entries have been registered (the last for all classes of the hierarchy); a root object of a type that has not been registered is written with an identifier that every reader refuses (C61_unregistered); an object of a class that has not been registered is written as one of the first class and later restored as such, a serializer entry that has not been registered selects the function of another serializer, and even a call that succeeds can leave a link that makes a call after startup select the function of another serializer. Memory and streams.

### C62 What error messages say (partial)

* Method: a message is a list of lines carried by the error; the closure principle of Closure.v for the predicate that every error thrown inside an object of type t is explained for one of the types directly inside t, and one more line per recursion
* Theorems: `C62_reading_partial`, `C62_writing`, `C62_objects_reading_partial`, `C62_objects_writing`, `C62_labels`, `C62_labels_refuted`
* False as stated: the identifier that was found comes after "expected=" and the one asked for after "got=" (C62_labels: always). Everything else is proved for all calls on all media; that the identifiers are the names of the types is C14. C11, C12, C13, C15 and C38 give the exact messages for their errors.

### C63 Kokkos objects inside other objects (proved)

* Method: types and objects as two inductive definitions over those of the other files, the serialize functions by recursion on the type; the lemmas about views and maps by themselves composed by induction on the type
* Theorems: `C63_round_trip`, `C63_new_object`
* Buffers in memory. Elements of vectors, optionals and pointers are default constructible. A DynamicView keeps its label, chunk size and elements; how far it can grow is C45.

### C64 Kokkos objects on every medium (proved)

* Method: the lemmas about streams, files and media stated for an arbitrary traversal instead of that of one type; the traversal of C63 is an instance
* Theorems: `C64_every_medium`, `C64_stream_sequence`, `C64_truncated_stream`, `C64_file_written`, `C64_file_read`, `C64_any_bytes`
* The views and maps of C63. Streams are std::ostream and std::istream; the calls of the file system are those of C08, C09 and C32.

### C65 Builds with and without error checking (partial)

* Method: the traversal of a byte-copied root written out for both builds; the root frame of C11 for other numbers; induction on the depth of the value over [takes] for footprints; the refutation computes both builds
* Theorems: `C65_byte_copied_partial`, `C65_other_number`, `C65_footprint`, `C65_refuted`
* Holds for byte-copied types and whenever the two builds number the root type differently, and footprints agree. False in general, in both directions: the checks inside the data of one build are data for the other, and a tuple of three sizes and a string is accepted as another such tuple.

### C66 Footprint of a restored object (partial)

* Method: induction on the depth of the value over [takes], along a relation that lets values differ in capacities only, composed with the round trip of C35 and C01
* Theorems: `C66_restored_partial`, `C66_without_strings`, `C66_never_less`, `C66_refuted`
* False for strings with unused capacity, which is not restored, and for classes whose constructors reserve capacity in vectors. Proved for everything else: exact without strings, and with strings once their unused capacity is released.

### C67 Footprint of objects that hold Kokkos containers (partial)

* Method: induction on the type, with the laws of C49 and C27 at the leaves; induction on the path to a part
* Theorems: `C67_parts_partial`, `C67_refuted`
* False for what an optional holds, of which only the size of the object is counted. Proved for everything else.

### C68 Classes of a hierarchy that were not declared are reported (partial)

* Method: induction along the inheritance chain; the indices of a hierarchy are distinct (C23), so a function inherited past an undeclared class meets the wrong index
* Theorems: `C68_reported_partial`, `C68_called`, `C68_leaf_refuted`, `C68_release_refuted`, `C68_name_refuted`
* False when the class of the object itself is not declared (the object is sliced), in builds without assertions, and when a declaration names another class than the direct base. Proved with assertions for objects of a declared class whose declarations name the direct base; C68_called says exactly which functions run in all builds.

### C69 Traversals by serializers of the user's own (proved)

* Method: mode None of either build succeeds whenever packing without error checking does, by a congruence over the whole traversal; then the packing lemma of that build, and induction over programs from one collector to all visitors
* Theorems: `C69_custom_traversal`, `C69_same_data`, `C69_hierarchies`, `C69_hierarchies_fail`
* C69_custom_traversal is for programs without polymorphic hierarchies; C69_hierarchies says for all programs when the call fails, and C69_hierarchies_fail shows that it does. Serialize functions are assumed to visit in mode None what they visit when packing. Custom dispatchers (DispatcherType) are the subject of C70; an own contiguousTyped is not modelled.

### C70 Serializers with a dispatcher of their own (proved)

* Method: induction over the recursion bound as for packing, with lists of bytes and objects in the place of bytes; induction over programs from one recorder to all serializers; induction over values for the comparison with the wire format
* Theorems: `C70_dispatchers`, `C70_without_hierarchies`, `C70_same_data`, `C70_only_specialised`, `C70_nothing_special`
* The objects and bytes to be handed over are the list of Cells.v, in which an object of a specialised type stands for its contents; C70_same_data relates that list to the wire format, for dispatchers that are not specialised for polymorphic classes. Simplifications: a specialised dispatcher leaves the object as it is, throws nothing and does not use the serializer; serialize functions visit in the mode at hand what they visit when packing.

### C71 Both traversals of views give the same data (proved)

* Method: induction over the dimensions: both traversals are the same nest of loops; induction over the visited indices for reading (an element not yet visited is as new); equality of programs step by step
* Theorems: `C71_writing`, `C71_reading`, `C71_strided`, `C71_dynamic`, `C71_atomic`
* C71_writing needs only that the view has the rank of its type; C71_reading covers arbitrary input for LayoutLeft and LayoutRight, C71_strided the data of a view of any layout, C71_dynamic all uses of DynamicViews, C71_atomic the single element of atomic views of rank 0, which has code of its own. Not covered: reading damaged data into a view with LayoutStride whose strides make elements overlap, where one traversal reads into the element and the other into a new object.

### C72 Damaged data of Kokkos views and maps (partial)

* Method: what each part of the reader accepts determines the bytes it consumed, so that an undefined outcome gives back the bytes at the start; C56 for the elements; induction over the visited indices; a chunk count that is too small stops the program (both directions); induction over the entries for maps; induction over the type of the object for objects that contain them
* Theorems: `C72_arbitrary_bytes_partial`, `C72_undefined`, `C72_count`, `C72_refuted`, `C72_dyn_rank_partial`, `C72_dyn_rank_undefined`, `C72_dyn_rank_refuted`, `C72_dynamic_partial`, `C72_dynamic_stops`, `C72_map_partial`, `C72_objects_partial`, `C72_objects_safe`, `C72_objects_refuted`
* The number of elements in the data is not compared with the extents, and bools are not checked. C72_arbitrary_bytes_partial leaves only the inputs described by damaged (a few lines on the format) and the flags inside of elements (C56); C72_undefined shows that every damaged input is undefined behaviour, C72_count that raising the number of elements of any contiguous view makes its data such, C72_refuted is a case. For views of dynamic rank there is one more way: a rank in the data that is less than the number of extents (dyn_astray, C72_dyn_rank_refuted). Views of dynamic size and maps are undefined only by flags inside of elements; a DynamicView whose data has more elements than chunks ends the program (C72_dynamic_stops). C72_objects_partial covers objects that contain them at any depth: undefined only if damaged data of one of their views, or a bool of one of their optionals or pointers that is neither false nor true, stands somewhere in the input; C72_objects_safe: never for objects without views, optionals and pointers. Not covered: allocations that fail, extents whose product exceeds 64 bits (the model allocates any number of elements).

### C73 State of a stream after a call, and streams that throw (proved)

* Method: induction over programs: a reader takes a prefix or fails on an empty stream; the truncated case from C06; the bytes offered by the packer are those of the wire format, induction over the objects
* Theorems: `C73_reading`, `C73_reading_new`, `C73_reading_objects`, `C73_same_result`, `C73_failed_stream`, `C73_truncated`, `C73_other_type`, `C73_writing`, `C73_writing_objects`
* A stream is asked to throw in all cases of failure or in none. Whether a stream that is bad already throws again is a parameter.

### C74 Restarting objects with Kokkos views any number of times (partial)

* Method: induction over the type of the object: what is read back can be written, is not changed by reading again and has the same bytes; capacities from the exact version of the round trip; then induction over the number of restarts
* Theorems: `C74_restart_partial`, `C74_restarts_partial`, `C74_refuted`, `C74_maps_refuted`
* False once for views that were never allocated (they are allocated afterwards) and for views with padding or other strides than Kokkos would choose (they are packed afterwards): the bytes of the first copy differ from those of the original. C74_restart_partial: the first copy never has such views; C74_restarts_partial: from there on nothing changes. C74_maps_refuted: the data of a Kokkos map may change at every restart, because the order of its entries does; the same holds of unordered containers (C35), so that objects with either are excluded. For programs whose constructors reserve capacity see C35.

### C75 The data of objects with Kokkos views and maps is unambiguous (proved)

* Method: both objects are read from the same bytes, so they have a common copy and leave the same rest; induction over the type for what a common copy says
* Theorems: `C75_unambiguous`
* Elements of two views are compared if both views are allocated. The two objects can be read over a common object, such as a new one (the hypotheses on w).

### C76 Footprint of restored objects with Kokkos views (partial)

* Method: part of the induction for C74: an object read back takes the same; the elements of a padded view and of its dense copy are permutations of each other, because the natural strides are a bijection between index tuples and places
* Theorems: `C76_restored_partial`, `C76_without_strings`, `C76_refuted`
* Proved without strings (C76_without_strings), and with strings once their unused capacity is released (C76_restored_partial). False for strings with unused capacity, which is not restored (less is reported), and for views that have extents but no memory (their copies are allocated; more is reported): C76_refuted. Objects with maps are not covered: the capacity of a map is chosen by Kokkos. What optionals hold is never counted (C67). Unordered containers are excluded as in C74.

### C77 Kokkos maps restarted again and again (partial)

* Method: invariant of one restart (distinct keys, no key in a free slot, keys different from those of new slots), then induction on the number of restarts; the capacities are the iterates of the rounding rule
* Theorems: `C77_restarts_partial`, `C77_growth`, `C77_refuted`
* Keys and values are kept by any number of restarts, if no key is the one that Kokkos puts into the slots of new maps. The capacity is not kept: rehash is called with the old capacity, and if Kokkos adds a sixth, a map grows with every restart (C77_growth; that rule is a hypothesis, written from memory and not compared with the source of Kokkos, which is not part of the repository; C77_restarts_partial holds for any rule). A map without free slots that holds the default key is restored once, but not from what is written of the copy (C77_refuted). Capacities stay below 2^32 by hypothesis.

### C78 Damaged data does not inflate (partial)

* Method: a logic for programs that counts the bytes consumed on every normal end, with the final value as a prophecy; structural induction over the traversal, one lemma for each container
* Theorems: `C78_in_place_partial`, `C78_new_object_partial`, `C78_any_target_partial`, `C78_refuted`
* Proved for all bytes and all types, if the object that was read holds no variant and can be written at all, and no polymorphic class is copied bytewise. False with variants: the index of no alternative is accepted and leaves the alternative the variant had, of which nothing was read (C78_refuted). The bound is about bytes of data, not about memory: C78_capacity shows 52 bytes that reserve room for 2^60 elements. Data of 2^64 bytes or more are excluded.

### C79 One value and its bytes (proved)

* Method: objects with a hole; the wire format is affine in the bytes in the hole (induction on the hole); the round trip theorems for both objects
* Theorems: `C79_patch`, `C79_any_bytes`, `C79_element`, `C79_dynamic`, `C79_map_value`, `C79_map_key`, `C79_member`
* Types and values of the specification relation has_ty. C79_patch asks that the object with the new value is one that a program can hold; C79_any_bytes needs no such hypothesis outside of sets, maps and vectors of bools, and C79_keys shows why it does inside. C79_element, C79_dynamic, C79_map_value, C79_map_key and C79_member are the same for elements of Kokkos views of static and dynamic rank (if no other indices designate the same memory: C79_overlap) and of dynamic views, for values and keys of Kokkos maps, and for members beside them; they ask that the object with the new value is one that a program can hold.

### C80 Parts of an object in the data of the whole (proved)

* Method: objects with a hole for a part; the wire format of the whole contains that of the part, by induction on the hole; the round trip theorems for both
* Theorems: `C80_part`, `C80_read`, `C80_objects`, `C80_objects_read`, `C80_element`, `C80_dynamic`, `C80_map_value`, `C80_map_key`, `C80_dynamic_read`, `C80_map_value_read`, `C80_map_key_read`
* Types and values of the specification relation has_ty. The object behind a pointer to a polymorphic base class is no part by itself (its class is written with the pointer), but its members are; bools of std::vector<bool> are no parts. C80_unchecked: without error checking reading a part by itself is refused. C80_objects and C80_objects_read are the same for Kokkos views and maps, and objects that contain them, inside other objects. C80_element, C80_dynamic, C80_map_value and C80_map_key: the same of the contents of elements of views (if no other indices designate the same memory) and of keys and values of maps; C80_dynamic_read, C80_map_value_read and C80_map_key_read: elements of dynamic views, values and keys of maps can be read by themselves (elements of contiguous views are written as one array).
