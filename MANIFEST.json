{
 "claims": [
  {
   "property": "C01",
   "status": "proved",
   "theorems": [
    "C01_memory_round_trip"
   ],
   "note": "Types and values of the specification relation has_ty; arrays of several polymorphic objects, byte-copyable polymorphic classes and valueless variants are outside it and are treated in C25, C26 and C19."
  },
  {
   "property": "C02",
   "status": "proved",
   "theorems": [
    "C02_size_exact"
   ],
   "note": ""
  },
  {
   "property": "C03",
   "status": "proved",
   "theorems": [
    "C03_stays_in_buffer"
   ],
   "note": ""
  },
  {
   "property": "C04",
   "status": "proved",
   "theorems": [
    "C04_exact_consumption"
   ],
   "note": ""
  },
  {
   "property": "C05",
   "status": "partial",
   "theorems": [
    "C05_stream_sequences",
    "C05_any_stream_partial",
    "C05_other_streams",
    "C05_refuted"
   ],
   "note": "C05_stream_sequences proves it for std::ostream and std::istream. False for streams of another static type (std::ofstream, std::stringstream): the serializers for these are not linked in the virtual registries, so objects of classes derived from a polymorphic class fail an assertion (C05_refuted); C05_any_stream_partial covers programs without polymorphic hierarchies and C05_other_streams says exactly which calls fail. unlinked_dispatch derives the behaviour from the registries."
  },
  {
   "property": "C06",
   "status": "proved",
   "theorems": [
    "C06_truncated_stream"
   ],
   "note": ""
  },
  {
   "property": "C07",
   "status": "proved",
   "theorems": [
    "C07_medium_independent"
   ],
   "note": "Streams are std::ostream and std::istream; on streams of another static type a call that does not fail does the same, see C05_other_streams."
  },
  {
   "property": "C08",
   "status": "proved",
   "theorems": [
    "C08_file_round_trip"
   ],
   "note": ""
  },
  {
   "property": "C09",
   "status": "partial",
   "theorems": [
    "C09_read_failures",
    "C09_write_failures_partial",
    "C09_fallocate_refuted"
   ],
   "note": "False as stated: fallocate failures other than ENOSPC are ignored by the source; every other failure is shown to be reported."
  },
  {
   "property": "C10",
   "status": "proved",
   "theorems": [
    "C10_read_only",
    "C10_repeatable"
   ],
   "note": ""
  },
  {
   "property": "C11",
   "status": "proved",
   "theorems": [
    "C11_memory",
    "C11_stream"
   ],
   "note": "Holds for up to 65536 registered types; C14_limit shows that the bound is sharp."
  },
  {
   "property": "C12",
   "status": "proved",
   "theorems": [
    "C12_mismatch"
   ],
   "note": "Positions are given by the relation path of Layout.v; the conclusion includes the message of the error."
  },
  {
   "property": "C13",
   "status": "proved",
   "theorems": [
    "C13_depth"
   ],
   "note": "Positions and damaged frames are given by the relations path and damaged of Layout.v; the conclusion includes the message of the error."
  },
  {
   "property": "C14",
   "status": "proved",
   "theorems": [
    "C14_unique",
    "C14_marker",
    "C14_limit"
   ],
   "note": ""
  },
  {
   "property": "C15",
   "status": "partial",
   "theorems": [
    "C15_no_buffer_partial",
    "C15_less_partial",
    "C15_more_overflows",
    "C15_refuted"
   ],
   "note": "False as stated: a function that packs more than it sized writes past the buffer before the size is compared. Proved: no buffer is ever returned, and packing less throws."
  },
  {
   "property": "C16",
   "status": "proved",
   "theorems": [
    "C16_vector",
    "C16_vector_bool",
    "C16_sequence"
   ],
   "note": ""
  },
  {
   "property": "C17",
   "status": "proved",
   "theorems": [
    "C17_ordered",
    "C17_unordered"
   ],
   "note": ""
  },
  {
   "property": "C18",
   "status": "proved",
   "theorems": [
    "C18_optional",
    "C18_unique_ptr"
   ],
   "note": ""
  },
  {
   "property": "C19",
   "status": "partial",
   "theorems": [
    "C19_variant_partial",
    "C19_valueless_refuted"
   ],
   "note": "False for valueless variants; proved for every variant holding an alternative."
  },
  {
   "property": "C20",
   "status": "partial",
   "theorems": [
    "C20_in_place_partial",
    "C20_queue_appends",
    "C20_move_only_list_appends",
    "C20_associative_merges",
    "C20_associative_keeps",
    "C20_twice",
    "C20_refuted"
   ],
   "note": "False for queues, maps, sets and move-only containers that are not empty: the laws say what they hold afterwards. Proved for every other target; restoring twice into one of those is the same as restoring once, capacities included."
  },
  {
   "property": "C21",
   "status": "proved",
   "theorems": [
    "C21_polymorphic_pointer",
    "C52_pointers_partial"
   ],
   "note": "C52_pointers_partial is the part about raw pointers."
  },
  {
   "property": "C22",
   "status": "proved",
   "theorems": [
    "C22_chain_once",
    "C22_registries"
   ],
   "note": "C22_registries shows the same for the dispatch through the object and serializer registries."
  },
  {
   "property": "C23",
   "status": "proved",
   "theorems": [
    "C23_objects",
    "C23_serializers"
   ],
   "note": ""
  },
  {
   "property": "C24",
   "status": "partial",
   "theorems": [
    "C24_pointer_partial",
    "C24_reference_refuted",
    "C24_release_refuted"
   ],
   "note": "Proved for the pointee of an owning pointer in programs compiled with assertions; false for an object behind a base reference, where the library compares nothing, and with NDEBUG, where the mismatch is only printed."
  },
  {
   "property": "C25",
   "status": "partial",
   "theorems": [
    "C25_short_arrays_partial",
    "C25_only_first",
    "C25_array_only_first",
    "C25_refuted"
   ],
   "note": "False as stated: C25_only_first shows that exactly the first element survives."
  },
  {
   "property": "C26",
   "status": "partial",
   "theorems": [
    "C26_no_leak_partial",
    "C26_refuted"
   ],
   "note": "False for polymorphic classes declared byte-copyable; proved for all others."
  },
  {
   "property": "C27",
   "status": "proved",
   "theorems": [
    "C27_footprint",
    "C27_offset",
    "C27_total",
    "C27_vector",
    "C27_string"
   ],
   "note": "The owned storage is the specification relation takes of Foot.v."
  },
  {
   "property": "C28",
   "status": "partial",
   "theorems": [
    "C28_precedence",
    "C28_object",
    "C28_allow_fail_partial",
    "C28_pointer",
    "C28_release_refuted"
   ],
   "note": "False only for programs compiled with NDEBUG, where a class that cannot be constructed yields a null pointer; proved for all combinations of mechanisms otherwise. A type with two reconstruct functions is rejected by the compiler."
  },
  {
   "property": "C29",
   "status": "proved",
   "theorems": [
    "C29_user_buffer"
   ],
   "note": ""
  },
  {
   "property": "C30",
   "status": "partial",
   "theorems": [
    "C30_buffer_partial",
    "C30_success",
    "C30_user_memory_refuted",
    "C30_stream_refuted",
    "C30_file_refuted"
   ],
   "note": "False as stated; the refutations exhibit the leaks and the free of caller memory, the partial theorem covers library-allocated memory read from a buffer."
  },
  {
   "property": "C31",
   "status": "partial",
   "theorems": [
    "C31_crash_one_page_partial",
    "C31_process_stop_partial",
    "C31_crash_refuted"
   ],
   "note": "False for files of several pages; proved for files of one page and for process stops."
  },
  {
   "property": "C32",
   "status": "proved",
   "theorems": [
    "C32_durable_on_return"
   ],
   "note": ""
  },
  {
   "property": "C33",
   "status": "partial",
   "theorems": [
    "C33_file_partial",
    "C33_memory_refuted",
    "C33_file_accepted_refuted",
    "C33_file_ub_refuted"
   ],
   "note": "False as stated: memory and mapped reads have no bounds check."
  },
  {
   "property": "C34",
   "status": "proved",
   "theorems": [
    "C34_injective",
    "C34_prefix_free"
   ],
   "note": ""
  },
  {
   "property": "C35",
   "status": "partial",
   "theorems": [
    "C35_stable_partial",
    "C35_settles",
    "C35_refuted"
   ],
   "note": "Proved for values without hash containers and classes whose default construction owns no spare capacity; false otherwise, with a witness. Whatever the constructors reserve, only the first restart can change the bytes: every later one reproduces the same object, capacities included."
  },
  {
   "property": "C36",
   "status": "proved",
   "theorems": [
    "C36_sum_of_parts"
   ],
   "note": ""
  },
  {
   "property": "C37",
   "status": "partial",
   "theorems": [
    "C37_partial",
    "C37_sequential_partial",
    "C37_races",
    "C37_refuted"
   ],
   "note": "False as stated: every dynamic dispatch writes entries of the process-wide serializer registry without synchronisation, making the message of a serialization_error looks type names up with operator[] of a process-wide table, and counting a type without serialization code writes a static flag the first time. C37_races characterises exactly when two calls race: a polymorphic class in common, both throw a serialization_error, or a type without serialization code in common that has not been counted yet. Proved for any number of calls with none of these in common, under every schedule; C37_sequential_partial covers the rest if the accesses are atomic. Memory is sequentially consistent in the model; the file entry points are not among the calls."
  },
  {
   "property": "C38",
   "status": "proved",
   "theorems": [
    "C38_members",
    "C38_anywhere"
   ],
   "note": "C38_anywhere is the statement for an object at any position; the reader visits no member twice and the class is smaller than 2^31 bytes."
  },
  {
   "property": "C39",
   "status": "partial",
   "theorems": [
    "C39_partial",
    "C39_const_partial",
    "C39_const_law",
    "C39_const_refuted"
   ],
   "note": "False for views of constant elements of varying size: the sizer sees default elements and packing runs past the buffer; C39_const_law tells the three outcomes apart. Proved for all other views whose memory the host can access."
  },
  {
   "property": "C40",
   "status": "proved",
   "theorems": [
    "C40_traversal"
   ],
   "note": "The index order is the specification relation row_major of ViewSpec.v."
  },
  {
   "property": "C41",
   "status": "partial",
   "theorems": [
    "C41_rank1_partial",
    "C41_law",
    "C41_static",
    "C41_meta",
    "C41_refuted"
   ],
   "note": "False for every rank but 1: the recursion counts the counts of the inner dimension as if they were verdicts. C41_law says what is decided for each rank, C41_meta what holds for every rank. C41_static: the check of compile-time extents looks at the wrong extents for data types such as T**[N][M], T***[N] or T*[N][M][K], so that views of these types are reported to differ from themselves."
  },
  {
   "property": "C42",
   "status": "partial",
   "theorems": [
    "C42_partial",
    "C42_leftover",
    "C42_in_place",
    "C42_refuted",
    "C42_in_place_refuted"
   ],
   "note": "False when a free slot holds the key of an occupied one, which default-constructed keys do: C42_leftover shows that such a map is written but cannot be read again in builds with error checking. Proved otherwise, up to the capacity Kokkos chooses for the requested one. Into a map that holds keys it is false too: C42_in_place says what such a map holds afterwards if there is room, C42_in_place_refuted is a case where elements are dropped without an error because there is none."
  },
  {
   "property": "C43",
   "status": "partial",
   "theorems": [
    "C43_memory_partial",
    "C43_stream_partial",
    "C43_in_place_partial",
    "C43_refuted"
   ],
   "note": "False as stated: C43_refuted exhibits lost copies of optionals, of map keys and of the element a list is filled from. Proved for every type that contains none of these with owning parts (relation tidy of Tidy.v)."
  },
  {
   "property": "C44",
   "status": "proved",
   "theorems": [
    "C44_dyn_rank_view"
   ],
   "note": "Views whose memory the host can access; element types without virtual serialization."
  },
  {
   "property": "C45",
   "status": "partial",
   "theorems": [
    "C45_partial",
    "C45_refuted",
    "C45_truncated"
   ],
   "note": "False in two ways: the maximum extent is replaced by the allocated extent, and sizes are truncated to 32 bits so that deserialization aborts. The rest is proved."
  },
  {
   "property": "C46",
   "status": "proved",
   "theorems": [
    "C46_extent_only"
   ],
   "note": "Views whose layout is not LayoutStride; others do not compile."
  },
  {
   "property": "C47",
   "status": "proved",
   "theorems": [
    "C47_contents_only"
   ],
   "note": "Element types of the host round trip C39 (relation storable of CrsSpec.v)."
  },
  {
   "property": "C48",
   "status": "proved",
   "theorems": [
    "C48_graph",
    "C48_matrix"
   ],
   "note": "For every behaviour of the KokkosKernels constructor with respect to the block offsets of a matrix."
  },
  {
   "property": "C49",
   "status": "partial",
   "theorems": [
    "C49_view_partial",
    "C49_numbers",
    "C49_dyn_rank",
    "C49_dynamic",
    "C49_const_refuted",
    "C49_const_law",
    "C49_map_law",
    "C49_map_refuted"
   ],
   "note": "False for views of constant elements that own storage, which are counted as if they were default elements, and for maps, whose footprint ignores what keys and values own; C49_const_law and C49_map_law say what is counted."
  },
  {
   "property": "C50",
   "status": "partial",
   "theorems": [
    "C50_write_partial",
    "C50_read_partial",
    "C50_read_new_partial",
    "C50_refuted"
   ],
   "note": "False when the file could be opened but not prepared (e.g. an empty file, a full disk): the constructor throws, so the destructor does not run and the descriptor stays open. The partial theorems show that this is the only case."
  },
  {
   "property": "C51",
   "status": "partial",
   "theorems": [
    "C51_device_view_partial",
    "C51_device_size",
    "C51_device_dyn_rank_view",
    "C51_refuted"
   ],
   "note": "False for elements whose serialized size varies, such as strings: the mirror is not filled while sizing, so the packer writes past the end of its buffer. Proved for elements of fixed serialized size, and for DynRankView for byte-copyable elements."
  },
  {
   "property": "C52",
   "status": "partial",
   "theorems": [
    "C52_pointers_partial",
    "C52_null_keeps",
    "C52_null_refuted",
    "C52_shared_null",
    "C52_shared_in_place"
   ],
   "note": "False as documented: a null raw pointer read over another one leaves the target as it was, a null shared pointer is dereferenced while sizing, and reading over a shared pointer that is not null gives its object two owners. Proved for all other combinations."
  },
  {
   "property": "C53",
   "status": "partial",
   "theorems": [
    "C53_one_mechanism",
    "C53_same_in_all_modes",
    "C53_split_alone",
    "C53_traversal",
    "C53_own_function_partial",
    "C53_own_function_refuted"
   ],
   "note": "Only the last sentence is false: a byte-copy marker inherited from a base class disables the serialize function that a class declares itself. C53_traversal links the selection to the traversal the other theorems are about."
  },
  {
   "property": "C54",
   "status": "proved",
   "theorems": [
    "C54_branches",
    "C54_any_function",
    "C54_vectors_of_pointers",
    "C54_early_branch_refuted",
    "C54_unallocated"
   ],
   "note": "C54_early_branch_refuted and C54_unallocated prove the last sentence (what goes wrong without the conditions). The code between calls of the library is a total function on the object."
  },
  {
   "property": "C55",
   "status": "proved",
   "theorems": [
    "C55_full_stream",
    "C55_failed_stream",
    "C55_read_back"
   ],
   "note": "std::ostream without an exception mask. A write that does not fit stores what fits and sets badbit; buffering inside the stream (data lost at flush) is not modelled."
  },
  {
   "property": "C56",
   "status": "partial",
   "theorems": [
    "C56_arbitrary_bytes_partial",
    "C56_new_object_partial",
    "C56_flag_refuted",
    "C56_class_refuted"
   ],
   "note": "The last sentence is false: a flag byte other than 0 and 1 read into a bool, and the index of a class that is not derived from the class of the pointer, are undefined behaviour. Proved: everything else, and undefined behaviour needs a std::optional, std::unique_ptr or std::vector<bool> among the types. Memory and stack are unlimited in the model (a damaged size may throw std::bad_alloc or std::length_error in practice)."
  },
  {
   "property": "C57",
   "status": "partial",
   "theorems": [
    "C57_outcome",
    "C57_outcome_memory",
    "C57_valid",
    "C57_valid_memory",
    "C57_members",
    "C57_tuple",
    "C57_pair",
    "C57_array",
    "C57_at_once",
    "C57_again",
    "C57_destroyed_partial",
    "C57_destroyed_memory_partial",
    "C57_destroyed_refuted"
   ],
   "note": "Only the last sentence is false: elements of lists, queues, associative containers, optionals and variants are read in raw storage whose destructor does not destroy the object, so an exception loses what the element owns. C57_destroyed_partial says that nothing else is lost. C57_members is for objects of classes without virtual serialization, C57_array for elements that are not copied bytewise. std::bad_alloc is not modelled."
  },
  {
   "property": "C58",
   "status": "proved",
   "theorems": [
    "C58_size",
    "C58_footprint",
    "C58_serialize",
    "C58_in_place",
    "C58_deserialize",
    "C58_to_stream",
    "C58_in_place_from_stream",
    "C58_from_stream",
    "C58_to_file",
    "C58_in_place_from_file",
    "C58_from_file",
    "C58_views",
    "C58_members",
    "C58_functions",
    "C58_compare",
    "C58_registries"
   ],
   "note": "Both builds are taken to register classes in the same order. Says nothing of what the build without assertions does where the other one stops; C24 and C56 do."
  },
  {
   "property": "C59",
   "status": "proved",
   "theorems": [
    "C59_in_place",
    "C59_new_object",
    "C59_file",
    "C59_arbitrary_memory"
   ],
   "note": "For the types of Traverse.v; C64_any_bytes is the same for objects that contain Kokkos views and maps. What a file read finds behind the end of the file is the subject of C33."
  },
  {
   "property": "C60",
   "status": "partial",
   "theorems": [
    "C60_type_ids",
    "C60_class_ids",
    "C60_size",
    "C60_footprint",
    "C60_serialize",
    "C60_in_place",
    "C60_deserialize",
    "C60_to_stream",
    "C60_in_place_from_stream",
    "C60_from_stream",
    "C60_to_file",
    "C60_in_place_from_file",
    "C60_from_file",
    "C60_exchange_partial",
    "C60_objects",
    "C60_object_exchange_partial",
    "C60_class_order_refuted",
    "C60_type_order_refuted"
   ],
   "note": "Only the last sentence is false: type identifiers and class indices are positions in the order of static initialisation, so a program linked in another order reads an object as one of another class, or one of another type, without an error. Proved in full for programs that only append (relation grows of Grow.v); C60_type_ids and C60_class_ids show that registering later is enough. C60_objects and C60_object_exchange_partial are the same for Kokkos views and maps and objects that contain them. Streams are std::ostream and std::istream."
  },
  {
   "property": "C61",
   "status": "partial",
   "theorems": [
    "C61_registered_partial",
    "C61_exchange_partial",
    "C61_dispatch_partial",
    "C61_unregistered",
    "C61_class_refuted",
    "C61_dispatch_refuted",
    "C61_later_refuted"
   ],
   "note": "False as stated: the indices are zero until their initialisers have run. Proved for calls whose types, classes and serializer entries have been registered (the last for all classes of the hierarchy); a root object of a type that has not been registered is written with an identifier that every reader refuses (C61_unregistered); an object of a class that has not been registered is written as one of the first class and later restored as such, a serializer entry that has not been registered selects the function of another serializer, and even a call that succeeds can leave a link that makes a call after startup select the function of another serializer. Memory and streams."
  },
  {
   "property": "C62",
   "status": "partial",
   "theorems": [
    "C62_reading_partial",
    "C62_writing",
    "C62_objects_reading_partial",
    "C62_objects_writing",
    "C62_labels",
    "C62_labels_refuted"
   ],
   "note": "False as stated: the identifier that was found comes after \"expected=\" and the one asked for after \"got=\" (C62_labels: always). Everything else is proved for all calls on all media; that the identifiers are the names of the types is C14. C11, C12, C13, C15 and C38 give the exact messages for their errors."
  },
  {
   "property": "C63",
   "status": "proved",
   "theorems": [
    "C63_round_trip",
    "C63_new_object"
   ],
   "note": "Buffers in memory. Elements of vectors, optionals and pointers are default constructible. A DynamicView keeps its label, chunk size and elements; how far it can grow is C45."
  },
  {
   "property": "C64",
   "status": "proved",
   "theorems": [
    "C64_every_medium",
    "C64_stream_sequence",
    "C64_truncated_stream",
    "C64_file_written",
    "C64_file_read",
    "C64_any_bytes"
   ],
   "note": "The views and maps of C63. Streams are std::ostream and std::istream; the calls of the file system are those of C08, C09 and C32."
  },
  {
   "property": "C65",
   "status": "partial",
   "theorems": [
    "C65_byte_copied_partial",
    "C65_other_number",
    "C65_footprint",
    "C65_refuted"
   ],
   "note": "Holds for byte-copied types and whenever the two builds number the root type differently, and footprints agree. False in general, in both directions: the checks inside the data of one build are data for the other, and a tuple of three sizes and a string is accepted as another such tuple."
  },
  {
   "property": "C66",
   "status": "partial",
   "theorems": [
    "C66_restored_partial",
    "C66_without_strings",
    "C66_never_less",
    "C66_refuted"
   ],
   "note": "False for strings with unused capacity, which is not restored, and for classes whose constructors reserve capacity in vectors. Proved for everything else: exact without strings, and with strings once their unused capacity is released."
  },
  {
   "property": "C67",
   "status": "partial",
   "theorems": [
    "C67_parts_partial",
    "C67_refuted"
   ],
   "note": "False for what an optional holds, of which only the size of the object is counted. Proved for everything else."
  },
  {
   "property": "C68",
   "status": "partial",
   "theorems": [
    "C68_reported_partial",
    "C68_called",
    "C68_leaf_refuted",
    "C68_release_refuted",
    "C68_name_refuted"
   ],
   "note": "False when the class of the object itself is not declared (the object is sliced), in builds without assertions, and when a declaration names another class than the direct base. Proved with assertions for objects of a declared class whose declarations name the direct base; C68_called says exactly which functions run in all builds."
  },
  {
   "property": "C69",
   "status": "proved",
   "theorems": [
    "C69_custom_traversal",
    "C69_same_data",
    "C69_hierarchies",
    "C69_hierarchies_fail"
   ],
   "note": "C69_custom_traversal is for programs without polymorphic hierarchies; C69_hierarchies says for all programs when the call fails, and C69_hierarchies_fail shows that it does. Serialize functions are assumed to visit in mode None what they visit when packing. Custom dispatchers (DispatcherType) are the subject of C70; an own contiguousTyped is not modelled."
  },
  {
   "property": "C70",
   "status": "proved",
   "theorems": [
    "C70_dispatchers",
    "C70_without_hierarchies",
    "C70_same_data",
    "C70_only_specialised",
    "C70_nothing_special"
   ],
   "note": "The objects and bytes to be handed over are the list of Cells.v, in which an object of a specialised type stands for its contents; C70_same_data relates that list to the wire format, for dispatchers that are not specialised for polymorphic classes. Simplifications: a specialised dispatcher leaves the object as it is, throws nothing and does not use the serializer; serialize functions visit in the mode at hand what they visit when packing."
  },
  {
   "property": "C71",
   "status": "proved",
   "theorems": [
    "C71_writing",
    "C71_reading",
    "C71_strided",
    "C71_dynamic",
    "C71_atomic"
   ],
   "note": "C71_writing needs only that the view has the rank of its type; C71_reading covers arbitrary input for LayoutLeft and LayoutRight, C71_strided the data of a view of any layout, C71_dynamic all uses of DynamicViews, C71_atomic the single element of atomic views of rank 0, which has code of its own. Not covered: reading damaged data into a view with LayoutStride whose strides make elements overlap, where one traversal reads into the element and the other into a new object."
  },
  {
   "property": "C72",
   "status": "partial",
   "theorems": [
    "C72_arbitrary_bytes_partial",
    "C72_undefined",
    "C72_count",
    "C72_refuted",
    "C72_dyn_rank_partial",
    "C72_dyn_rank_undefined",
    "C72_dyn_rank_refuted",
    "C72_dynamic_partial",
    "C72_dynamic_stops",
    "C72_map_partial",
    "C72_objects_partial",
    "C72_objects_safe",
    "C72_objects_refuted"
   ],
   "note": "The number of elements in the data is not compared with the extents, and bools are not checked. C72_arbitrary_bytes_partial leaves only the inputs described by damaged (a few lines on the format) and the flags inside of elements (C56); C72_undefined shows that every damaged input is undefined behaviour, C72_count that raising the number of elements of any contiguous view makes its data such, C72_refuted is a case. For views of dynamic rank there is one more way: a rank in the data that is less than the number of extents (dyn_astray, C72_dyn_rank_refuted). Views of dynamic size and maps are undefined only by flags inside of elements; a DynamicView whose data has more elements than chunks ends the program (C72_dynamic_stops). C72_objects_partial covers objects that contain them at any depth: undefined only if damaged data of one of their views, or a bool of one of their optionals or pointers that is neither false nor true, stands somewhere in the input; C72_objects_safe: never for objects without views, optionals and pointers. Not covered: allocations that fail, extents whose product exceeds 64 bits (the model allocates any number of elements)."
  },
  {
   "property": "C73",
   "status": "proved",
   "theorems": [
    "C73_reading",
    "C73_reading_new",
    "C73_reading_objects",
    "C73_same_result",
    "C73_failed_stream",
    "C73_truncated",
    "C73_other_type",
    "C73_writing",
    "C73_writing_objects"
   ],
   "note": "A stream is asked to throw in all cases of failure or in none. Whether a stream that is bad already throws again is a parameter."
  },
  {
   "property": "C74",
   "status": "partial",
   "theorems": [
    "C74_restart_partial",
    "C74_restarts_partial",
    "C74_refuted",
    "C74_maps_refuted"
   ],
   "note": "False once for views that were never allocated (they are allocated afterwards) and for views with padding or other strides than Kokkos would choose (they are packed afterwards): the bytes of the first copy differ from those of the original. C74_restart_partial: the first copy never has such views; C74_restarts_partial: from there on nothing changes. C74_maps_refuted: the data of a Kokkos map may change at every restart, because the order of its entries does; the same holds of unordered containers (C35), so that objects with either are excluded. For programs whose constructors reserve capacity see C35."
  },
  {
   "property": "C75",
   "status": "proved",
   "theorems": [
    "C75_unambiguous"
   ],
   "note": "Elements of two views are compared if both views are allocated. The two objects can be read over a common object, such as a new one (the hypotheses on w)."
  },
  {
   "property": "C76",
   "status": "partial",
   "theorems": [
    "C76_restored_partial",
    "C76_without_strings",
    "C76_refuted"
   ],
   "note": "Proved without strings (C76_without_strings), and with strings once their unused capacity is released (C76_restored_partial). False for strings with unused capacity, which is not restored (less is reported), and for views that have extents but no memory (their copies are allocated; more is reported): C76_refuted. Objects with maps are not covered: the capacity of a map is chosen by Kokkos. What optionals hold is never counted (C67). Unordered containers are excluded as in C74."
  },
  {
   "property": "C77",
   "status": "partial",
   "theorems": [
    "C77_restarts_partial",
    "C77_growth",
    "C77_refuted"
   ],
   "note": "Keys and values are kept by any number of restarts, if no key is the one that Kokkos puts into the slots of new maps. The capacity is not kept: rehash is called with the old capacity, and if Kokkos adds a sixth, a map grows with every restart (C77_growth; that rule is a hypothesis, written from memory and not compared with the source of Kokkos, which is not part of the repository; C77_restarts_partial holds for any rule). A map without free slots that holds the default key is restored once, but not from what is written of the copy (C77_refuted). Capacities stay below 2^32 by hypothesis."
  },
  {
   "property": "C78",
   "status": "partial",
   "theorems": [
    "C78_in_place_partial",
    "C78_new_object_partial",
    "C78_any_target_partial",
    "C78_refuted"
   ],
   "note": "Proved for all bytes and all types, if the object that was read holds no variant and can be written at all, and no polymorphic class is copied bytewise. False with variants: the index of no alternative is accepted and leaves the alternative the variant had, of which nothing was read (C78_refuted). The bound is about bytes of data, not about memory: C78_capacity shows 52 bytes that reserve room for 2^60 elements. Data of 2^64 bytes or more are excluded."
  },
  {
   "property": "C79",
   "status": "proved",
   "theorems": [
    "C79_patch",
    "C79_any_bytes",
    "C79_element",
    "C79_dynamic",
    "C79_map_value",
    "C79_map_key",
    "C79_member"
   ],
   "note": "Types and values of the specification relation has_ty. C79_patch asks that the object with the new value is one that a program can hold; C79_any_bytes needs no such hypothesis outside of sets, maps and vectors of bools, and C79_keys shows why it does inside. C79_element, C79_dynamic, C79_map_value, C79_map_key and C79_member are the same for elements of Kokkos views of static and dynamic rank (if no other indices designate the same memory: C79_overlap) and of dynamic views, for values and keys of Kokkos maps, and for members beside them; they ask that the object with the new value is one that a program can hold."
  },
  {
   "property": "C80",
   "status": "proved",
   "theorems": [
    "C80_part",
    "C80_read",
    "C80_objects",
    "C80_objects_read",
    "C80_element",
    "C80_dynamic",
    "C80_map_value",
    "C80_map_key",
    "C80_dynamic_read",
    "C80_map_value_read",
    "C80_map_key_read"
   ],
   "note": "Types and values of the specification relation has_ty. The object behind a pointer to a polymorphic base class is no part by itself (its class is written with the pointer), but its members are; bools of std::vector<bool> are no parts. C80_unchecked: without error checking reading a part by itself is refused. C80_objects and C80_objects_read are the same for Kokkos views and maps, and objects that contain them, inside other objects. C80_element, C80_dynamic, C80_map_value and C80_map_key: the same of the contents of elements of views (if no other indices designate the same memory) and of keys and values of maps; C80_dynamic_read, C80_map_value_read and C80_map_key_read: elements of dynamic views, values and keys of maps can be read by themselves (elements of contiguous views are written as one array)."
  }
 ]
}
