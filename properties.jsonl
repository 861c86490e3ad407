{"id": "C01", "title": "Memory round trip", "statement": "For every serializable type T and every value v of it, deserialize<T>(serialize(v)->getBuffer()) returns normally with an object that is observably equal to v: same scalars, strings, element sequences, keys and mapped values, null/non-null pointers, active alternatives and dynamic classes (unordered containers are compared as multisets).  This holds with and without serialization error checking.", "quantifier": "all types built from scalars, byte-copyable records, enums, strings, vectors, vector<bool>, arrays, lists, deques, queues, sets/maps (ordered, unordered, multi), pairs, tuples, optionals, variants, unique_ptr, durations and user classes (nested and recursive, to any depth); all values of those types; both build modes. Three kinds of value are the subject of other properties and excluded here: valueless variants (C19), arrays of two or more polymorphic objects by value (C25), and polymorphic classes that are also declared byte-copyable (C26)", "why_tests_cant": "The set of types and values is infinite and the types nest; tests exercise a handful of hand-written types with fixed contents.", "anchors": ["src/checkpoint/checkpoint_api.impl.h: serialize, deserialize", "src/checkpoint/dispatch/dispatch.impl.h: Traverse::with, serializeType, deserializeType", "src/checkpoint/container/*.h"]}
{"id": "C02", "title": "Reported size is exact", "statement": "getSize(v), the size of the buffer returned by serialize(v), and the number of bytes actually written while serializing v are the same number, so serialize never fails with 'Sizer reported ..., but Packer used ...' for an object whose serialize function treats sizing and packing alike.", "quantifier": "all types and values as in C01, both build modes", "why_tests_cant": "A single nested combination where sizing and packing diverge breaks it; tests compare sizes for a few types only.", "anchors": ["src/checkpoint/dispatch/dispatch.impl.h: Standard::size, validatePackerBufferSize, packBuffer", "src/checkpoint/serializers/sizer.cc: Sizer::contiguousBytes", "src/checkpoint/serializers/packer.impl.h: PackerBuffer::contiguousBytes"]}
{"id": "C03", "title": "Serialization stays inside its buffer", "statement": "While serializing v into a buffer of getSize(v) bytes, every write is inside the buffer and every byte of the buffer is written; memory before and after a caller-supplied buffer is left untouched.", "quantifier": "all types and values as in C01, any surrounding memory contents, both build modes", "why_tests_cant": "The packer performs no bounds check, so safety depends on the sizing pass for every input; a test observes only its own inputs and cannot see silent overruns.", "anchors": ["src/checkpoint/serializers/packer.impl.h: contiguousBytes", "src/checkpoint/serializers/memory_serializer.h: getSpotIncrement"]}
{"id": "C04", "title": "Deserialization consumes exactly what was written", "statement": "Deserializing the bytes produced by serialize(v) reads exactly those bytes: whatever data precedes or follows them in memory is neither read nor influences the resulting object.", "quantifier": "all types and values as in C01, all preceding and following data, both build modes", "why_tests_cant": "An over-read by one byte is invisible unless the neighbouring memory happens to matter.", "anchors": ["src/checkpoint/serializers/unpacker.impl.h: contiguousBytes", "src/checkpoint/dispatch/dispatch.impl.h: deserializeType"]}
{"id": "C05", "title": "Object sequences on one stream", "statement": "If a sequence of objects, of possibly different types, is written to one stream with serializeToStream, then reading the stream with deserializeFromStream at the same sequence of types returns copies of the objects in the same order and leaves the stream positioned right after the last one.", "quantifier": "all finite sequences of (type, value) pairs, any data following them in the stream, both build modes", "why_tests_cant": "The property ranges over arbitrarily long heterogeneous sequences.", "anchors": ["src/checkpoint/checkpoint_api.impl.h: serializeToStream, deserializeFromStream", "src/checkpoint/serializers/stream_serializer.h: StreamPacker, StreamUnpacker"]}
{"id": "C06", "title": "Truncated stream is reported", "statement": "If the bytes of a serialized object are cut short at any position, deserializing from a stream holding them throws std::runtime_error; it never returns an object.", "quantifier": "all types and values as in C01, all cut positions, both build modes", "why_tests_cant": "Every prefix of every encoding has to be considered.", "anchors": ["src/checkpoint/serializers/stream_serializer.h: StreamUnpacker::contiguousBytes", "src/checkpoint/checkpoint_api.impl.h: deserializeFromStream"]}
{"id": "C07", "title": "The encoding does not depend on the medium", "statement": "serialize into a library buffer, serialize into a caller's buffer, serializeToFile and serializeToStream produce byte-for-byte the same data for the same object, so data written through one can be read through any other.", "quantifier": "all types and values as in C01, both build modes", "why_tests_cant": "Equality of four code paths for all inputs.", "anchors": ["src/checkpoint/serializers/serializers_headers.h: Packer, PackerUserBuf, PackerIO, StreamPacker", "src/checkpoint/checkpoint_api.impl.h: serialize, serializeToFile, serializeToStream"]}
{"id": "C08", "title": "File round trip and replacement", "statement": "When no system call fails, after serializeToFile(v, f) the file f holds exactly getSize(v) bytes (older, longer contents are gone) and deserializeFromFile<T>(f) returns an object observably equal to v.", "quantifier": "all types and values as in C01, all previous contents of the file, both build modes", "why_tests_cant": "All prior file states and all objects.", "anchors": ["src/checkpoint/buffer/io_buffer.cc: setupForWrite, setupForRead, closeFile", "src/checkpoint/checkpoint_api.impl.h: serializeToFile, deserializeFromFile"]}
{"id": "C09", "title": "File-system failures are never silent", "statement": "If any system call that serializeToFile or deserializeFromFile relies on (open, fstat, space allocation, ftruncate, fsync, mmap, msync, munmap, close) fails, the call does not return normally.", "quantifier": "every system call position, every failing subset", "why_tests_cant": "Fault injection at each syscall is not available to the unit tests, and errors such as EIO or ENOSPC cannot be produced on demand.", "anchors": ["src/checkpoint/buffer/io_buffer.cc: setupForRead, setupForWrite, closeFile"]}
{"id": "C10", "title": "Serializing is read-only and repeatable", "statement": "getSize, serialize, serializeToFile, serializeToStream and getMemoryFootprint leave the object unchanged, and serializing it again yields the same bytes.", "quantifier": "all types and values as in C01, both build modes", "why_tests_cant": "The same user function is used for reading and writing through a non-const reference, so accidental modification must be excluded for every input.", "anchors": ["src/checkpoint/dispatch/dispatch.impl.h: Traverse::with", "src/checkpoint/container/*.h: serialize"]}
{"id": "C11", "title": "Wrong root type is detected", "statement": "Deserializing as type U a buffer or stream produced by serializing a different type T throws and delivers no object, in both build modes, as long as fewer than 65536 types are registered in the program.", "quantifier": "all pairs of distinct types, all values", "why_tests_cant": "Quantifies over all pairs of types.", "anchors": ["src/checkpoint/dispatch/dispatch.impl.h: withTypeIdx", "src/checkpoint/dispatch/type_registry.h: getTypeIdx, validateIndex"]}
{"id": "C12", "title": "Nested type mismatches are detected under error checking", "statement": "With serialization error checking enabled, if at some point the reader expects an object (at any nesting depth) of another type than the writer wrote at that point, deserialization throws a serialization error instead of reinterpreting the bytes, and none of the bytes of the mismatching object are interpreted.", "quantifier": "all pairs of reader/writer types at all positions, all nesting depths", "why_tests_cant": "All pairs of diverging user serializers.", "anchors": ["src/checkpoint/dispatch/dispatch.impl.h: withTypeIdx, Traverse::with"]}
{"id": "C13", "title": "Error depth equals nesting depth", "statement": "With error checking enabled a serialization error that originates d levels below the deserialized root object reaches the caller with depth d: exactly one level is added per enclosing object.", "quantifier": "all nesting depths and paths", "why_tests_cant": "All nesting depths.", "anchors": ["src/checkpoint/dispatch/dispatch.impl.h: serialization_error, Traverse::with"]}
{"id": "C14", "title": "Type identifiers are unique and recognisable", "statement": "For any order in which up to 65536 types are registered, two different types never share a type identifier and every identifier passes the validity check, and words lacking the marker bytes never pass it.", "quantifier": "all registration orders and lengths up to the 16-bit limit, all 32-bit words", "why_tests_cant": "Depends on link order and the number of instantiated types; a test binary fixes both.", "anchors": ["src/checkpoint/dispatch/type_registry.h: getIndex, Registrar, validateIndex"]}
{"id": "C15", "title": "Sizing/packing disagreement is reported", "statement": "If a user-defined serialize function packs a different number of bytes than it sized, serialize to a memory buffer reports an error (throws) rather than returning a buffer or corrupting memory.", "quantifier": "all user-defined mode-dependent serialize functions and values", "why_tests_cant": "All user functions.", "anchors": ["src/checkpoint/dispatch/dispatch.impl.h: validatePackerBufferSize, packBuffer", "tests/unit/test_serialization_error_checking.cc"]}
{"id": "C16", "title": "Sequence containers keep length, order and capacity", "statement": "A deserialized vector, vector<bool>, array, list, deque or queue has the same number of elements as the original, element i is a copy of element i, and a vector's capacity is at least the original's capacity.", "quantifier": "all element types, lengths and contents", "why_tests_cant": "Unbounded lengths and element types.", "anchors": ["src/checkpoint/container/vector_serialize.h: serializeVectorMeta, constructVectorData, serialize", "src/checkpoint/container/list_serialize.h: serializeOrderedContainer", "src/checkpoint/container/queue_serialize.h: serializeQueueLikeContainer"]}
{"id": "C17", "title": "Associative containers keep their contents", "statement": "A deserialized (multi)map or (multi)set holds the same elements as the original: ordered ones iterate in the same order including the relative order of equivalent keys, unordered ones hold the same multiset of elements; no element is lost or duplicated.", "quantifier": "all key/value types, any strict weak order, any hash placement, all contents", "why_tests_cant": "Any comparator/hash and any insertion history.", "anchors": ["src/checkpoint/container/map_serialize.h: deserializeEmplaceElems, serializeMapLikeContainer"]}
{"id": "C18", "title": "Nullness survives", "statement": "A null unique_ptr or empty optional deserializes to null/empty, and a non-null or engaged one to non-null/engaged with an equal value, even when deserialized in place over a target in the opposite state.", "quantifier": "all pointee types and values, all states of the target", "why_tests_cant": "All combinations of source and target state at every nesting position.", "anchors": ["src/checkpoint/container/unique_ptr_serialize.h: serialize", "src/checkpoint/container/optional_serialize.h: serialize, deserializeOptional"]}
{"id": "C19", "title": "Variants keep their alternative", "statement": "A deserialized std::variant holds the same alternative with an equal value, whatever alternative the target held before; a valueless variant is restored as valueless.", "quantifier": "all alternative lists, all active alternatives, all target states", "why_tests_cant": "All alternative lists and states.", "anchors": ["src/checkpoint/container/variant_serialize.h: SerializeEntry, serialize"]}
{"id": "C20", "title": "In-place deserialization replaces the target", "statement": "deserializeInPlace into an existing object gives the same observable value as deserializing into a fresh object, whatever the target contained.", "quantifier": "all types and values, all prior contents of the target", "why_tests_cant": "All prior contents of the target for all types.", "anchors": ["src/checkpoint/checkpoint_api.impl.h: deserializeInPlace", "src/checkpoint/container/map_serialize.h: deserializeEmplaceElems", "src/checkpoint/container/queue_serialize.h: deserializeQueueElems", "src/checkpoint/container/list_serialize.h: deserializeOrderedElems"]}
{"id": "C21", "title": "Polymorphic pointers restore the dynamic class", "statement": "A unique_ptr<Base> (or a raw pointer reconstructed the documented way) deserializes to an object of the same dynamic class as the original with the members of every class on its inheritance chain equal to the original's.", "quantifier": "all class hierarchies of any depth using the virtual-serialize macros, all dynamic classes, all member values", "why_tests_cant": "All hierarchies and all dynamic types.", "anchors": ["src/checkpoint/dispatch/vrt/virtual_serialize.h: reconstructPointedToObjectIfNeeded, virtualSerialize", "src/checkpoint/dispatch/vrt/derived.h: checkpoint_virtual_serialize_derived_from"]}
{"id": "C22", "title": "Each class on the chain is serialized exactly once, base first", "statement": "Serializing a polymorphic object through a base reference runs the serialize function of every class on its inheritance chain exactly once, in root-to-derived order, in every mode.", "quantifier": "all hierarchies, all dynamic classes, all modes; classes declared byte-copyable have no serialize function and are the subject of C26", "why_tests_cant": "Arbitrary depth of inheritance.", "anchors": ["src/checkpoint/dispatch/vrt/derived.h: _checkpointDynamicSerialize", "src/checkpoint/dispatch/vrt/base.h: _checkpointDynamicSerialize", "src/checkpoint/dispatch/dispatch_serializer_nonbyte.h: apply"]}
{"id": "C23", "title": "Virtual registries resolve correctly in any registration order", "statement": "Whatever order classes and serializers are registered in, looking up the index of a class yields the constructor and allocator of that very class, and looking up a serializer index yields the function for that very (class, serializer) pair; unknown indices are rejected.", "quantifier": "all registration sequences, all classes and serializers", "why_tests_cant": "Registration happens during static initialisation in unspecified order.", "anchors": ["src/checkpoint/dispatch/vrt/object_registry.h: getRegistry, makeObjIdx", "src/checkpoint/dispatch/vrt/serializer_registry.h: getObjIdx, getBaseIdx, linkDerivedToBase"]}
{"id": "C24", "title": "Dynamic class mismatch in place is caught", "statement": "Deserializing in place over an existing polymorphic object whose dynamic class differs from the serialized one stops with an assertion failure before any member is overwritten; if the classes agree the members are restored.", "quantifier": "all hierarchies, all pairs of dynamic classes", "why_tests_cant": "All pairs of classes.", "anchors": ["src/checkpoint/dispatch/vrt/virtual_serialize.h: SerializeVirtualTypeIfNeeded"]}
{"id": "C25", "title": "Arrays of polymorphic objects round trip", "statement": "A std::vector or std::array of objects (by value) whose class uses virtual serialization deserializes to equal elements, like any other element type.", "quantifier": "all lengths and element values", "why_tests_cant": "All lengths; only length >= 2 exposes a loss.", "anchors": ["src/checkpoint/dispatch/dispatch_serializer_nonbyte.h: apply", "src/checkpoint/dispatch/dispatch.impl.h: serializeArray"]}
{"id": "C26", "title": "Virtual dispatch state does not leak between objects", "statement": "After an object has been (de)serialized, whatever its class, the next polymorphic object handled by the same serializer is again dispatched by its dynamic class.", "quantifier": "all sequences of objects", "why_tests_cant": "All sequences of objects on one serializer.", "anchors": ["src/checkpoint/dispatch/dispatch_serializer_nonbyte.h: apply", "src/checkpoint/serializers/base_serializer.h: setVirtualDisabled", "src/checkpoint/dispatch/vrt/serializer_registry.h: setVirtualDisabled"]}
{"id": "C27", "title": "Memory footprint lower bounds", "statement": "getMemoryFootprint(v, k) is at least k + sizeof(v) and grows by exactly k with the offset; for a vector of scalars it is exactly sizeof(vector) + sizeof(element) * capacity, and for a string sizeof(string) + capacity.", "quantifier": "all types and values, all offsets", "why_tests_cant": "All values; container internals (capacity) vary.", "anchors": ["src/checkpoint/checkpoint_api.impl.h: getMemoryFootprint", "src/checkpoint/serializers/footprinter.h: countBytes, addBytes, contiguousBytes", "src/checkpoint/container/vector_serialize.h: serialize"]}
{"id": "C28", "title": "Construction precedence and single construction", "statement": "When an object is rebuilt, exactly one construction mechanism runs: the tagged constructor if there is one, otherwise a reconstruct function, otherwise the default constructor; if none exists the program is rejected (or aborted where failure is allowed), never left with unconstructed memory.", "quantifier": "all combinations of available construction mechanisms", "why_tests_cant": "All trait combinations.", "anchors": ["src/checkpoint/dispatch/reconstructor.h: Reconstructor::construct, constructAllowFail", "src/checkpoint/traits/reconstructor_traits.h: ReconstructorTraits"]}
{"id": "C29", "title": "Caller-supplied buffer protocol", "statement": "The buffer callback passed to serialize is invoked exactly once, with exactly getSize(v); a non-null result is the memory that is filled and returned and is never freed by the library; a null result makes the library use its own buffer with identical contents.", "quantifier": "all types, values and callback results", "why_tests_cant": "All values and callback behaviours.", "anchors": ["src/checkpoint/dispatch/dispatch.impl.h: packBuffer, serializeType", "src/checkpoint/buffer/user_buffer.h: UserBuffer"]}
{"id": "C30", "title": "Ownership on the error path", "statement": "When deserialization fails with an exception, memory the library allocated for the object is released and memory supplied by the caller is not freed.", "quantifier": "all failure points, library- and caller-supplied memory, all sources (buffer, file, stream)", "why_tests_cant": "Every throwing point of every nested read.", "anchors": ["src/checkpoint/dispatch/dispatch.impl.h: deserializeType", "src/checkpoint/checkpoint_api.impl.h: deserializeFromFile, deserializeFromStream", "src/checkpoint/checkpoint_api.h: deserialize"]}
{"id": "C31", "title": "Crash while writing a checkpoint", "statement": "If the machine or process stops at any point during serializeToFile, a later deserializeFromFile of that file either returns the complete old or the complete new object or throws; it never returns a mixture.", "quantifier": "all crash points, all subsets of dirty pages that reached the disk", "why_tests_cant": "Crash points and page write-back orders cannot be enumerated by tests.", "anchors": ["src/checkpoint/buffer/io_buffer.cc: setupForWrite, closeFile", "src/checkpoint/checkpoint_api.impl.h: serializeToFile"]}
{"id": "C32", "title": "Data is durable when serializeToFile returns", "statement": "When serializeToFile returns normally every byte of the new contents has been handed to a successful synchronous flush, and the mapping and descriptor have been released.", "quantifier": "all objects and all system call outcomes", "why_tests_cant": "Durability is invisible to a process that re-reads its own page cache.", "anchors": ["src/checkpoint/buffer/io_buffer.cc: closeFile", "src/checkpoint/checkpoint_api.impl.h: serializeToFile"]}
{"id": "C33", "title": "Truncated file or buffer is reported", "statement": "If a file or memory buffer holds only a strict prefix of a serialized object, deserializing from it fails with an exception.", "quantifier": "all types and values, all cut positions", "why_tests_cant": "All cut positions; out-of-bounds reads are silent.", "anchors": ["src/checkpoint/serializers/unpacker.impl.h: contiguousBytes", "src/checkpoint/buffer/io_buffer.cc: setupForRead"]}
{"id": "C34", "title": "Distinct objects have distinct encodings", "statement": "If two objects of one type serialize to the same bytes they are observably equal, and no encoding of a type is a proper prefix of another encoding of the same type.", "quantifier": "all pairs of values of all types", "why_tests_cant": "Pairs of values over infinite sets.", "anchors": ["src/checkpoint/dispatch/dispatch.impl.h: serializeType"]}
{"id": "C35", "title": "Re-serialization is stable", "statement": "Serializing an object obtained by deserialization yields the original bytes (for objects without unordered containers), so checkpoint/restart can be repeated any number of times without drift.", "quantifier": "all types and values, any number of checkpoint/restart rounds", "why_tests_cant": "Any number of rounds.", "anchors": ["src/checkpoint/checkpoint_api.impl.h: serialize, deserialize"]}
{"id": "C36", "title": "Size arithmetic", "statement": "The size reported for a composite object is the sum of the sizes reported for its parts plus a fixed overhead per part (12 bytes per nested part under error checking, none otherwise, plus 12 bytes once for the root), and does not wrap as long as the total is below 2^64.", "quantifier": "all types and values", "why_tests_cant": "All compositions, including sizes near the word limit.", "anchors": ["src/checkpoint/serializers/sizer.cc: contiguousBytes", "src/checkpoint/dispatch/dispatch.impl.h: withTypeIdx, withMemUsed"]}
{"id": "C37", "title": "Independent serializations do not interfere", "statement": "Two objects (de)serialized concurrently with separate serializers give the same bytes and objects as when handled one after the other, for every interleaving of their steps.", "quantifier": "all schedules of all pairs of operations", "why_tests_cant": "Schedules cannot be enumerated by tests.", "anchors": ["src/checkpoint/serializers/base_serializer.h: BaseSerializer", "src/checkpoint/dispatch/dispatch.impl.h: Traverse::with"]}
{"id": "C38", "title": "Member count mismatches are detected under error checking", "statement": "With error checking enabled, if a class's reader handles fewer or more members than its writer did, deserialization throws instead of delivering an object.", "quantifier": "all pairs of diverging reader/writer member lists and all values", "why_tests_cant": "All values of the stray members.", "anchors": ["src/checkpoint/dispatch/dispatch.impl.h: withMemUsed, withTypeIdx", "tests/unit/test_serialization_error_checking.cc"]}
{"id": "C39", "title": "Kokkos View round trip", "statement": "A managed View of rank 0 to 8 deserializes to a View with the same label, runtime extents, layout and element values, whether its memory is contiguous or strided.", "quantifier": "all ranks, extents, layouts (left, right, stride) and element values", "why_tests_cant": "All extents and strides.", "anchors": ["src/checkpoint/container/view_serialize.h: serialize_impl, serializeLayout, constructView"]}
{"id": "C40", "title": "View element traversal is a bijection in row-major order", "statement": "Traversing a strided View visits every element exactly once in row-major index order, so packing and unpacking with different strides still pair up elements.", "quantifier": "all ranks 0..8 and all extents", "why_tests_cant": "All extents for nested loops of each rank.", "anchors": ["src/checkpoint/container/view_traverse_manual.h: TraverseManual"]}
{"id": "C41", "title": "View comparison decides equality", "statement": "The ViewEquality comparison of two Views with equal extents reports equal exactly when all elements are equal. Views with different labels or extents, or of which only one has gaps, are never reported equal.", "quantifier": "all ranks, extents and contents", "why_tests_cant": "All contents; only particular mismatch patterns expose a wrong verdict.", "anchors": ["src/checkpoint/container/view_equality.h: compare, compareStaticDim, compareData", "src/checkpoint/container/view_traverse_ndim.h: TraverseRecursive"]}
{"id": "C42", "title": "Kokkos UnorderedMap round trip", "statement": "A Kokkos::UnorderedMap deserializes to a map with the same capacity hint, the same keys and the same mapped values.", "quantifier": "all capacities, contents and hash placements", "why_tests_cant": "All hash placements.", "anchors": ["src/checkpoint/container/kokkos_unordered_map_serialize.h: serializeUnorderedMapElems, deserializeUnorderedMapElems"]}
{"id": "C43", "title": "No storage is lost by a successful deserialization", "statement": "After a successful deserialization every heap block allocated during it is owned by the resulting object; temporaries leave nothing behind.", "quantifier": "all types and values", "why_tests_cant": "Leaks have no observable effect on values.", "anchors": ["src/checkpoint/container/optional_serialize.h: deserializeOptional", "src/checkpoint/container/list_serialize.h: deserializeOrderedElems", "src/checkpoint/dispatch/allocator.h: Allocator"]}
{"id": "C44", "title": "Kokkos DynRankView round trip", "statement": "A DynRankView deserializes to a view with the same label, rank, extents, layout and element values; one that was never allocated deserializes to one that was never allocated.", "quantifier": "all ranks 0..7, extents, layouts and element values", "why_tests_cant": "The rank is a runtime value, and so are all extents and strides.", "anchors": ["src/checkpoint/container/view_serialize.h: serialize_impl for DynRankView"]}
{"id": "C45", "title": "Kokkos DynamicView round trip", "statement": "A DynamicView deserializes to a view with the same label, chunk size, elements and maximum extent, so that it can still grow as far as the original.", "quantifier": "all chunk sizes, sizes, maximum extents and element values", "why_tests_cant": "All sizes, including those beyond 32 bits.", "anchors": ["src/checkpoint/container/view_serialize.h: serialize for DynamicView"]}
{"id": "C46", "title": "Extents-only serialization of a View", "statement": "A View of rank 1 to 4 serialized by extents only produces bytes that depend on nothing but the extents; deserializing gives a newly allocated View with the label passed by the caller, the original extents and default elements.", "quantifier": "all ranks 1..4, extents, labels, element types and element values", "why_tests_cant": "Unboundedly many extents and contents; independence from the contents is a statement about pairs of runs.", "anchors": ["src/checkpoint/container/view_serialize.h: serializeExtentOnly"]}
{"id": "C47", "title": "Contents-only serialization of a View", "statement": "Deserializing the contents of a View into an existing View of the same extents replaces exactly its elements by copies: label, extents, layout and the memory between its elements are unchanged. If the extents differ an exception is thrown.", "quantifier": "all views, targets, layouts, gaps and element values", "why_tests_cant": "Requires that no memory outside the elements is touched, for every pair of layouts.", "anchors": ["src/checkpoint/container/view_serialize.h: serializeContentsOnly"]}
{"id": "C48", "title": "Compressed row graph and matrix round trip", "statement": "A StaticCrsGraph or CrsMatrix deserializes to one with the same entries, row map, values and number of columns (for a graph also the block offsets), whatever the target held before.", "quantifier": "all graphs and matrices, including empty and never allocated parts, and all targets", "why_tests_cant": "Unbounded family of sparsity patterns and targets.", "anchors": ["src/checkpoint/container/view_serialize.h: serialize for StaticCrsGraph and CrsMatrix"]}
{"id": "C49", "title": "Footprint of Kokkos containers", "statement": "The memory footprint reported for a View, a DynRankView or a DynamicView is its header plus the sum of what its elements take (or the size of the view object if that is larger), and the one reported for an UnorderedMap includes the storage owned by its keys and values.", "quantifier": "all views of static rank, dynamic rank and dynamic size, and all maps", "why_tests_cant": "Elements of arbitrary types with unbounded owned storage.", "anchors": ["src/checkpoint/container/view_serialize.h: serialize", "src/checkpoint/container/kokkos_unordered_map_serialize.h: serialize (footprinting)"]}
{"id": "C50", "title": "File calls release the descriptor and the mapping", "statement": "When a call that writes or reads a file returns or throws, the file is no longer mapped and its descriptor has been closed.", "quantifier": "all types, values, file contents and all sequences of failing system calls", "why_tests_cant": "Needs every system call of every run to be able to fail; leaked descriptors are invisible to value comparisons.", "anchors": ["src/checkpoint/buffer/io_buffer.h: IOBuffer::IOBuffer, ~IOBuffer", "src/checkpoint/buffer/io_buffer.cc: setupForRead, setupForWrite, closeFile"]}
{"id": "C51", "title": "Views in memory the host cannot access", "statement": "A View or DynRankView whose memory the host cannot access round trips like one in host memory: label, extents, strides and every element are restored, and the reserved space is the space used.", "quantifier": "all layouts, ranks, extents, contents (also of constant elements), targets, and all contents of uninitialized host memory", "why_tests_cant": "Needs a device, and the space reserved depends on elements of arbitrary types.", "anchors": ["src/checkpoint/container/view_serialize.h: serialize_impl for View and DynRankView, deepCopyWithLocalFence"]}
{"id": "C52", "title": "Documented patterns for raw and shared pointers", "statement": "An object whose raw and shared pointers are serialized as the documentation of reconstructPointedToObjectIfNeeded shows is restored with equal pointers: null where they were null, and otherwise pointing to an equal object of the same dynamic class.", "quantifier": "all lists of raw and shared pointer members, pointee types (polymorphic or not), pointers and previous contents of the target", "why_tests_cant": "The tests try single members; here any list of members, pointee types and dynamic classes is quantified over, with any previous state of the target.", "anchors": ["src/checkpoint/dispatch/vrt/virtual_serialize.h: reconstructPointedToObjectIfNeeded and its documentation", "src/checkpoint/dispatch/dispatch_virtual.h: documentation of raw pointers"]}
{"id": "C53", "title": "Which mechanism serializes an object", "statement": "For every type and serializer exactly one mechanism is used: byte-copyable types are copied, others are serialized by their member or free serialize function (object by object, a member function followed by serializeParent and serializeThis if both exist) or as an enumeration, and a footprinter uses sizeof for types that offer nothing. Types that offer nothing or several functions are rejected by the compiler. A serialize function that a class declares itself is the one that serializes it.", "quantifier": "all combinations of detected traits, serializers, inheritance chains and array lengths", "why_tests_cant": "Tests instantiate single classes; a combination that silently selects another mechanism compiles and passes.", "anchors": ["src/checkpoint/dispatch/dispatch_serializer_byte.h: SerializerDispatchByte", "src/checkpoint/dispatch/dispatch_serializer_nonbyte.h: applyElm, applyStatic, apply", "src/checkpoint/traits/serializable_traits.h: SerializableTraits", "src/checkpoint/dispatch/vrt/virtual_serialize_traits.h"]}
{"id": "C54", "title": "Serialize functions that branch and loop", "statement": "A serialize function that visits each member at most once and branches only on members it has visited before restores every member it visited to an equal one, leaves the others of the target as they were, reports the exact size and consumes exactly those bytes. The same holds with local variables, loops over containers and changes of the object in between, if the function takes the same way when it packs and when it unpacks; in particular vectors of pointers to objects of different classes are restored. A function that branches on a member it visits later may restore another member without any error, and a loop over a container that was not made large enough is undefined behaviour.", "quantifier": "all serialize functions made of visits, branches, loops, local variables and assignments, all objects and previous contents of the target", "why_tests_cant": "Each test has one fixed function and object; a wrong order of visit and branch shows only for particular values of source and target.", "anchors": ["src/checkpoint/dispatch/dispatch_serializer_nonbyte.h: BasicDispatcher", "src/checkpoint/dispatch/vrt/virtual_serialize.h: reconstructPointedToObjectIfNeeded", "tests/unit/test_virtual_serialize.cc: TestWrapper", "tests/unit/test_serialization_error_checking.cc"]}
{"id": "C55", "title": "Streams that cannot take everything", "statement": "serializeToStream never throws because of the state of the stream. If the stream accepts only part of the bytes, it receives exactly the leading bytes it accepts, whatever sequence of objects is written, and it is in a failed state afterwards exactly if something is missing; a stream that had failed before is left unchanged. Reading back what such a stream received restores every object that was written completely and then throws std::runtime_error; if the stream did not fail, everything is restored.", "quantifier": "all sequences of objects of all supported types, all previous contents of the stream and all numbers of bytes it accepts", "why_tests_cant": "The unit tests write to files that never fill up; the point of failure can fall at every byte of every object.", "anchors": ["src/checkpoint/serializers/stream_serializer.h: StreamPacker::contiguousBytes", "src/checkpoint/serializers/stream_serializer.h: StreamUnpacker::contiguousBytes", "src/checkpoint/checkpoint_api.impl.h: serializeToStream, deserializeFromStream"]}
{"id": "C56", "title": "Reading arbitrary bytes from a stream", "statement": "Reading an object from a stream that holds arbitrary bytes, in place or constructing it, always ends. Either it yields an object of the requested type, all of whose parts are objects of their types and whose ordered containers are in order, and has consumed a prefix of the stream; or it throws or fails an assertion. It never has undefined behaviour.", "quantifier": "all byte sequences, all types whose elements can be constructed (recursive and polymorphic classes included), all previous contents of the target, with and without type checking and assertions", "why_tests_cant": "The set of byte sequences is infinite; damaged sizes, flags, class indices and variant indices interact with every container at every depth, and termination for recursive types cannot be tested at all.", "anchors": ["src/checkpoint/serializers/stream_serializer.h: StreamUnpacker::contiguousBytes", "src/checkpoint/checkpoint_api.impl.h: deserializeFromStream, deserializeInPlaceFromStream", "src/checkpoint/container/vector_serialize.h", "src/checkpoint/container/map_serialize.h", "src/checkpoint/container/optional_serialize.h", "src/checkpoint/container/unique_ptr_serialize.h", "src/checkpoint/container/variant_serialize.h", "src/checkpoint/dispatch/vrt/virtual_serialize.h", "src/checkpoint/dispatch/vrt/object_registry.h"]}
{"id": "C57", "title": "What a failed read leaves behind", "statement": "If reading over an existing object throws (the data ends too early, a type does not match, an index is out of range), the object is still a valid object of its type: all its parts are objects of their types, ordered containers are in order, sizes do not exceed capacities. If a stream ends too early, the members of the object, in the order its serialize function visits them, and the elements of a tuple, pair or array of objects are: first those that have been restored, then at most one that is in between, then those that are as they were; an optional, a variant, an enumeration or a duration is either as it was or restored. Reading again from complete data restores the object, unless it contains containers that are appended to or pointers to polymorphic objects. Every object that was constructed during the failed call is part of the target or is destroyed.", "quantifier": "all byte sequences, all types whose elements can be constructed, all previous contents of the target; for the order of members all serializable values and all lengths of the stream below the full one", "why_tests_cant": "A test sees single failure points; the state after an exception depends on the type, on what the object held before and on the byte at which reading stops, at every nesting depth. Objects that are never destroyed are not visible in the result.", "anchors": ["src/checkpoint/checkpoint_api.impl.h: deserializeInPlace, deserializeInPlaceFromStream", "src/checkpoint/dispatch/dispatch.impl.h: Traverse::with", "src/checkpoint/dispatch/dispatch_serializer_nonbyte.h: applyStatic", "src/checkpoint/dispatch/allocator.h", "src/checkpoint/container/optional_serialize.h", "src/checkpoint/container/variant_serialize.h", "src/checkpoint/container/list_serialize.h", "src/checkpoint/container/queue_serialize.h", "src/checkpoint/container/map_serialize.h", "src/checkpoint/container/unique_ptr_serialize.h", "src/checkpoint/serializers/stream_serializer.h: StreamUnpacker::contiguousBytes"]}
{"id": "C58", "title": "Builds without assertions", "statement": "Any call of the library on any input, in a build with assertions, either ends in a failed assertion or does exactly what the same call does in a build without assertions: the same result or the same exception, and the same bytes, object, stream and file afterwards. So data written by one build can be read by the other, and no check whose failure is reported by an exception depends on assertions.", "quantifier": "all types, all values, all buffers, streams and files including damaged ones, all failures of the file system, views, maps, graphs, matrices, pointer patterns and users' functions included, with and without type checking", "why_tests_cant": "The test suite is built once; comparing two builds on all inputs needs an argument about the two programs. Whether an assertion's condition, or code placed only in one of the builds, has an effect on the result shows only on the inputs that reach it.", "anchors": ["src/checkpoint/common.h: checkpointAssert", "src/checkpoint/dispatch/vrt/object_registry.h: getObjIdx", "src/checkpoint/dispatch/vrt/virtual_serialize.h", "src/checkpoint/container/view_serialize.h", "src/checkpoint/container/view_equality.h", "src/checkpoint/checkpoint_api.impl.h"]}
{"id": "C59", "title": "Damaged data is treated alike on every medium", "statement": "Whatever bytes are read, from a stream, from memory or from a file, the calls end alike as long as the bytes do not run out: with the same object and the same number of bytes consumed, or with the same exception. Where the stream throws because it has ended, a read from memory that ends there goes out of bounds. So reading arbitrary bytes from memory always ends, with an object of the requested type or an error.", "quantifier": "all byte sequences, all types, all previous contents of the target, any memory before and after the bytes, with and without type checking and assertions; file reads without failing system calls", "why_tests_cant": "Damaged inputs form an infinite set; tests read each medium with data that was written for it.", "anchors": ["src/checkpoint/serializers/stream_serializer.h: StreamUnpacker::contiguousBytes", "src/checkpoint/serializers/unpacker.impl.h: contiguousBytes", "src/checkpoint/checkpoint_api.impl.h: deserialize, deserializeInPlace, deserializeFromFile, deserializeFromStream", "src/checkpoint/buffer/io_buffer.cc: setupForRead"]}
{"id": "C60", "title": "Data exchanged between programs with different classes", "statement": "If one program has all the classes and types of another and registers those it adds after them, every call on a type of the smaller program does the same in both programs, on every input, except that the smaller one refuses classes it does not have (out_of_range): both write the same bytes and read each other's data as the same objects. In general, a program that defines the same classes as the program that wrote the data, but registers types or classes in another order, either restores an equal object or throws.", "quantifier": "all pairs of programs of this kind, all types and values, Kokkos views and maps and objects that contain them included, all buffers, streams and files including damaged ones, with and without type checking and assertions", "why_tests_cant": "A test is one program. What another program, linked in another order or with more classes, does with the data is a statement about pairs of programs.", "anchors": ["src/checkpoint/dispatch/type_registry.h: Registrar, getTypeIdx", "src/checkpoint/dispatch/vrt/object_registry.h: Registrar, makeObjIdx, allocateConcreteType, constructConcreteType", "src/checkpoint/dispatch/vrt/virtual_serialize.h: SerializeVirtualTypeIfNeeded", "src/checkpoint/dispatch/dispatch.impl.h: withTypeIdx", "src/checkpoint/checkpoint_api.impl.h"]}
{"id": "C61", "title": "Calls made during static initialisation", "statement": "A call made while static initialisers of the program are still running does what the same call does after startup, so that data written then is restored later and data can be read, or it reports an error; and it does not change what later calls do.", "quantifier": "all programs, all prefixes of every order of static initialisation, all types, values and inputs, with and without type checking and assertions", "why_tests_cant": "The order of static initialisation is unspecified and fixed when a test binary is linked; a test runs after it has finished.", "anchors": ["src/checkpoint/dispatch/type_registry.h: Type<ObjT>::idx, getTypeIdx", "src/checkpoint/dispatch/vrt/object_registry.h: Type<ObjT>::idx, makeObjIdx", "src/checkpoint/dispatch/vrt/serializer_registry.h: Type<ObjT, SerializerT>::idx, getObjIdx, getBaseIdx, getObjIdxRef", "src/checkpoint/dispatch/vrt/link_derived_to_base_idx.h: linkDerivedToBase", "src/checkpoint/dispatch/vrt/derived.h: _checkpointDynamicTypeIndex", "src/checkpoint/dispatch/vrt/virtual_serialize.h: virtualSerialize"]}
{"id": "C62", "title": "What error messages say", "statement": "The message of every serialization_error thrown while reading, whatever the data, begins with one line that says which object is wrong and how: another type was found, with the name and identifier of the type found after \"got=\" and those of the type asked for after \"expected=\", or the sizes differ, with both sizes. It continues with one line for every object around that one, numbered 1, 2, ... from the inside out, that names its type; the last is the type passed to the call, and their number is the depth of the error. A serialization_error thrown while writing gives the type passed to the call and the two sizes that differ.", "quantifier": "all types and values, Kokkos views and maps and objects that contain them included, all buffers, streams and files including damaged ones, all objects read into, with and without type checking", "why_tests_cant": "A test compares the message of one error at one position. That the list of enclosing objects is complete and in order for an error at any position of any type is an invariant of the recursion.", "anchors": ["src/checkpoint/dispatch/dispatch.impl.h: withTypeIdx, withMemUsed, Traverse::with, validatePackerBufferSize", "src/checkpoint/dispatch/dispatch.impl.h: serialization_error", "src/checkpoint/dispatch/type_registry.h: getTypeNameForIdx, getTypeName"]}
{"id": "C63", "title": "Kokkos objects inside other objects", "statement": "An object with Kokkos::View, DynRankView, DynamicView and UnorderedMap members next to ordinary ones, directly or within nested classes, vectors, optionals and unique_ptrs, is serialized without being changed, and deserializing it reads exactly the bytes written and gives a copy: every view at every place has the label, extents and elements of the original one, every map the keys and values, every ordinary member is equal, vectors have the same length, and what was empty or null is so again. This holds for new objects and for objects read in place that are in use already, whatever their views, optionals and pointers hold and however long their vectors are, as long as their maps are empty. The views are not of constant elements and are managed by Kokkos, and the maps have no key left over in a free slot (C39 and C42 say what happens otherwise).", "quantifier": "all nestings of these types and members, all values, ranks, layouts and extents, all objects read into, any bytes before and after, with and without type checking", "why_tests_cant": "The tests of views serialize a view by itself or in one fixed struct. That the parts do not disturb each other in any nesting needs a proof by induction on the type.", "anchors": ["src/checkpoint/container/view_serialize.h: serialize, serialize_impl", "src/checkpoint/container/kokkos_unordered_map_serialize.h: serialize", "src/checkpoint/container/vector_serialize.h: serialize, constructVectorData", "src/checkpoint/container/optional_serialize.h: serialize, deserializeOptional", "src/checkpoint/container/unique_ptr_serialize.h: serialize", "src/checkpoint/dispatch/dispatch.impl.h: operator|, Traverse::with, serializeArray"]}
{"id": "C64", "title": "Kokkos objects on every medium", "statement": "A Kokkos::View, DynRankView, DynamicView or UnorderedMap, or an object containing such members, is written as the same bytes by serialize, serializeToStream and serializeToFile, and read back as a copy (as in C63) from each of them in place. Several such objects written to one stream come back in order and leave the stream just behind the last one. A stream that ends inside such an object is reported with a std::runtime_error. A serializeToFile that returns normally has written the whole object durably and closed the file, whatever the file system did; one that does not return normally follows a failed system call. Any other bytes, damaged ones included, give the same result or the same error from a buffer, a stream and a file, until a stream ends.", "quantifier": "all nestings of these types, all values, all lists of objects on a stream, all places to cut a stream, all patterns of failing system calls, all byte sequences", "why_tests_cant": "The tests of views use buffers in memory only, and one fixed view each. Failing system calls, cut streams and arbitrary bytes are not tried with them.", "anchors": ["src/checkpoint/checkpoint_api.impl.h: serializeToFile, deserializeInPlaceFromFile, serializeToStream, deserializeInPlaceFromStream", "src/checkpoint/dispatch/dispatch.impl.h: Standard::pack, Standard::unpack", "src/checkpoint/buffer/io_buffer.cc: setupForWrite, setupForRead, ~IOBuffer", "src/checkpoint/container/view_serialize.h: serialize, serialize_impl"]}
{"id": "C65", "title": "Builds with and without error checking", "statement": "Data written by a program built with serialization error checking and read by the same program built without it, or the other way round, is either restored as it was or rejected with an exception. The memory footprint of an object is the same in both builds.", "quantifier": "all types and values, both directions, all orders in which the two builds register their types", "why_tests_cant": "One test program is built in one way only; data is never exchanged between two builds. Whether the type checks of one build can be taken for data by the other depends on all values.", "anchors": ["src/checkpoint/dispatch/dispatch.impl.h: Standard::pack, Standard::unpack, withTypeIdx, Traverse::with", "src/checkpoint/dispatch/type_registry.h", "src/checkpoint/serializers/base_serializer.h"]}
{"id": "C66", "title": "Footprint of a restored object", "statement": "getMemoryFootprint reports for a new object deserialized from the bytes of v the same number as for v, so memory measured before a checkpoint also predicts what the restored object needs. An object that is read in place over one in use takes no less than v.", "quantifier": "all types and values, all objects read into, all offsets, with and without type checking", "why_tests_cant": "Tests compare footprints with fixed expected numbers for fresh objects; they do not compare an object with its copy, and capacities and nestings are unbounded.", "anchors": ["src/checkpoint/checkpoint_api.impl.h: getMemoryFootprint, serialize, deserialize, deserializeInPlace", "src/checkpoint/serializers/footprinter.h", "src/checkpoint/container/string_serialize.h: serialize", "src/checkpoint/container/vector_serialize.h: serialize, serializeVectorMeta"]}
{"id": "C67", "title": "Footprint of objects that hold Kokkos containers", "statement": "The memory footprint reported for an object with Kokkos views and maps among its members, elements and pointees, at any depth, is the sum of what these parts are reported to take on their own (or the size of the object if that is larger); so no view or map inside it is reported to take more than the whole.", "quantifier": "all nestings of classes, tuples, vectors, optionals and unique_ptrs around views of static rank, dynamic rank and dynamic size, maps, and plain values; with and without type checking; all offsets", "why_tests_cant": "Tests measure single containers with fixed contents; nestings and sizes are unbounded.", "anchors": ["src/checkpoint/checkpoint_api.impl.h: getMemoryFootprint", "src/checkpoint/container/view_serialize.h: serialize", "src/checkpoint/container/kokkos_unordered_map_serialize.h: serialize (footprinting)", "src/checkpoint/container/vector_serialize.h: serialize (footprinting)", "src/checkpoint/container/optional_serialize.h: serialize", "src/checkpoint/container/unique_ptr_serialize.h: serialize"]}
{"id": "C68", "title": "Classes of a hierarchy that were not declared are reported", "statement": "Serializing, measuring or reading an object through its polymorphic base fails when one of the classes it derives from was not declared to the library (SerializableBase/SerializableDerived or the corresponding macros), before anything is transferred; it never succeeds while leaving out the members of that class. When every class is declared, the serialize function of each runs once.", "quantifier": "all hierarchies, all choices of declared classes, all registration orders, all objects, every serializer and mode", "why_tests_cant": "Tests use correctly declared hierarchies of fixed depth; whether the check catches every missing declaration depends on all hierarchies and choices.", "anchors": ["src/checkpoint/dispatch/vrt/derived.h: checkpoint_virtual_serialize_derived_from", "src/checkpoint/dispatch/vrt/base.h: checkpoint_virtual_serialize_root", "src/checkpoint/dispatch/vrt/inheritance_assert_helpers.h: assertTypeIdxMatch", "src/checkpoint/dispatch/vrt/virtual_serialize.h: virtualSerialize"]}
{"id": "C69", "title": "Traversals by serializers of the user's own", "statement": "Traverse::with<T, MySerializer>(obj), where MySerializer derives from BaseSerializer in mode None, calls MySerializer::contiguousBytes with exactly the bytes that serialize writes for obj in a build without error checking, in order, without the type number and the size of the root object; it does so in builds with and without error checking alike, until a call throws, and leaves obj unchanged. The only exception: when the traversal comes to an object of a class derived from a polymorphic class, it fails an assertion, or calls an empty function in builds without assertions.", "quantifier": "all programs, all object types, all objects, all user-defined serializers that leave the bytes they are handed unchanged (and may throw), both builds", "why_tests_cant": "The unit test adds up the bytes of one fixed object in the build it was compiled for; it neither looks at the bytes nor compares the builds.", "anchors": ["src/checkpoint/dispatch/dispatch.impl.h: Traverse::with, withTypeIdx, withMemUsed", "src/checkpoint/serializers/base_serializer.h: BaseSerializer", "src/checkpoint/serializers/serializers_headers.h: checkpoint_serializer_variadic_args", "tests/unit/test_traversal.cc: TestTraverse", "examples/checkpoint_example_traversal.cc: PrintBytesTraverse"]}
{"id": "C70", "title": "Serializers with a dispatcher of their own", "statement": "Traverse::with<T, MySerializer>(obj), where MySerializer (in mode None, Packing or Sizing) names a DispatcherType that is specialised for some types, hands the specialisation each object of such a type that is not inside another such object, exactly once and in the place where its bytes would be, and calls contiguousBytes with exactly the remaining bytes of obj, in order. Objects that are handed over are not visited any further. Enumerations and byte-copyable objects are never handed over, even if the dispatcher is specialised for their types. Put in their places, the bytes of the objects handed over complete the bytes that the library's own serializers write. The only exception: when the traversal comes to an object of a class derived from a polymorphic class, it fails an assertion, or calls an empty function in builds without assertions.", "quantifier": "all programs, all object types, all objects, all sets of specialised types, all user-defined serializers that leave the bytes and objects they are handed unchanged (contiguousBytes may throw), three modes, both builds", "why_tests_cant": "The unit test counts the vectors and their elements of one fixed object in mode None; it does not look at the order, the remaining bytes, the types that are not handed over, nested objects or other modes.", "anchors": ["src/checkpoint/dispatch/dispatch_serializer_nonbyte.h: SerializerDispatchNonByte::applyStatic, apply", "src/checkpoint/dispatch/dispatch_serializer_byte.h: SerializerDispatchByte", "src/checkpoint/dispatch/dispatch.impl.h: Traverse::with", "src/checkpoint/serializers/base_serializer.h: DispatcherType", "tests/unit/test_traversal.cc: CustomDispatch, TestTraverse2", "examples/checkpoint_example_traversal.cc: CustomDispatch"]}
{"id": "C71", "title": "Both traversals of views give the same data", "statement": "The traversal of non-contiguous Kokkos views that is selected with CHECKPOINT_KOKKOS_NDIM_TRAVERSE=1 (one recursion for every rank, with dimensions that are known at compile time or not) changes nothing that can be observed: such a build writes the same bytes as the default build, reports the same sizes and footprints, and reads every data the other has written into a view with the same label, extents, strides and elements. For views with LayoutLeft or LayoutRight and for DynamicViews the two builds also read arbitrary other bytes alike, down to the errors.", "quantifier": "all programs, element types, ranks up to 8, mixtures of compile-time and runtime dimensions, layouts, spans, views (for reading LayoutStride: views whose elements lie at different places), all modes and serializers, memory and streams, both builds", "why_tests_cant": "One build has only one of the two traversals, and the tests are built with the default one; tests could only compare a few ranks, layouts and contents.", "anchors": ["src/checkpoint/container/view_traverse_ndim.h: TraverseRecursive, TraverseRecurImpl, TraverseRecurImplBase", "src/checkpoint/container/view_traverse_manual.h: TraverseManual", "src/checkpoint/container/view_serialize.h: serialize_impl, serialize(s, DynamicView), CHECKPOINT_KOKKOS_NDIM_TRAVERSE", "src/checkpoint/container/view_traits_extract.h: CountDims"]}
{"id": "C72", "title": "Damaged data of Kokkos views and maps", "statement": "Reading a Kokkos::View, DynRankView, DynamicView or UnorderedMap, or an object that contains such at any depth (in classes, vectors, optionals and unique pointers), from a stream that holds arbitrary bytes always ends: with an object that can be used (a view allocated or never allocated, with memory for all of its elements, every element an object of the element type; a map whose keys differ), having consumed a prefix of the stream, or with an exception or a failed assertion; never with undefined behaviour and never by ending the program.", "quantifier": "all programs, view types (element types, ranks up to 8, layouts, constant or not) and map types, all classes with such members, all byte strings, all views and maps read into, builds with and without error checking", "why_tests_cant": "The tests read data that was written by a serializer or cut short; no number of damaged inputs covers all byte strings, and reading past an allocation need not show.", "anchors": ["src/checkpoint/container/view_serialize.h: serialize_impl(s, Kokkos::View), serialize_impl(s, Kokkos::DynRankView), serialize(s, Kokkos::Experimental::DynamicView), serialize_const, serialize(s, LayoutStride/LayoutLeft/LayoutRight), serializeViewLabel", "src/checkpoint/container/view_traverse_manual.h: TraverseManual", "src/checkpoint/dispatch/dispatch.impl.h: serializeArray, withTypeIdx, withMemUsed", "src/checkpoint/checkpoint_api.impl.h: deserializeFromStream", "src/checkpoint/container/kokkos_unordered_map_serialize.h: serialize, deserializeInsertElems", "src/checkpoint/container/vector_serialize.h: serialize", "src/checkpoint/container/optional_serialize.h: serialize", "src/checkpoint/container/unique_ptr_serialize.h: serialize"]}
{"id": "C73", "title": "State of a stream after a call, and streams that throw", "statement": "A call that reads an object from a std::istream, whether it returns or throws, either extracts exactly the leading bytes it used and leaves the stream good, so that the next call continues there, or has found too little data: then the stream is empty and failed, and the exception is std::runtime_error, or std::ios_base::failure if the caller has made the stream throw. Data of a proper prefix of an object always has the second effect; an object of another type leaves the stream good and directly behind the number of the type. Every call on a stream that has failed throws and leaves the stream as it was. A stream that throws changes no result: what is read is the same object. Objects written to a std::ostream with limited room leave in it the leading bytes that fit; the call ends with std::ios_base::failure exactly if they do not all fit and the stream throws.", "quantifier": "all programs, types, objects (also with Kokkos views and maps inside), all bytes in the stream, all objects read into, streams with and without exceptions, all amounts of room, builds with and without error checking", "why_tests_cant": "The tests use streams that hold complete data and never look at the stream after an exception; they set no exception mask. The claim is about every byte string and every amount of room.", "anchors": ["src/checkpoint/serializers/stream_serializer.h: StreamPacker::contiguousBytes, StreamUnpacker::contiguousBytes", "src/checkpoint/checkpoint_api.impl.h: serializeToStream, deserializeFromStream, deserializeInPlaceFromStream"]}
{"id": "C74", "title": "Restarting objects with Kokkos views any number of times", "statement": "An object that contains Kokkos views (of static or dynamic rank, of any layout, and of dynamic size) is written, read into a new object, which is written again, and so on. The bytes written are the same every time, and from the first restart on the program has the same object every time, including the capacities of its vectors and the strides of its views.", "quantifier": "all programs whose constructors reserve no capacity, all objects with such views and plain members at any depth of classes, vectors, optionals and unique pointers, all numbers of restarts, builds with and without error checking", "why_tests_cant": "The tests write and read every object once; a change that shows after the second or tenth restart, or only for padded or unallocated views, is not seen.", "anchors": ["src/checkpoint/container/view_serialize.h: serialize_impl(s, Kokkos::View), serialize_impl(s, Kokkos::DynRankView), serialize(s, Kokkos::Experimental::DynamicView)", "src/checkpoint/container/vector_serialize.h: serialize, serializeVectorMeta", "src/checkpoint/container/optional_serialize.h: serialize", "src/checkpoint/container/unique_ptr_serialize.h: serialize", "src/checkpoint/checkpoint_api.impl.h: serialize, deserialize"]}
{"id": "C75", "title": "The data of objects with Kokkos views and maps is unambiguous", "statement": "If two objects of one type that contain Kokkos views and maps are written as the same bytes, or the bytes of one are the beginning of those of the other, the bytes are the same and the objects have the same contents: plain members are equal up to capacities, views have the same label, extents, strides if they are part of the type's layout, and, if both are allocated, equal elements, maps have the same keys and values, vectors the same length, and optionals and pointers are both empty or both not. So are objects followed by arbitrary further data.", "quantifier": "all programs, all types made of views, maps and plain types with classes, vectors, optionals and unique pointers, all pairs of objects, all bytes that follow, builds with and without error checking", "why_tests_cant": "A test compares the data of a few pairs of objects; that no pair of different objects has the same data is a statement about all pairs.", "anchors": ["src/checkpoint/container/view_serialize.h: serialize_impl(s, Kokkos::View), serialize_impl(s, Kokkos::DynRankView), serialize(s, Kokkos::Experimental::DynamicView)", "src/checkpoint/container/kokkos_unordered_map_serialize.h: serialize", "src/checkpoint/checkpoint_api.impl.h: serializeToStream"]}
{"id": "C76", "title": "Footprint of restored objects with Kokkos views", "statement": "getMemoryFootprint reports for a new object that was deserialized from the bytes of an object with Kokkos views among its members, elements and pointees the same number as for that object, also if the memory of its views had padding that the new views do not have.", "quantifier": "all programs whose constructors reserve no capacity, all nestings of classes, vectors, optionals and unique pointers around views of static rank, dynamic rank and dynamic size and plain values, all offsets, builds with and without error checking", "why_tests_cant": "Tests measure objects they have just made; they do not compare with restored ones, and layouts, capacities and nestings are unbounded.", "anchors": ["src/checkpoint/checkpoint_api.impl.h: getMemoryFootprint, serialize, deserialize", "src/checkpoint/container/view_serialize.h: serialize_impl(s, Kokkos::View), serialize_impl(s, Kokkos::DynRankView), serialize(s, Kokkos::Experimental::DynamicView)", "src/checkpoint/container/vector_serialize.h: serialize", "src/checkpoint/serializers/footprinter.h"]}
{"id": "C77", "title": "Kokkos maps restarted again and again", "statement": "Writing a Kokkos::UnorderedMap and reading it into an empty map, any number of times in a row, always succeeds and leaves the keys, the mapped values and the capacity as they were.", "quantifier": "all numbers of restarts, all key and value types without unordered containers, all maps, all placements of keys and all rules by which Kokkos rounds capacities, builds with and without error checking", "why_tests_cant": "The unit tests restore a map once; effects that add up, or that appear only in what is written of a restored map, need chains of any length.", "anchors": ["src/checkpoint/container/kokkos_unordered_map_serialize.h: serialize, serializeKokkosUnorderedMapElems, deserializeInsertElems", "src/checkpoint/container/container_serialize.h: serializeContainerSize, serializeContainerCapacity"]}
{"id": "C78", "title": "Damaged data does not inflate", "statement": "Whatever bytes a call of deserialize, deserializeInPlace, deserializeFromStream or deserializeInPlaceFromStream is given, if it returns an object then getSize reports for that object at most as many bytes as the call consumed, and serialize and serializeToStream write no more.", "quantifier": "all byte sequences, all types and nestings, all targets that may be read into, builds with and without error checking", "why_tests_cant": "The unit tests deserialize only what they have serialized; the inputs here are all byte sequences that happen to be accepted, for all types.", "anchors": ["src/checkpoint/checkpoint_api.impl.h: getSize, serialize, deserialize, deserializeInPlace, serializeToStream, deserializeFromStream", "src/checkpoint/container/map_serialize.h: deserializeEmplaceElems", "src/checkpoint/container/variant_serialize.h: serialize, SerializeEntry", "src/checkpoint/container/vector_serialize.h: serializeVectorMeta, constructVectorData", "src/checkpoint/container/unique_ptr_serialize.h: serialize"]}
{"id": "C79", "title": "One value and its bytes", "statement": "The bytes of one plain value inside an object (an arithmetic value, enum, duration, byte-copied object or some characters of a string, however deeply nested, also in an element of a Kokkos view or in a Kokkos map) are at one place of the serialized data; neither the place nor the rest of the data depends on the value. Hence writing the bytes of another value there gives exactly the data of the object with that value, which is read back as that object without an error, from memory, in place and from a stream. Outside of sets, maps and std::vector<bool> this is so for any bytes whatsoever: damage to plain values changes nothing else and is not noticed.", "quantifier": "all types, all objects, all places in them, all bytes of the same length, builds with and without error checking", "why_tests_cant": "All objects, all places in them and all bytes; tests compare whole objects of a few types.", "anchors": ["src/checkpoint/dispatch/dispatch.impl.h: serializeType", "src/checkpoint/dispatch/dispatch_serializer_byte.h: SerializerDispatchByte", "src/checkpoint/container/string_serialize.h: serialize", "src/checkpoint/checkpoint_api.impl.h: serialize, deserialize, deserializeInPlace, serializeToStream, deserializeFromStream"]}
{"id": "C80", "title": "Parts of an object in the data of the whole", "statement": "The contents of a part of an object (an element of a container or of a Kokkos view, a key or a value of a Kokkos map, a member of a class, what an optional, a variant or a pointer holds, however deeply nested) are written as the same bytes as when the part is serialized by itself, without the type identifier and the size around them; neither their place in the data nor the rest of the data depends on the part. Hence putting the contents of another part of that type there gives exactly the data of the object with the other part. In builds with error checking the whole data of a part that is not an element of an array, a vector or a Kokkos::View occurs in the data of the object, and the part can be deserialized from there by itself.", "quantifier": "all types (including Kokkos views and maps), all objects, all parts of them, builds with and without error checking", "why_tests_cant": "All nestings of types and all parts of all objects; tests restore whole objects only.", "anchors": ["src/checkpoint/dispatch/dispatch.impl.h: serializeType, withTypeIdx, withMemUsed", "src/checkpoint/dispatch/dispatch_serializer_nonbyte.h: SerializerDispatchNonByte", "src/checkpoint/container/list_serialize.h, map_serialize.h, optional_serialize.h, variant_serialize.h, unique_ptr_serialize.h", "src/checkpoint/checkpoint_api.impl.h: serialize, deserialize"]}
