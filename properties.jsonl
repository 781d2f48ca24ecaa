{"id": "C01", "title": "ArcIntern is memory safe under every schedule", "statement": "For a type with lawful Eq/Hash, no execution of ArcIntern::new / From / clone / drop / deref / refcount / num_objects_interned / shrink_to_fit by any number of threads ever reads or writes a freed (or re-used) allocation, reads dropped data, or frees an allocation twice, provided fewer than usize::MAX handles are outstanding. Panics raised by the user's Hash/Eq during a search (get_mut, entry, remove) do not change this; panics inside DashMap's insertion are excluded here: see C62.", "quantifier": "every finite set of threads, every interleaving of their atomic steps, every sequence of API calls a borrow-checked client can make, every allocator choice of address (including reuse of freed addresses), panics of user Hash/Eq at any search", "why_tests_cant": "The races (drop reaching zero vs. concurrent new, entry vs get_mut) need specific interleavings; tests sample a handful and miri cannot run dashmap.", "anchors": ["src/arc.rs: ArcIntern::new, Clone::clone, Drop::drop, refcount, AsRef::as_ref", "src/arc_dst.rs: new_with_copyable_init_val"]}
{"id": "C02", "title": "ArcIntern handles are equal exactly when their values are", "statement": "At every moment, two live ArcIntern<T> handles compare == (pointer equality) if and only if the values they point to are Eq.", "quantifier": "every finite set of threads, every interleaving of their atomic steps, every sequence of API calls a borrow-checked client can make, every allocator choice of address (including reuse of freed addresses)", "why_tests_cant": "Uniqueness must survive every race between insertion and removal of equal values.", "anchors": ["src/arc.rs: ArcIntern::new, PartialEq::eq, get_pointer", "src/arc_dst.rs: new_with_copyable_init_val"]}
{"id": "C03", "title": "ArcIntern dereferences to what was interned", "statement": "A handle returned by ArcIntern::new(v) (or From) dereferences to a value Eq to v, and keeps dereferencing to the very same object for as long as the handle (or any clone) lives.", "quantifier": "every finite set of threads, every interleaving of their atomic steps, every sequence of API calls a borrow-checked client can make, every allocator choice of address (including reuse of freed addresses)", "why_tests_cant": "Requires that no concurrent drop/new ever swaps or frees the object under a handle.", "anchors": ["src/arc.rs: ArcIntern::new, AsRef::as_ref, Deref::deref, Clone::clone"]}
{"id": "C04", "title": "refcount() is exact", "statement": "Whenever refcount() is read through a live handle it returns exactly the number of ArcIntern handles to that object in existence at that instant (client-held, forgotten, stored inside other interned values, or being created/dropped); it is never a transient value.", "quantifier": "every finite set of threads, every interleaving of their atomic steps, every sequence of API calls a borrow-checked client can make, every allocator choice of address (including reuse of freed addresses)", "why_tests_cant": "new() transiently increments and decrements a dying object's count; that no live handle can observe it is an all-schedules fact.", "anchors": ["src/arc.rs: refcount, ArcIntern::new, Clone::clone, Drop::drop"]}
{"id": "C05", "title": "ArcIntern does not leak", "statement": "Whenever no ArcIntern call is in progress (and no drop was interrupted by a panic of the user's Hash/Eq), the intern table holds exactly the objects that still have a handle, the heap holds exactly those objects, and if clients hold and have forgotten no handle then nothing at all is interned or allocated.", "quantifier": "every finite set of threads, every interleaving of their atomic steps, every sequence of API calls a borrow-checked client can make, every allocator choice of address (including reuse of freed addresses)", "why_tests_cant": "Leaks need a lost race; they are invisible to assertions on results.", "anchors": ["src/arc.rs: Drop::drop, ArcIntern::new (Occupied branch), test multithreading1", "src/arc_dst.rs: new_with_copyable_init_val (converted cache)"]}
{"id": "C06", "title": "A live handle pins its object", "statement": "As long as one handle to an object exists, the object stays in the intern table: it is neither freed nor removed, and any concurrent or later intern of an Eq value that returns while such a handle lives returns the same pointer.", "quantifier": "every finite set of threads, every interleaving of their atomic steps, every sequence of API calls a borrow-checked client can make, every allocator choice of address (including reuse of freed addresses)", "why_tests_cant": "Premature removal only shows under a precise drop/new race.", "anchors": ["src/arc.rs: ArcIntern::new, Drop::drop"]}
{"id": "C07", "title": "ArcIntern::num_objects_interned is exact when quiescent", "statement": "If no other ArcIntern call overlaps it, num_objects_interned::<T>() returns exactly the number of Eq-distinct values of type T that have a live handle.", "quantifier": "every reachable quiescent state, every type, every number of shards", "why_tests_cant": "It must hold after every possible history, not those a test plays.", "anchors": ["src/arc.rs: num_objects_interned, test_arcintern_freeing"]}
{"id": "C08", "title": "ArcIntern::num_objects_interned is not an atomic snapshot", "statement": "Under concurrency num_objects_interned() walks the shards one at a time: it never counts more objects than the sum over shards of what each shard held when visited, but it can return a number that was not the number of interned objects at any instant of the call.", "quantifier": "every finite set of threads, every interleaving of their atomic steps, every sequence of API calls a borrow-checked client can make, every allocator choice of address (including reuse of freed addresses)", "why_tests_cant": "Linearizability (or its failure) is a statement about all interleavings.", "anchors": ["src/arc.rs: num_objects_interned"]}
{"id": "C09", "title": "ArcIntern reference count overflow boundary", "statement": "The count is an unguarded usize: safety holds while fewer than 2^W - 1 handles exist; with clone + mem::forget repeated 2^W - 1 times an object is freed while a live handle still points at it.", "quantifier": "every width W of usize; every execution", "why_tests_cant": "2^W operations cannot be run; both directions need induction.", "anchors": ["src/arc.rs: Clone::clone, Drop::drop, RefCount::count"]}
{"id": "C10", "title": "ArcIntern relies on lawful Eq for memory safety", "statement": "Removal on last drop is by Eq lookup, not by pointer: if T's (safe) PartialEq is not symmetric, or Hash does not respect Eq, dropping one handle can free another live object. With an equivalence relation and a compatible Hash this never happens.", "quantifier": "every eq/hash function pair; existence of a lawless one that breaks safety", "why_tests_cant": "Tests use lawful types; the boundary is a statement about all Eq implementations.", "anchors": ["src/arc.rs: Drop::drop (m.remove(self.pointer.as_ref()))"]}
{"id": "C11", "title": "ArcIntern never deadlocks", "statement": "In every reachable state in which some ArcIntern call is unfinished, at least one thread can take a step (user Hash/Eq not calling back into the interner).", "quantifier": "every finite set of threads, every interleaving of their atomic steps, every sequence of API calls a borrow-checked client can make, every allocator choice of address (including reuse of freed addresses)", "why_tests_cant": "Absence of deadlock is a universally quantified statement over reachable states.", "anchors": ["src/arc.rs: ArcIntern::new, Drop::drop, num_objects_interned, shrink_to_fit"]}
{"id": "C12", "title": "Every ArcIntern call can finish", "statement": "From every reachable state in which no drop was aborted by a panic, there is a way to schedule the running threads, without any new call, so that every call in progress returns (the retry loop of new is never permanently stuck).", "quantifier": "every finite set of threads, every interleaving of their atomic steps, every sequence of API calls a borrow-checked client can make, every allocator choice of address (including reuse of freed addresses)", "why_tests_cant": "The spin loop's exit depends on other threads; a test that hangs proves nothing either way.", "anchors": ["src/arc.rs: ArcIntern::new (loop, yield_now)", "src/arc_dst.rs: new_with_copyable_init_val (loop)"]}
{"id": "C13", "title": "A panic in Hash/Eq while dropping poisons a value forever", "statement": "If the user's Hash/Eq panics during the removal done by the last drop, no memory is corrupted, but the entry stays with count zero, and every later intern of an Eq value spins forever, under every schedule.", "quantifier": "every continuation schedule after the panic", "why_tests_cant": "Non-termination under all schedules cannot be tested.", "anchors": ["src/arc.rs: Drop::drop, ArcIntern::new"]}
{"id": "C14", "title": "Values containing ArcIntern handles are reclaimed transitively", "statement": "Interned values may own handles (hash-consing). Dropping the last handle to a node releases its children after the node leaves the table and outside any lock; once every client handle is gone and the calls have returned, the entire structure is freed.", "quantifier": "every finite set of threads, every interleaving of their atomic steps, every sequence of API calls a borrow-checked client can make, every allocator choice of address (including reuse of freed addresses); every finite shape of nested values", "why_tests_cant": "Depth and sharing of the structure are unbounded.", "anchors": ["src/arc.rs: Drop::drop (_remove), test_arcintern_nested_drop"]}
{"id": "C15", "title": "All ArcIntern constructors agree", "statement": "new, from_ref, From<T>, From<&str>/String/Box<str>/Rc/Arc/Cow, From<&[T]>/Vec/Box<[T]>/Cow, Default and Deserialize intern into the same table: handles built by different constructors from Eq contents while both live are ==.", "quantifier": "every finite set of threads, every interleaving of their atomic steps, every sequence of API calls a borrow-checked client can make, every allocator choice of address (including reuse of freed addresses); every pair of constructors", "why_tests_cant": "Mixed constructor races are not enumerable.", "anchors": ["src/arc.rs: from_ref, From, Default", "src/arc_dst.rs: impl_from!, From<Cow>, Default"]}
{"id": "C16", "title": "One container per type for ArcIntern", "statement": "However many threads race on the first use of ArcIntern<T>, all get_container calls for the same T return the same container and calls for different types return different ones, for the special-cased str/String as well as for other types.", "quantifier": "every interleaving of any number of first-use calls over any set of types", "why_tests_cant": "First-use races happen once per process.", "anchors": ["src/arc.rs: get_container, common_containers!"]}
{"id": "C17", "title": "shrink_to_fit is unobservable", "statement": "ArcIntern::shrink_to_fit changes no handle, no refcount, no count of interned objects and frees no object, at any point of any schedule.", "quantifier": "every finite set of threads, every interleaving of their atomic steps, every sequence of API calls a borrow-checked client can make, every allocator choice of address (including reuse of freed addresses)", "why_tests_cant": "Quantifies over all states in which it can be called.", "anchors": ["src/arc.rs: shrink_to_fit"]}
{"id": "C18", "title": "Intern handles are equal exactly when their values are", "statement": "For a type with lawful Eq/Hash/Borrow and a conversion coherent with Borrow, two Intern<T> handles ever returned by new / from_ref / From<&I> / From<Box<T>> compare == iff their values are Eq, including zero-sized types and empty slices.", "quantifier": "every finite set of threads and types, every interleaving of their steps, every sequence of Intern calls, every allocator choice, user conversions that themselves intern, panics of user code at any call", "why_tests_cant": "Get-or-insert atomicity must hold for every interleaving.", "anchors": ["src/intern.rs: Intern::new, from_ref, via_box, From<Box<T>>, PartialEq", "src/boxedset.rs: get, insert", "src/container.rs: Arena::with"]}
{"id": "C19", "title": "Intern handles are valid forever", "statement": "Once returned, an Intern handle dereferences to the same unchanged object in every later state of the program.", "quantifier": "every finite set of threads and types, every interleaving of their steps, every sequence of Intern calls, every allocator choice, user conversions that themselves intern, panics of user code at any call", "why_tests_cant": "All futures of every state.", "anchors": ["src/intern.rs: Intern::new, as_ref, Deref::deref"]}
{"id": "C20", "title": "Intern dereferences to an equal value: the first one interned", "statement": "The handle returned for v dereferences to a value Eq to v; when an Eq value was interned before it is that first representative, so later Eq-but-different representations (e.g. Path \"a//b\" and \"a/b\") read back as the first.", "quantifier": "every finite set of threads and types, every interleaving of their steps, every sequence of Intern calls, every allocator choice, user conversions that themselves intern, panics of user code at any call", "why_tests_cant": "Which representative wins depends on the history and schedule.", "anchors": ["src/intern.rs: Intern::new, via_box, impl_as_ref!"]}
{"id": "C21", "title": "is_interned is exact and monotone", "statement": "is_interned(q) returns true iff an Eq value of that type has completed insertion before, and once true it stays true (absent the bench-only clear); it never inserts.", "quantifier": "every finite set of threads and types, every interleaving of their steps, every sequence of Intern calls, every allocator choice, user conversions that themselves intern, panics of user code at any call", "why_tests_cant": "All histories.", "anchors": ["src/intern.rs: is_interned", "src/boxedset.rs: get"]}
{"id": "C22", "title": "Intern::num_objects_interned counts distinct values", "statement": "It returns exactly the number of Eq-distinct values of that type interned so far, and never decreases.", "quantifier": "every finite set of threads and types, every interleaving of their steps, every sequence of Intern calls, every allocator choice, user conversions that themselves intern, panics of user code at any call", "why_tests_cant": "All histories and schedules.", "anchors": ["src/intern.rs: num_objects_interned", "src/boxedset.rs: len"]}
{"id": "C23", "title": "Types are isolated", "statement": "Interning values of one type never affects what is interned for another, even when both types hash to the same of the 32 containers; the same type always finds its own set.", "quantifier": "every finite set of threads and types, every interleaving of their steps, every sequence of Intern calls, every allocator choice, user conversions that themselves intern, panics of user code at any call; every assignment of type ids to containers", "why_tests_cant": "Collisions of TypeId hashes cannot be forced in tests.", "anchors": ["src/container.rs: TypeHolderSend::get_type_mut, Arena::with"]}
{"id": "C24", "title": "The container index is in range and stable", "statement": "For every TypeId hash, and for any byte string the std library may feed the type hasher, the container index is below 32 (indexing never panics) and is a function of the type alone, on every pointer width.", "quantifier": "every 64-bit hash, every byte sequence, every usize width", "why_tests_cant": "2^64 hashes and arbitrary byte strings.", "anchors": ["src/container.rs: HasherForTypeId, Arena::with", "src/typearena.rs: hash_of_type"]}
{"id": "C25", "title": "Panics in user code do not corrupt Intern", "statement": "If the user's Hash, Eq or From panics inside an Intern call, the lock is released, nothing is half-inserted, and later calls work and keep uniqueness; the poisoned mutex is ignored.", "quantifier": "every finite set of threads and types, every interleaving of their steps, every sequence of Intern calls, every allocator choice, user conversions that themselves intern, panics of user code at any call", "why_tests_cant": "A panic may happen at any call of any history.", "anchors": ["src/container.rs: TypeHolderSendCell::get_mut (PoisonError::into_inner)"]}
{"id": "C26", "title": "Intern::from_ref uniqueness depends on From/Borrow coherence", "statement": "from_ref looks up q but stores T::from(q). If T::from(q) borrows as something not Eq to q (e.g. it normalises), two calls return handles that are != although their values are Eq, and every call allocates again; with coherence this cannot happen.", "quantifier": "every conversion; existence of an incoherent one", "why_tests_cant": "Boundary over all user conversions.", "anchors": ["src/intern.rs: from_ref", "src/boxedset.rs: insert"]}
{"id": "C27", "title": "Intern deadlocks only through re-entrant user code", "statement": "If no user callback (From, Drop of a duplicate, Hash, Eq) interns, Intern calls never deadlock. If T::from calls back into Intern for the same type (e.g. a tree node interning its parent), from_ref deadlocks on its own mutex under every schedule.", "quantifier": "every finite set of threads and types, every interleaving of their steps, every sequence of Intern calls, every allocator choice, user conversions that themselves intern, panics of user code at any call", "why_tests_cant": "Deadlock is about all schedules; re-entrancy is about all callbacks.", "anchors": ["src/intern.rs: from_ref", "src/container.rs: Arena::with"]}
{"id": "C28", "title": "Intern is memory safe for arbitrary Eq/Hash/Borrow/From", "statement": "Even when the user's Eq, Hash, Borrow and From are arbitrary functions, every Intern handle ever returned stays dereferenceable.", "quantifier": "every finite set of threads and types, every interleaving of their steps, every sequence of Intern calls, every allocator choice, user conversions that themselves intern, panics of user code at any call; every eq/hash/borrow/from", "why_tests_cant": "Quantifies over all trait implementations.", "anchors": ["src/intern.rs: new, from_ref, via_box, From<Box<T>>"]}
{"id": "C29", "title": "benchmarking_only_clear_interns breaks uniqueness, not validity", "statement": "After the bench-only clear, old handles remain valid but a re-interned Eq value gets a different pointer.", "quantifier": "every history containing clear", "why_tests_cant": "All histories.", "anchors": ["src/intern.rs: benchmarking_only_clear_interns", "src/boxedset.rs: clear"]}
{"id": "C30", "title": "Arena handles are equal exactly when their values are", "statement": "Within one arena, two ArenaIntern handles compare == iff their values are Eq, under concurrent interning from many threads.", "quantifier": "every number of arenas and threads, every interleaving, every sequence of intern* calls and arena drops allowed by lifetimes, every allocator choice", "why_tests_cant": "Get-or-insert atomicity for all interleavings.", "anchors": ["src/arena.rs: Arena::intern, intern_ref, intern_from_owned, intern_from, PartialEq"]}
{"id": "C31", "title": "Arena data lives exactly as long as the arena", "statement": "With coherent conversions and lawful Eq, every ArenaIntern stays dereferenceable to the same object until its arena is dropped; dropping the arena frees each of its objects exactly once, and nothing else.", "quantifier": "every number of arenas and threads, every interleaving, every sequence of intern* calls and arena drops allowed by lifetimes, every allocator choice", "why_tests_cant": "All histories.", "anchors": ["src/arena.rs: Arena::intern, as_ref, into_ref"]}
{"id": "C32", "title": "All Arena entry points agree; owned inputs are not copied", "statement": "intern, intern_ref, intern_string/vec/cstring/osstring/pathbuf, intern_box and intern_from of Eq contents return == handles in one arena; when intern_box stores its argument the returned pointer is the address of that very box, and when it does not store it, the argument is freed exactly once.", "quantifier": "every number of arenas and threads, every interleaving, every sequence of intern* calls and arena drops allowed by lifetimes, every allocator choice", "why_tests_cant": "All combinations and histories.", "anchors": ["src/arena.rs: intern_from_owned, intern_box, intern_string"]}
{"id": "C33", "title": "Arenas are independent", "statement": "Interning into or dropping one arena never affects another. Handles of non-zero-sized values from different live arenas are never ==, but zero-sized values and empty strings/slices from different arenas do compare ==.", "quantifier": "every number of arenas and threads, every interleaving, every sequence of intern* calls and arena drops allowed by lifetimes, every allocator choice; every pair of arenas", "why_tests_cant": "All histories of two arenas.", "anchors": ["src/arena.rs: Arena::new, PartialEq"]}
{"id": "C34", "title": "Arena::intern_from / intern_ref dangle with a normalising From", "statement": "These look up q but store Box::from(q). If the stored value is Eq to an already stored one although q was not found, the set keeps the old box and drops the new one, and the returned handle dangles - with lawful Eq, Hash and Borrow, in safe code.", "quantifier": "every conversion; existence of an incoherent but safe one", "why_tests_cant": "Boundary over all user conversions.", "anchors": ["src/arena.rs: intern_from, intern_ref", "src/boxedset.rs: insert"]}
{"id": "C35", "title": "Arena relies on lawful Eq for memory safety", "statement": "get compares stored == query while insert compares query == stored; with an asymmetric (safe) PartialEq, Arena::intern returns a dangling handle. With lawful Eq it never does.", "quantifier": "every eq function; existence of a lawless one", "why_tests_cant": "Boundary over all Eq implementations.", "anchors": ["src/arena.rs: Arena::intern", "src/boxedset.rs: get, insert"]}
{"id": "C36", "title": "Cross-thread sharing of interned references respects Sync", "statement": "Whenever two threads hold references to the same interned object, its type is Sync. Holds for Intern and ArcIntern (bounds Send + Sync). Fails for Arena<T>: it is Sync when T is merely Send, and two threads interning Eq values obtain references to one T. Handles themselves are Send or Sync only if the value may be read (Sync) and, where the last handle drops it, dropped (Send) by other threads.", "quantifier": "every type's Send/Sync combination, every schedule", "why_tests_cant": "Auto-trait soundness is a statement over all types.", "anchors": ["src/arena.rs: Arena, Arena::intern", "src/intern.rs: Intern::new bounds", "src/arc.rs: ArcIntern bounds, unsafe impl Send/Sync"]}
{"id": "C37", "title": "Panics in user code do not corrupt an Arena", "statement": "If the user's Hash, Eq or conversion panics inside an intern call the lock is released, nothing is half-inserted, and later calls on the same arena work and keep uniqueness.", "quantifier": "every number of arenas and threads, every interleaving, every sequence of intern* calls and arena drops allowed by lifetimes, every allocator choice; panic at any call", "why_tests_cant": "All histories.", "anchors": ["src/arena.rs: Arena::get_mut"]}
{"id": "C38", "title": "NewIntern: same type, same set, despite the push race", "statement": "with_mutex_hashset lets racing threads push several sets for one type, yet all calls for that type always operate on the same (first) set, so handles are == iff their values are Eq.", "quantifier": "every number of racing threads and types, every interleaving of scan/reserve/publish/lock steps", "why_tests_cant": "The race window is a few instructions wide.", "anchors": ["src/typearena.rs: with_mutex_hashset, Intern::new"]}
{"id": "C39", "title": "NewIntern: a user panic disables the type for ever", "statement": "Because lock().unwrap() is used, after one panic of user Hash/Eq/From inside an intern call every later NewIntern call for that type panics, under every schedule; already returned handles stay valid.", "quantifier": "every continuation", "why_tests_cant": "All futures.", "anchors": ["src/typearena.rs: with_mutex_hashset"]}
{"id": "C40", "title": "Fits64 round-trips and is injective", "statement": "from_u64(to_u64(h)) is h for every Intern handle, to_u64 is injective, and no arithmetic overflows, whatever the heap base and alignment.", "quantifier": "every 64-bit aligned address, every power-of-two alignment, every heap base", "why_tests_cant": "2^64 addresses.", "anchors": ["src/intern.rs: Fits64 for Intern, sz"]}
{"id": "C41", "title": "heap_location is fixed once and for all", "statement": "All calls in all threads return the same non-null value, in every interleaving of the first-use race, so codes produced by one thread decode in another.", "quantifier": "every interleaving of any number of threads", "why_tests_cant": "First-use race happens once per process.", "anchors": ["src/intern.rs: heap_location, allocate_ptr", "src/typearena.rs: heap_location"]}
{"id": "C42", "title": "Fits64 codes are small for nearby pointers", "statement": "If the scaled address and the scaled heap base agree on all bits from k upwards, the code is below 2^k (so Set64 stores it compactly).", "quantifier": "every address, base, alignment and k", "why_tests_cant": "Bit-level fact over all 64-bit values.", "anchors": ["src/intern.rs: Fits64 doc comment, to_u64"]}
{"id": "C43", "title": "The DST allocation layout matches the type's layout", "statement": "RefCount::<[T]>::from_slice allocates exactly the size and alignment the compiler uses for RefCount<[T]> of that length (so Box frees with the same layout), the data and every element are in bounds and aligned, and oversize requests panic rather than wrap.", "quantifier": "every element size, every power-of-two alignment, every length, every usize width", "why_tests_cant": "Tests try 13 alignments and one length.", "anchors": ["src/arc_dst.rs: RefCount::from_slice, dst_memory_aligned"]}
{"id": "C44", "title": "DST contents are copied faithfully; allocation failure is not handled", "statement": "After from_slice the box holds count 1 and exactly the source elements in order, for every slice; if the allocator returns null the function proceeds to use the null pointer.", "quantifier": "every slice, every allocator outcome", "why_tests_cant": "Out-of-memory and all lengths.", "anchors": ["src/arc_dst.rs: from_slice, from_str"]}
{"id": "C45", "title": "Serde round-trip preserves identity", "statement": "If T's own (de)serialisation round-trips, deserialising a serialised Intern<T>/ArcIntern<T>/ArcIntern<str> while the original lives yields an == handle, and serialisation of the handle is exactly that of the value. From whatever input and format, an ArcIntern<str> is read iff the format hands over a string, and contains that string.", "quantifier": "every value, every format that round-trips T", "why_tests_cant": "All values and formats.", "anchors": ["src/intern.rs: Serialize, Deserialize", "src/arc.rs: Serialize, Deserialize", "src/arc_dst.rs: StrVisitor"]}
{"id": "C46", "title": "ArcIntern<[u8]> does not round-trip through self-describing formats", "statement": "Serialize emits a sequence, Deserialize accepts only bytes: in a format that distinguishes the two (JSON, CBOR) every serialised ArcIntern<[u8]> fails to deserialise; in formats that encode both alike it round-trips.", "quantifier": "every byte slice, both format families", "why_tests_cant": "All slices and formats.", "anchors": ["src/arc_dst.rs: BytesVisitor, Deserialize for ArcIntern<[u8]>", "src/arc.rs: Serialize"]}
{"id": "C47", "title": "deepsize of an Intern table counts each allocation once", "statement": "deep_size_of_interned and Arena's deep_size_of report table capacity plus every interned object, with memory shared between objects counted once; an Intern handle itself adds nothing.", "quantifier": "every table content and sharing pattern", "why_tests_cant": "All contents.", "anchors": ["src/boxedset.rs: DeepSizeOf", "src/intern.rs: deep_size_of_interned"]}
{"id": "C48", "title": "deepsize of ArcIntern tables and ArenaIntern over-counts", "statement": "deep_size_of_arc_interned uses a fresh context per object, so memory shared by k objects is counted k times; an ArenaIntern reports its own pointer twice.", "quantifier": "every table content and sharing pattern", "why_tests_cant": "All contents.", "anchors": ["src/arc.rs: deep_size_of_arc_interned", "src/arena.rs: DeepSizeOf for ArenaIntern"]}
{"id": "C49", "title": "Handle Eq, Hash and Ord are mutually consistent", "statement": "For live handles: == implies equal hashes; cmp is Equal iff == whenever T's Ord is consistent with its Eq; <, <=, >, >= and partial_cmp agree with the values' own.", "quantifier": "every reachable state, every pair of live handles, every lawful T", "why_tests_cant": "All pairs in all states.", "anchors": ["src/intern.rs: Hash, PartialOrd, Ord", "src/arc.rs: Hash, PartialOrd, Ord"]}
{"id": "C50", "title": "Comparing ArcIntern<str>/<[T]> with plain strings and slices is by content", "statement": "eq and ne between a handle and str/String/Box/Rc/Arc/Cow/Vec/array, in both directions, hold exactly when the contents are equal, and agree with interning the other side and comparing handles.", "quantifier": "every content, every reachable state", "why_tests_cant": "All contents.", "anchors": ["src/arc_dst.rs: impl_eq!"]}
{"id": "C51", "title": "The memory orderings of ArcIntern's reference count exclude data races", "statement": "With the orderings written in the code (SeqCst increments and decrements, Relaxed clone, Acquire refcount), every two conflicting accesses to an interned value - one of them its creation or destruction - are ordered by happens-before. What matters is only that the decrement in Drop acquires and releases: then all other orderings may be arbitrary; otherwise there is a racing execution, whatever the other orderings are. The accesses counted are all there are: what a step changes in an object it is said to write, what it is not said to access makes no difference to it, shard locks are taken and released as said, and the table is only read and changed under the lock of the shard.", "quantifier": "every ordering of the five atomic operations, every schedule, client program with any synchronisation of its own, nested values, panics; up to usize::MAX handles per object", "why_tests_cant": "Weak orderings show up rarely or never on x86; a race is a property of all executions.", "anchors": ["src/arc.rs: clone (272-284), drop (293-325), new (220-257), refcount (207)", "src/arc_dst.rs: from_ref loop (66-119)"]}
{"id": "C52", "title": "ArcIntern is linearizable", "statement": "Every concurrent execution of ArcIntern - intern calls on sized and unsized values that race, retry and find dying entries, drops that cascade through nested handles, clones, refcount, dereferences, panics - shows its clients the same calls, returns, results and panics, in the same order, as an execution of an atomic interner without locks, table or retries, in which each intern call takes effect exactly once between call and return. In the atomic interner equal values have one object and different objects have different addresses.", "quantifier": "every schedule, client program and allocator choice, nested values, panics; Eq and Hash coherent, up to usize::MAX handles per object", "why_tests_cant": "Linearizability is a statement about all interleavings; a test only sees some of them and has no reference object to compare with.", "anchors": ["src/arc.rs: new, from (185-257), clone, drop, refcount (207, 272-325)", "src/arc_dst.rs: from_ref loop (66-119)"]}
{"id": "C53", "title": "User code that calls back into ArcIntern is safe, but can deadlock", "statement": "Hash, Eq and Drop of interned values may themselves intern, drop and count values of any type, nested to any depth: memory safety and everything proved of concurrent executions still holds. A deadlock is excluded if call-backs made during a search only need shard locks that come earlier in some order; a call-back that interns a value falling into the shard being searched never returns. Nor does a call-back that Hash or Eq makes while the last handle to an object is being dropped, if it interns an equal value, even where no lock is involved: it goes round its loop for ever, waiting for the call it runs in.", "quantifier": "every schedule, client program, nesting of call-backs, panics; every order on the locks", "why_tests_cant": "Whether two values share a shard depends on a random hash key; nested interleavings are not enumerable.", "anchors": ["src/arc.rs: new (224-267), drop (293-325)", "src/arc_dst.rs: from_ref loop (66-119)"]}
{"id": "C54", "title": "Intern calls wait for the thread that removes an equal object, possibly for ever", "statement": "An intern call that meets no locked shard and no equal object without handles has its result after at most five atomic steps. It goes round again on count 0 only if another thread is about to remove the equal object, or gave up because Hash or Eq panicked. While that thread is not scheduled no call for an equal value returns. Even when every thread keeps running a call may never return: another thread can intern and drop for ever and be found removing each time.", "quantifier": "every reachable state, schedule, value and client program; the refutation is one infinite fair schedule", "why_tests_cant": "Non-termination under a fair schedule is a property of an infinite execution; a test only sees a delay.", "anchors": ["src/arc.rs: new (224-267), drop (293-325)", "src/arc_dst.rs: from_ref loop (66-119)"]}
{"id": "C55", "title": "Intern and NewIntern are linearizable", "statement": "Every concurrent execution of Intern, and of the Intern of typearena.rs - by value, box, reference with conversion, is_interned, num_objects_interned, the benchmarks' clear, with user code that interns further values or panics - shows its clients the same calls, returns, results, panics and reads, in the same order, as an execution of an atomic set of values without locks or containers, in which each call takes effect exactly once between call and return, after the calls made by the user code it runs, or not at all if it panics. In the end both hold the same values under the same pointers. Calls of Intern panic only when user code does.", "quantifier": "every schedule, client program, allocator choice, nesting of calls and panics; Eq, Hash, Borrow and From keep their contracts", "why_tests_cant": "Linearizability is a statement about all interleavings and nestings; a test sees a few and has no reference object to compare with.", "anchors": ["src/intern.rs: via_box, from, new, from_ref, is_interned, num_objects_interned (120-279)", "src/container.rs: get_type_mut, get (18-30, 53-62, 119-123)", "src/typearena.rs: with_mutex_hashset and the intern functions (23-84, 160-310)"]}
{"id": "C56", "title": "Arena is linearizable", "statement": "Every concurrent execution of arenas - intern, intern_ref, intern_from, intern_box, intern_string and the like, reads through handles, drops of arenas, with user code that makes further calls on other arenas, drops them or panics - shows its clients the same calls, returns, results, panics, reads and drops, in the same order, as an execution of atomic sets of values without locks, in which each call takes effect exactly once between its call and its return, after everything done by the user code it runs, or not at all if it panics. In the end both have the same arenas with the same values under the same pointers. A finished drop of an arena drops each of its values once; calls and drops panic only when user code does.", "quantifier": "every schedule, client program, number of arenas and threads, allocator choice, nesting of calls, drops and panics; Eq, Hash, Borrow and From keep their contracts", "why_tests_cant": "Linearizability is a statement about all interleavings, nestings and panics; a test sees a few and has no reference object to compare with.", "anchors": ["src/arena.rs: Arena, get_mut, new, intern, intern_ref, intern_from_owned (51-174)", "src/arena.rs: the specialised intern functions and intern_from (176-425)", "src/arena.rs: reads through ArenaIntern (434-513)"]}
{"id": "C57", "title": "Arena deadlocks only through user code that runs under its mutex", "statement": "From every reachable state all running calls and drops of arenas can be finished, or threads that wait for each other from inside nested calls block the rest. Such a deadlock needs a call made by user code that runs with the mutex of an arena (Hash, Eq, Borrow, From); calls made by the Drop of an argument or of a value of a dropped arena are harmless. There is none if such calls respect some ranking of the arenas. A call on the same arena from code under its mutex never returns. A deadlock is for ever: the arenas held in it are never dropped, keep their values, and stop every thread that makes a call on them.", "quantifier": "every reachable state of every execution: any number of threads and arenas, any nesting; any ranking", "why_tests_cant": "Absence of deadlock is about all interleavings, and 'for ever' about infinite executions; a test that hangs cannot tell which.", "anchors": ["src/arena.rs: get_mut (58-68)", "src/arena.rs: intern, intern_ref, intern_from_owned (112-174)", "src/arena.rs: intern_from (404-425)"]}
{"id": "C58", "title": "Intern has no data races", "statement": "Executions of any number of threads that intern values, run user code inside the calls (which may read the elements of the set, panic, and call back), and read through handles, have no data race in the sense of happens-before: the creation of a value happens before every read of it, through the set, through a handle a thread got itself or through one it was given; the contents of a container are only accessed in the order of its mutex; a duplicate box is freed after all accesses to it. The one assumption is that handles go from one thread to another by synchronised means; without it there is a race. The accesses counted are all there are: what a step changes it is said to write, what it is not said to access makes no difference to it, and locks are taken and released as said.", "quantifier": "every execution: any list of steps of any number of threads, any user types (no law of Eq or Hash), any synchronisation between clients", "why_tests_cant": "A race shows up only under particular interleavings and reorderings on particular hardware; tests on x86 hardly ever see one.", "anchors": ["src/container.rs: TypeHolderSendCell::get_mut, Arena::with", "src/intern.rs: new, from_ref, via_box, From<Box<T>>, as_ref"]}
{"id": "C59", "title": "NewIntern has no data races", "statement": "Executions of any number of threads that use the experimental Intern of typearena.rs have no data race in the sense of happens-before, although the vector of sets is searched without a lock, lengths that are read may be old, and sets of one type may be pushed by several threads: the creation of a set happens before every search that comes across it and before its mutex is locked; its contents are accessed in the order of its mutex; the creation of a value happens before every read of it. The one assumption is that handles go from one thread to another by synchronised means. Both the mutexes and the Acquire/Release of the length are needed. The accesses counted are all there are: what a step changes it is said to write, what it is not said to access makes no difference to it, and locks are taken and released as said.", "quantifier": "every execution: any list of steps of any number of threads, any user types (no law of Eq or Hash), any old length read by a search, any synchronisation between clients", "why_tests_cant": "A race shows up only under particular interleavings and reorderings on particular hardware; tests on x86 hardly ever see one.", "anchors": ["src/typearena.rs: with_mutex_hashset, Intern::new, From<Box<T>>, From<&str>"]}
{"id": "C60", "title": "Arena has no data races", "statement": "Executions of any number of threads that create, share, use and drop arenas have no data race in the sense of happens-before: the creation of an arena happens before every lock of its mutex; the set is accessed in the order of its mutex; the creation of a value happens before every read of it, by searches or through handles; every access of the arena, its set and its values happens before they are freed. The assumptions are what safe Rust guarantees: arenas and handles go from one thread to another by synchronised means, and all uses of an arena end before it is dropped. None of the three can be left out, and the mutex is needed. The accesses counted are all there are: what a step changes it is said to write, what it is not said to access makes no difference to it, and locks are taken and released as said.", "quantifier": "every execution: any list of steps of any number of threads and arenas, any user types (no law of Eq or Hash), any synchronisation between clients, panics anywhere in user code", "why_tests_cant": "A race shows up only under particular interleavings and reorderings on particular hardware; tests on x86 hardly ever see one, least of all between a use and a drop.", "anchors": ["src/arena.rs: Arena, get_mut, intern, intern_ref, intern_from, intern_from_owned, ArenaIntern", "src/boxedset.rs: HashSet::get, insert"]}
{"id": "C61", "title": "NewIntern deadlocks only through user code that runs under a mutex", "statement": "From every reachable state of the experimental Intern of typearena.rs all running calls can be finished, or a thread can be brought to abort the process (a panic on a poisoned mutex while unwinding), or threads that wait for each other from inside nested calls block the rest; no thread waits for ever in push, where threads wait for each other's publications. Such a deadlock needs a call made by user code that runs with the mutex of a type. There is none if such calls respect some ranking of the types, even when types share a container; and no abort if no call is made while unwinding. A call for the same type from code under its mutex never gets the mutex and never returns. A deadlock is for ever and stops every thread that makes a call for a type whose mutex is held in it.", "quantifier": "every reachable state of every execution: any number of threads and types, any nesting, any panics, any old lengths read; any ranking", "why_tests_cant": "Absence of deadlock is about all interleavings, and 'for ever' about infinite executions; a test that hangs cannot tell which.", "anchors": ["src/typearena.rs: with_mutex_hashset (23-84)", "src/typearena.rs: Intern::new, From<Box<T>>, from_ref (210-290)"]}
{"id": "C62", "title": "A Hash that panics during an insertion makes ArcIntern use freed memory", "statement": "ArcIntern::new and the slice/str constructors make the handle to be returned before e.insert(()). If the user's Hash panics inside the insertion (hashbrown hashes the new key again there, and all stored keys when the table grows), unwinding drops the key, hence the object, and then the handle: safe code with a lawful but panicking Hash reaches a use after free. This is so in every state, not only by accident: the thread cannot get out of the call without undefined behaviour. If in addition the table is being rehashed in place, live entries are dropped and every handle to them dangles for ever. Panics in searches, in shrink_to_fit and of the user's Drop are harmless (the last two leave nothing behind), and panics in the insertion would be, too, if the handle were made after it and no entries are lost.", "quantifier": "every reachable state of any number of threads, every schedule before and after the panic, every set of entries lost, both intern functions, every usize width", "why_tests_cant": "A test would need a Hash that panics in the one call made by the insertion, and would then run into undefined behaviour, which need not show.", "anchors": ["src/arc.rs: ArcIntern::new (249-255)", "src/arc_dst.rs: new_with_copyable_init_val (98-105)", "src/arc.rs: shrink_to_fit (185-187)"]}
{"id": "C63", "title": "Intern keeps one allocation per distinct value and frees the rest", "statement": "Intern leaks on purpose; this says exactly what. For arbitrary user code and at any time, the allocations not freed are those held by a running call (the box given to From<Box<T>>, or memory about to be inserted), those that were inserted into a set, and those whose insertion failed after Box::leak; an allocation is in one of these places only. For lawful types, if no insertion panics and nothing is cleared, then whenever no call is running there is exactly one allocation per distinct value, each has been handed out, and num_objects_interned is their number: boxes of duplicates and of searches that panicked have been freed. If Hash or Eq panics during insertions, the number of unreachable allocations of one value has no bound for Intern. NewIntern loses at most one allocation per type, because a panic disables the type.", "quantifier": "every execution: any number of threads and types, any nesting of calls in user code, any panics; arbitrary Eq/Hash/Borrow/From for the first statement; every number of leaked allocations", "why_tests_cant": "Intended leaks hide unintended ones, so no leak checker can be used; that nothing else stays allocated, whatever user code does and wherever it panics, is about all executions.", "anchors": ["src/intern.rs: Intern::new, From<Box<T>>, from_ref, via_box (120-237)", "src/boxedset.rs: insert (81-83)", "src/typearena.rs: new, From<Box<T>>, from_ref (210-290)"]}
{"id": "C64", "title": "Coercing an ArcIntern to a supertype is unsound", "statement": "ArcIntern<T> is covariant in T, and there are 'static Eq+Hash types one of which is a proper subtype of another (for<'a> fn(&'a str) and fn(&'static str)). The last handle to an object looks for it in the table of the type that the handle has when it is dropped. If an equal value is interned at the supertype, that object is removed and freed although handles to it exist: a use-after-free from five lines of safe code in one thread, for every pair of such types and every value equal to itself, with lawful Eq and Hash. From any state: once the search at the other type finds an object to which a client has a handle, reading through that handle is undefined behaviour. If no value equal to a coerced one is interned at the other type, memory stays safe, but the object is never freed and every later call that interns an equal value goes round in its loop for ever. Two handles of one type to equal values need not be equal, nor for Intern, where nothing dangles.", "quantifier": "the unsoundness: every type with a proper supertype, every value without interned parts that equals itself; the safety when types are kept apart: every execution of any length, any number of threads, any subtyping, any coherent Eq and Hash; the leak: every continuation", "why_tests_cant": "No test coerces a handle: the coercion is silent and written nowhere. That the crate is safe when equal values at two types are never both interned concerns all executions, that a lost value blocks its interning for ever all continuations.", "anchors": ["src/arc.rs: struct ArcIntern (54-56), Drop for ArcIntern (293-325), get_container", "src/intern.rs: struct Intern"]}
{"id": "C65", "title": "Interned values with interior mutability", "statement": "T: Eq + Hash (+ Send + Sync) may contain atomics or a mutex, so safe code can change a value through a handle while it is interned. ArcIntern and Arena are then unsound even if Eq and Hash are lawful at every moment: if an interned value is changed to equal another one and its last handle is dropped, ArcIntern frees the other object, which is still in use; if a stored value becomes equal to one that intern has searched for and not yet inserted, Arena frees the box and returns a dangling reference. For all types and values, not just particular ones. Intern and the Intern of typearena.rs stay memory safe under arbitrary stores and arbitrary Eq and Hash: every handle ever returned points to a live object of its type, length and address; only uniqueness is lost. For all four, what is read through a handle is the last value stored to its object, or what it was before if nothing was stored; stores to other values, later calls and a wrong Eq or Hash do not change it (for ArcIntern and Arena: as long as the object exists). Stores that Eq, Hash and Borrow cannot see (in particular, lawful types and values replaced by equal ones) change nothing for any of the four: the execution corresponds step by step to the one without the stores, so all other properties carry over, and memory is safe.", "quantifier": "every execution of any length, any number of threads, any interleaving of stores with the steps of calls, every Eq and Hash where nothing else is said; the unsoundness for every pair of values of one type that are not equal", "why_tests_cant": "No test interns a type with interior mutability. The correspondence concerns every interleaving of stores with calls; the unsoundness needs a store at one particular moment (Arena) or a table search that happens to meet the other entry (ArcIntern).", "anchors": ["src/arc.rs: AsRef, Deref (327-332, 356-362), Drop for ArcIntern (293-325)", "src/intern.rs: as_ref, Deref (244-246, 361-393)", "src/typearena.rs: as_ref, Deref (295-297, 379-408)", "src/arena.rs: intern (112-131), into_ref, Deref (434-447, 510-512)"]}
{"id": "C66", "title": "What refcount() may return under the memory model", "statement": "The load in refcount() has Acquire ordering, so under the memory model of Rust it may return an old value of the count. Whatever values such loads return, no execution of ArcIntern has undefined behaviour or a data race. A load returns one of the values the count has had, none older than a write or the result of another load that happens before it, and any such value is possible. The value returned is the number of handles there were at some earlier moment, and it is at least the number of handles to the object that the calling thread may use; it is the present number of handles if all changes of the count happen before the call. Otherwise it may be too small (1 although another thread has a handle, so refcount() == 1 does not show that the handle is the only one) and too large.", "quantifier": "every execution of any length, any number of threads, any interleaving, every choice of the values returned by the loads, every atomic ordering of the operations other than the decrement", "why_tests_cant": "Whether a load returns an old value depends on the processor and the compiler; the tests call refcount() in single-threaded programs only, where it is exact.", "anchors": ["src/arc.rs: refcount (207-209), new (220-262), clone (276-284), drop (293-325)"]}
{"id": "C67", "title": "What ArcIntern keeps allocated at every moment, and the recursion of its destructor", "statement": "At every moment each allocation of ArcIntern is either an entry of a table or owned by exactly one thread: the box a call of new has made and not inserted, or a box being dropped. The number of allocations is the number of entries plus the number of such boxes. Without panics, every entry without a handle is about to be removed by exactly one thread. Drop is recursive: the destructors a thread is in form a chain in which a handle to each object was inside the value of the next one, and values are interned before what contains them. Where n objects have one handle each, the client's and the first one in the value before, dropping the first leads to n destructors inside each other; n is not bounded by anything in the crate, so that dropping a long list of interned nodes overflows the stack.", "quantifier": "every execution of any length, any number of threads, any interleaving; chains of every length", "why_tests_cant": "The tests look at table sizes after everything has been dropped, never between the steps of calls, and drop no nested values; how deep a destructor may nest has no bound a test could reach.", "anchors": ["src/arc.rs: new (220-262), Drop for ArcIntern (293-325)", "src/arc_dst.rs: 66-119"]}
{"id": "C68", "title": "Arena under the aliasing models of Rust", "statement": "All pointers of an arena go back to the Box of its value: on a miss the code takes `p = b.as_ref() as *const T`, moves the box into the table and then makes the handle from `p`; on a hit it makes it from the box in the table. Under Tree Borrows this is never undefined behaviour, however often the box is retagged as it is passed around. Under Stacked Borrows it is none if the box is not retagged when it is moved into the table; if it is, which is what Miri does, then `&*p` is undefined behaviour every time a value that is not zero-sized is stored, so no program without undefined behaviour ever gets a handle to one. No use of a block is left out: a step that would be undefined if the block had been freed is undefined if the aliasing model no longer allows any use of it.", "quantifier": "every execution of any length, any number of threads and arenas, any interleaving, arbitrary Eq and Hash, panics, any number of retags; any reads through handles", "why_tests_cant": "Aliasing violations have no effect on a test that is not run under Miri; CI runs Miri on one test of Intern only, and a run under Miri checks one execution under one model.", "anchors": ["src/arena.rs: intern (118-132), intern_ref (136-155), intern_from_owned (156-175), intern_from (406-425), AsRef, Deref, into_ref (434-447, 510-512)", "src/boxedset.rs: 58-83", ".github/workflows/rust.yml: 66-77"]}
{"id": "C69", "title": "ArcIntern under the aliasing models of Rust", "statement": "`ArcIntern::new` takes the pointer of the handle from the box (`NonNull::from(e.key().0.borrow())`) and only then moves the box into the table (`e.insert(())`). If that move does not retag the box, or if the pointer were taken after it, no program has undefined behaviour under Tree Borrows, however often the box is retagged elsewhere; nor under Stacked Borrows, if `m.remove` does not retag the box either while its argument is protected. If the move does retag the box, then under Stacked Borrows every use of the handle that `new` returned for a new value is undefined; under Tree Borrows cloning or dropping that handle makes the box in the table unusable (if the retag is protected, or the value was found before), so that finding the value again or freeing it is undefined. `new`, `new` of the same value, `drop`, `drop` is undefined under both. No use of a block is left out: a step that would be undefined if the block had been freed is undefined if the aliasing model no longer allows any use of it.", "quantifier": "every execution of any length, any number of threads, values and handles, any interleaving, values that own handles, panics; any list of protected and unprotected retags; any choice of the pointer a handle was made with", "why_tests_cant": "Aliasing violations have no effect on a test that is not run under Miri; CI runs Miri on one test of Intern only, and a run under Miri checks one execution under one model with one version of dashmap.", "anchors": ["src/arc.rs: new (223-268), clone (273-284), drop (293-325), as_ref (327-332), refcount (207-209)", "src/arc_dst.rs: new_with_copyable_init_val (68-115)", ".github/workflows/rust.yml: 66-77"]}
{"id": "C70", "title": "Intern and NewIntern under the aliasing models of Rust", "statement": "`Intern` and the experimental one of typearena.rs leak a box, put the reference into the set and give copies of it to their callers. Nothing they do with these references and boxes is undefined behaviour under Stacked Borrows or Tree Borrows, however `Box::leak`, dropping a box and passing a reference on retag them, whether or not the values contain cells, and whatever Hash, Eq and the clients write to these cells. Every leaked value has a reference, and no box that has not been leaked has one. It matters that the reference is the one `Box::leak` returns: taken from the box before, it is as good if `Box::leak` does not retag the box, but otherwise, under Stacked Borrows, putting any new value into a set is undefined. No use of a block is left out: a step that would be undefined if the block had been freed is undefined if the aliasing model no longer allows any use of it.", "quantifier": "every execution of any length, any number of threads, values and types, any interleaving, user code that panics or calls back into the crate, clients that use, copy and convert handles at any time; any list of protected and unprotected retags; any choice of the reference that is used", "why_tests_cant": "Aliasing violations have no effect on a test that is not run under Miri; CI runs Miri on one test, and a run checks one execution under one model.", "anchors": ["src/intern.rs: via_box (151-166), From<Box<T>> (167-178), new (210-219), from_ref (225-240), to_u64, from_u64 (328-338)", "src/boxedset.rs: get, insert (53-90)", "src/typearena.rs: 205-290, 350-363", ".github/workflows/rust.yml: 66-77"]}
{"id": "C71", "title": "Interning trait objects", "statement": "Handles of Intern<T>, of typearena's Intern<T> and of Arena<T> compare as the values do in every execution exactly if any two zero-sized values of T whose pointers have the same metadata are equal: boxes of zero-sized values all have the same address, so the metadata is all that tells them apart. For T = dyn Trait the metadata is a vtable, which the compiler may duplicate or merge. If Eq distinguishes values of different concrete types, duplicates do no harm whichever vtable a box comes with, since the handle is always made from the stored pointer; but if two zero-sized types get the same vtable, interning one value of each gives two handles that are == although the values are not equal.", "quantifier": "every type with lawful Eq, Hash and Borrow and coherent From, every assignment of metadata, sizes and dangling addresses to values; every execution of any length, any number of threads, any interleaving", "why_tests_cant": "Whether vtables are duplicated or merged depends on codegen units and link-time optimisation, and is the same throughout a test run.", "anchors": ["src/intern.rs: From<Box<T>> (167-178), PartialEq (421-426)", "src/typearena.rs: From<Box<T>> (224-236), PartialEq (436-441)", "src/arena.rs: intern_ref (136-155), PartialEq (527-532)"]}
{"id": "C72", "title": "The push race of typearena leaves at most one set per thread and type", "statement": "If two threads use a type for the first time at the same time, both push a set for it; the comment in with_mutex_hashset says that at worst this slows down access to other types. How bad it is: the sets in a container belong to different pairs of a thread and a type, so a thread creates at most one set for each type it uses, and none after one of its calls for the type has returned. Only the first set of a type is ever locked or filled. The bound is attained: n threads can leave n sets of one type behind. All that is needed of the atomic length of the vector is coherence; in particular the unreachable!() after the second search is not reached and no thread misses its own push.", "quantifier": "every Eq, Hash, Borrow and From, every assignment of types to containers; every execution of any length, any number of threads, any interleaving, any old lengths that coherence allows the loads to return, any panics and call-backs", "why_tests_cant": "The race needs two threads between the first search and the push; old lengths are not returned on x86.", "anchors": ["src/typearena.rs: with_mutex_hashset (23-84)"]}
{"id": "C73", "title": "Types do not interfere with each other, nor do arenas", "statement": "Take any execution and any set of types. If the calls of Intern for the other types are left out, what remains is again an execution with the same addresses: each call for a kept type takes the same steps and returns the same handle, number or flag, each dereference reads the same value, and the sets and the memory of the kept types are the same. This holds although types share the 32 containers and their mutexes, threads use several types, calls for one type are made inside Hash, Eq, From or Drop of another, and calls panic. The same holds for the Intern of typearena.rs, where each type has its own sets and mutexes, and for arenas in place of types. If an execution on several arenas has undefined behaviour, the uses of one of the arenas have it on their own.", "quantifier": "every Eq, Hash, Borrow and From, lawful or not; every assignment of types to containers; every set of types or arenas; every execution of any length, any number of threads, any interleaving, any panics, call-backs and drops", "why_tests_cant": "It compares two executions, for every execution and every set of types. Tests use one or two types at a time, and colliding containers only by accident.", "anchors": ["src/container.rs: TypeHolderSend (13-30), Arena::with (79-123)", "src/intern.rs: the calls (120-279)", "src/arena.rs: Arena (51-110), intern, intern_ref, intern_from_owned", "src/typearena.rs: with_mutex_hashset (23-84)"]}
{"id": "C74", "title": "ArcIntern calls that are running come to an end", "statement": "Take any state that an execution without panics reaches, in which the counts have room for the handles the running calls may create. Let the running calls go on, in any order, without new calls. If every thread that is able to take a step again and again does take one, then after finitely many steps all calls have returned, every intern call with a handle, and nothing changes any more. Whatever the scheduler does, the number of steps that are not part of a search of new is bounded: calls can keep each other going round only by searching. It is not enough that a thread takes a step if it is able to from some time on: a thread that has dropped the last handle may find the shard locked whenever it has its turn, by a thread that looks for the dying object again and again, so that neither call returns.", "quantifier": "every coherent Eq and Hash; every reachable state without panics; any number of threads and of handles owned by values; every infinite schedule, fair in the stated sense", "why_tests_cant": "Termination under every fair schedule is a statement about infinite executions. The loop of new has no bound on its rounds, and the livelock needs an unlucky scheduler for ever.", "anchors": ["src/arc.rs: new (216-262), Drop (293-325)", "src/arc_dst.rs: new_with_copyable_init_val (66-119)"]}
{"id": "C75", "title": "Calls of Intern, NewIntern and Arena end", "statement": "Take any reachable state and let the running calls go on without new calls, in any order, with user code returning or panicking anywhere. Each call takes a bounded number of steps: at most 6 in the model of Intern, 10 in that of typearena.rs (spinning in push aside), 9 for an arena, and for the drop of an arena one more than it has elements; these numbers are reached. When no thread can take a step, either all calls have returned or all those that have not wait for each other's mutexes from inside nested calls; in typearena.rs it may also be that a call finds a poisoned mutex while its thread unwinds, which aborts the process. So every execution in which a thread that can step from some time on does step comes to rest in such a state. If user code makes calls only for containers of higher number (Intern), types of higher rank (typearena.rs, and not while unwinding), arenas of higher rank (Arena), all calls return. For ArcIntern this weak fairness is not enough (C74).", "quantifier": "every Eq, Hash, Borrow and From that can return (for Arena: sound ones); every reachable state; any number of threads, nested calls and panics; every schedule, finite or infinite and weakly fair", "why_tests_cant": "A statement about all schedules, infinite ones included; a hang in one of them does not show in a test that happens to end.", "anchors": ["src/intern.rs: new, from_ref, is_interned, num_objects_interned (160-290)", "src/container.rs: get_mut (53-63), get_type_mut (18-30)", "src/typearena.rs: with_global, new, from (60-305)", "src/arena.rs: intern*, Drop (59-174, 406-427)"]}
{"id": "C76", "title": "User code that answers differently every time: Intern and NewIntern stay safe and their calls end; when Arena stays safe; ArcIntern does not", "statement": "Eq, Hash and Borrow may give any answers, different ones at every step (a type with interior mutability, a random number generator, a thread-local). Then in every execution Intern and the Intern of typearena.rs have no undefined behaviour; every handle that was ever returned points to one value of its type, the same for ever; a call takes at most 6 (typearena.rs: 10) steps, fair executions come to rest with all calls returned or deadlocked (or about to abort), and if user code calls back in an order all calls return. Uniqueness is lost, even if the code is lawful at each moment: two handles to values that are now equal may differ. Arena has no undefined behaviour for a set of answers exactly if the search of a call finds, with any of these answers, whatever an insertion of its value would find with any other of them; as long as there is none, handles are valid until their arena is dropped, nothing is freed twice and calls end. For Arena and ArcIntern in general safety is lost, even if Eq is lawful at each moment: Arena returns a dangling reference if the search misses and the insertion hits; ArcIntern frees an object that is in use if two values kept apart by Eq are equal when one of them is removed.", "quantifier": "every user type and every sequence of answers of Eq, Hash and Borrow; any number of threads, nested calls and panics; every schedule (infinite and weakly fair for termination); the refutations are single executions", "why_tests_cant": "Tests use types whose Eq and Hash are derived; the sequences of answers are unboundedly many, and memory safety must hold for all of them, since a safe implementation of Eq may do anything.", "anchors": ["src/intern.rs: new, from_ref (160-290)", "src/typearena.rs: with_global, new, from (60-305)", "src/arena.rs: intern* (103-174)", "src/arc.rs: drop, get_mut, entry (140-390)"]}
{"id": "C77", "title": "Display, Debug and Pointer of handles: what is printed, and what can be concluded from it", "statement": "Display and Debug of a handle print what the value's own impl prints, with the same options: for Intern and the Intern of typearena.rs at any time, for ArcIntern as long as the handle lives, for ArenaIntern as long as the arena exists; the text stays the same as long, for all but ArcIntern whatever the user's code does. If equal values print alike it is the text of the value that was interned; otherwise it may be that of an equal value interned earlier. {:p} prints, for all options, fill, sign, 0x, zeros, the address in base 16 without leading zeros, and fill, as wide as asked. The address can be read off exactly if no fill that looks like a digit may follow it; {:p} and {:#p} are of that kind. Then two live handles of ArcIntern print the same at one time iff their values are Eq, and so do two handles of the Interns, where for zero-sized values of different length the standard library must print the metadata too. At different times two handles of ArcIntern may print the same though their values are not Eq.", "quantifier": "every user type with lawful Eq and Hash (none needed where nothing is said of Eq), every impl of Display or Debug, all options of a Formatter (fill, alignment, sign, #, 0, width), all addresses; every execution with any number of threads", "why_tests_cant": "The options and addresses are unboundedly many, and a test of {:p} can only compare the few addresses the allocator happens to give it; that equal texts mean equal values must hold in every interleaving.", "anchors": ["src/intern.rs:395-407, 705-710", "src/arc.rs:364-376, 550-554", "src/typearena.rs:410-422, 554-558", "src/arena.rs:538-550"]}
{"id": "C78", "title": "AsRef between str, OsStr and Path: what a handle's contents look like as another type", "statement": "as_ref of a handle of a str or an OsStr to OsStr or Path gives exactly the bytes that were interned: for Intern and the Intern of typearena.rs at any later time, for ArcIntern as long as the handle lives; a dereferenced ArenaIntern of one of these types likewise as long as the arena exists. For a handle of a Path it gives a spelling of the path that was interned, maybe not the one given: Eq of Path holds iff the spellings differ in repeated separators, in components \".\" other than the first and in a trailing separator only. The spelling never changes while the handle may be used; for the Interns, unless they are cleared, it is that of the one call that stored an equal path. Two handles of str or of OsStr are equal iff their views are the same bytes, two handles of Path iff their views are spellings of one path. Two different handles of str may be equal when seen as paths.", "quantifier": "all strings of bytes as str, OsStr and Path; every hasher, allocator, TypeId and table; every execution with any number of threads, users of the three types interleaved", "why_tests_cant": "The spellings of a path are unboundedly many, and which spelling is kept depends on which thread interned first.", "anchors": ["src/intern.rs:366-385", "src/typearena.rs:385-400", "src/arc.rs:334-354", "src/arena.rs:176-373, 434-447"]}
