# Formal model of droundy/internment in Rocq (Coq 8.16.1)

Layout: `rocq/theories/`.  For each component `X` there are: `XModel.v` (definitions only, the
executable model), `XSpec.v` (vocabulary used by the theorem statements), proof files
(`XInv`, `XStep`, `XFinal`, ...), `XEx.v` (concrete executions) and `PropX.v` (the property
theorems and nothing else: each is `exact lemma`, with `Print Assumptions` and an `Example` beside it).

| model file | code modelled |
|---|---|
| `Base.v` | outcomes, runs of label lists, counting lemmas (no code) |
| `ArcModel.v` | `src/arc.rs` lines 54-56, 88-138, 140-325, 390-396 and `src/arc_dst.rs` lines 66-119: new / from / from_ref / clone / drop / refcount / num_objects_interned / shrink_to_fit |
| `RaceModel.v` | the memory operations and orderings of the same code (arc.rs 208, 231, 241, 279, 299; arc_dst.rs 83, 93) |
| `WeakModel.v` | the load of `refcount()`, arc.rs 207-209, returning old values |
| `NestModel.v` | `ArcModel` plus call-backs from Hash, Eq and Drop (arc.rs 224-322, arc_dst.rs 66-119) |
| `AtomSpec.v` | no code: the atomic interner that `ArcModel` is compared with (C52) |
| `SetSpec.v` | no code: the atomic interner that `InternModel` and `NewModel` are compared with (C55) |
| `ArenaAtom.v` | no code: the atomic arenas that `ArenaModel` is compared with (C56) |
| `ArcCtorModel.v` | every `From`, `Default`, and comparison impl of `src/arc.rs` 185-200, 436-448 and `src/arc_dst.rs` 121-228 |
| `RegModel.v` | `ArcIntern::get_container`, `src/arc.rs` 145-180 |
| `InternModel.v` | `src/boxedset.rs`, `src/container.rs`, `src/intern.rs` 100-282 |
| `TidModel.v` | the type hasher and container index, `src/container.rs` 82-124, `src/typearena.rs` 29-62 |
| `ArenaModel.v` | `src/arena.rs` 51-131, 134-427 |
| `AliasModel.v` | no code: Stacked Borrows and Tree Borrows, for one location |
| `AliasArenaModel.v` | `ArenaModel` plus the pointers made from the boxes (arena.rs 117-173, 408-423, boxedset.rs 58-83) |
| `ArcAliasModel.v` | `ArcModel` plus the pointers made from the boxes (arc.rs 84-138, 208, 223-330, arc_dst.rs 24-119) |
| `InternAliasModel.v` | `InternModel`, `NewModel` plus the references made from the boxes (intern.rs 146-237, 297-338, boxedset.rs 53-83, typearena.rs 205-290) |
| `NewModel.v` | `src/typearena.rs` 23-84, 160-310 (`NewIntern`) |
| `NewScanModel.v` | `NewModel` with the loads of the vector's length (typearena.rs 64, 71, 77) returning numbers |
| `FitsModel.v` | `Fits64`, `heap_location`: `src/intern.rs` 289-338, `src/typearena.rs` 311-363 |
| `DstModel.v` | `RefCount::from_slice`, `from_str`: `src/arc_dst.rs` 24-65 |
| `SerdeModel.v` | serde impls of `arc.rs`, `arc_dst.rs`, `intern.rs`, `typearena.rs` |
| `DeepModel.v` | deepsize impls of `boxedset.rs`, `intern.rs`, `arc.rs`, `arena.rs` |
| `HandleModel.v` | Eq / Hash / Ord of the handles |
| `FmtModel.v` | Display / Debug / Pointer of the handles, and what `core::fmt` does with `{:p}` |
| `TraitModel.v` | `Send` / `Sync` of the types, bounds of the constructors |

## Style of model

Every stateful component is an executable `step : state -> label -> outcome`
(`Next s' | Blocked | Illegal | UB`); an execution is *any* list of labels, folded by
`run`; a label that is blocked or that a borrow-checked client could not issue is
skipped, so quantifying over label lists quantifies over all schedules, all client
programs, all allocator choices (the address is an oracle inside the label) and all
panic points.  `UB` is a real outcome: every memory access in the model checks that the
pointer's allocation is still the one it was created for (pointers carry a ghost
allocation serial as provenance; `==` on handles compares addresses only, and
freed addresses may be re-used by the allocator).

One label = one atomic shared-memory action of the Rust code: taking a lock and looking
up, `fetch_add`, `fetch_sub`, insertion, releasing the lock, removing, freeing.

User types are abstract: a type `V` of values with arbitrary `eq`, `hash` (and `Borrow`,
`From`) functions; laws are hypotheses of the theorems that need them, and the theorems
that do not need them do not have them.

## Per property plan

* C01-C06, C14: one invariant `Inv` over `ArcModel` states, by induction over labels
  (reference count = number of handles, dying entry has exactly one remover, lock
  discipline, ownership of every allocation).
* C07, C08: `Len` operation modelled shard by shard; exactness by a solo-run lemma,
  non-linearizability by a concrete schedule.
* C09: `count` is modelled modulo `M`; safety under a bound, and for *every* `M` an
  execution that reaches `UB`.
* C10: execution reaching `UB` for an asymmetric reflexive `eq`.
* C11, C12: lock-holder argument; constructive schedule with a decreasing measure.
* C13: invariant "zombie entry stays, no call for an Eq value ever returns".
* C15, C50: constructors as functions onto the two interning procedures.
* C16: step model of `get`/`entry().or_insert_with` and `OnceCell`.
* C17: `Shrink` step changes nothing observable.
* C18-C29: `InternModel`: 32 mutexes, `Vec<Box<dyn Any>>` scan, hash set, leaked boxes,
  call stack per thread so that `T::from` may intern; invariant by induction over labels.
* C30-C37: `ArenaModel`: many arenas, each a mutex + set of boxes, `drop`.
* C38, C39: `NewModel` with reserve/publish of the append-only vector.
* C40-C42: `N` arithmetic; step model of the CAS.
* C43, C44: `N` arithmetic on `Layout`, byte-level write.
* C45, C46: serde data model as a tree type, visitors as records of optional methods.
* C47, C48: deepsize contexts as sets of visited addresses.
* C49: pure functions over handles + the uniqueness theorems.

* C36: rules for `Send`/`Sync` as a function on type expressions; threads that obtain a
  handle to an object are read off the logs of the executions.

* C51: `RaceModel`, an instrumentation of `ArcModel` with sets of accesses that happen before;
  the sets are proved to be happens-before as defined in `RaceSpec`, the instrumented
  executions to be those of `ArcModel`.

* C52: a forward simulation from `ArcModel` to the atomic interner of `AtomSpec`; linearization
  points are the successful increment, the insertion and the decrement.

* C53: a call-back is one more activity of `ArcModel` that the interrupted call waits for; a
  search in which Eq runs holds its lock (`n_in`).  Safety by projection to `ArcModel`, deadlock
  by following who waits for whom. A call-back that waits for the removal it runs in: by C54,
  applied to the projection.
* C54: the wait of an intern call for the removal of an equal object. Infinite executions are
  functions `nat -> label` and `nat -> state` in which every label happens (`SpinSpec.v`); the
  starving schedule of the refutation is built in `SpinWit.v`.
* C55: a forward simulation from `InternModel` to the atomic interner of `SetSpec`, done on the
  moves of `InternStep` so that it carries over to `NewModel` through the simulation of C38.
  A hit takes effect when the argument has been dropped, a miss at the insertion, queries when
  they have the answer: all under the mutex. Ghost counting shows that a pointer about to be
  inserted is not an old one.
* C56: the same for `ArenaModel` and `ArenaAtom`. A miss takes effect at the insertion. A hit may
  be delayed until the call returns, because sets of live arenas only grow and an arena is not
  dropped while a call on it runs; so a call whose argument's Drop panics has no effect.
* C57: as C27. Every thread that does not wait can step and gets closer to its end (a rank of
  frames); who waits for whom is read off the stacks, of which the invariant says that exactly
  one frame holds a locked mutex. The vocabulary is `ArenaWait.v`.
* C58: the steps of `InternModel` are given the memory accesses, lock operations and client
  synchronisation they perform (`HbModel.v`); happens-before is the transitive closure of
  program order and release/acquire pairs (`HbSpec.v`).  Invariant: the holder of a mutex (or
  its last release) knows all accesses to what the mutex protects.
* C59: the same for `NewModel`. Loads of the length of a vector may return old lengths (in
  `NewModel`, hence also in C38, C39 and C55) and synchronise only with the publications below
  the length they returned. Base facts come from the simulated `InternModel` state of C38.
* C60: the same for `ArenaModel`, where memory is also freed: creation and drop of an arena are
  writes to the memory of its mutex, a drop writes all its values. Invariant: every access on
  behalf of a live arena happens before the end of some use, or is known to a thread that is
  still using the arena; so if all ends of uses happen before the drop, everything does.
* C61: as C57, for `NewModel`; mutexes belong to types, not containers. Threads in `push` wait for
  the thread with the lowest index, which can go on. A process abort is an outcome of its own.
  The vocabulary is `NewWait.v`.
* C62: `GrowModel` wraps `ArcModel` and adds panics of `Hash` inside `e.insert(())` and inside
  `shrink_to_fit`, and of `Drop`.  The source makes the handle to be returned before the insertion, so unwinding
  drops the object first and the handle afterwards; a flag puts it after the insertion instead,
  to say what that would mend (everything but rehashing in place).
* C63: an account of every allocation of `InternModel`, kept by counting: the numbers of frames that
  hold it, of insertions of it and of failed insertions of it add up to 1 while it is live and to 0
  otherwise.  For `NewModel` through the simulation; there the failed insertions are tied to
  poisoned mutexes, so there is at most one per type.
* C64: `VarModel` wraps `ArcModel` and adds removals by handles that have been coerced to a
  supertype, which look in the container of that type. A coercion does nothing at run time, so the
  type is chosen at the removal, which allows more than the code. Taken from the documentation of
  Rust and not checked: `NonNull<T>` and so `ArcIntern<T>` is covariant; `for<'a> fn(&'a str)` is a
  subtype of `fn(&'static str)`, both are Eq, Hash, Send, Sync and 'static (Rust 1.70 or later), and
  their TypeIds differ.
* C65: `MutModel` wraps `ArcModel`, `InternModel`, `NewModel` and `ArenaModel` and adds stores through handles
  (a `T` with atomics or a mutex inside; the bounds and the documentation allow it). Stores that Eq,
  Hash and Borrow do not see: a simulation, for arbitrary Eq and Hash, between the execution and the
  one without its stores. Arbitrary stores to values of `Intern` and `NewIntern`: the invariant of `InternInv` holds
  of a history in which the object had its new value from the start. What is then read through a handle:
  `MutRead` (`MutReadArc` for the other two). Not modelled: stores that
  change which interned handles a value contains, and data races inside the values (the
  user's business, since `T: Sync`).
* C66: `WeakModel`, `RaceModel` in which the load of `refcount()` may return any value of the count
  that coherence allows and synchronises with the write it reads from. Race freedom: the invariant
  of C51 is kept when a thread learns of any closed set of accesses. Values: each value of the count
  of a live object was the number of handles at some moment; from that moment on no handle whose
  creation the reading thread knows of can have been made, so it owned no more than that.
* C67: on `ArcModel`. The worklist of a thread is its call stack flattened; each `IFree q` in it is a
  box that is being dropped, its destructor having called `Drop for ArcIntern` on the handles inside.
  Memory: every allocation is in a table or owned by one thread (`inv_own`). Nesting: invariant over
  executions, what is above `IFree q` in the worklist was a handle in the value of `q`.
* C68: `AliasModel` has the two aliasing models of Rust as machines for one location; `AliasArenaModel`
  runs `ArenaModel` with one machine per block. Tree Borrows: every tag that is used is a child of the
  box, all of them reserved or frozen, and stays so under the reads the code does. Stacked Borrows
  without retags of boxes into tables: an invariant on the stack (below the box nothing changes; `p` and
  the handles are above it until it is dropped). With such retags: an invariant that says that `p` is
  no longer on the stack when `&*p` is executed.
* C69: `ArcAliasModel` runs `ArcModel` with two machines per block, for the count and for the data. An
  interface (`lspec`) says what a machine has to provide for one location; both machines meet it, Tree
  Borrows with the addition that references survive retags of the Box. Where there is undefined
  behaviour: invariants that say that the pointer of the first handle is not on the stack (Stacked
  Borrows), or that it is apart from a node of the Box which a write through it disables (Tree Borrows).
* C70: `InternAliasModel` does this for `Intern` and for `NewIntern`, with the operations of C69 on a block
  and one new one, passing a reference on. Which blocks are boxes and which are leaked is all that matters,
  so both programs are shown to follow the same small automaton, and blocks that follow it are safe in any
  machine that meets `lspec`.
* C68-C70, that no use has been left out (`C68_no_use_missed` and so on): safety theorems alone would also
  hold of a model whose steps do nothing to the machines. Each step that uses a block (it is undefined in
  the program without aliasing when the block is removed) is undefined when the block's machine is dead.
* C71: the address of a zero-sized box is a function of type and metadata (`ie_dangle`). One direction is C18,
  C30 and C38 for one type; for the other, two calls are executed symbolically in an arbitrary environment
  (`DynIntern`, `DynNew`, `DynArena`). Trait objects are values with a concrete type; the vtable is the metadata.
* C72: `NewScanModel`, in which a load of the length returns a number between what the thread has
  seen and the current length. A thread that is about to push for a type knows of no set of it; a
  thread that has pushed or found one does, for ever. `NewModel`'s rule that the second search does
  not miss the thread's own push is proved here, not assumed. The bound is attained by n threads
  that all search before any of them pushes, executed by induction on n.
* C73: a simulation between the execution and what is left of it, `proj` (`Isol`), `nproj`
  (`NIsol`) and `aproj` (`AIsol`). Which of the allocations to come are removed ones has to be known in advance, to
  number the others: the set of removed serials is obtained first, by induction over the
  execution, and the renaming counts the kept serials below. A removed call may hold the mutex
  of a container; that the remaining execution does not hold it at that moment follows from
  mutual exclusion in the given one. For `NewIntern` the indices of the sets are renumbered in
  the same way, from the reserved indices that go to removed types.
* C74: a measure (`phi` in `Fair.v`) that no step raises and every step but a search lowers. It has
  5 for each pair of calls that may still insert (a call can lose the race for `entry` once per
  insertion by another), 5 for each call past its search whose value has an equal entry, the steps
  left in each call, and four per handle owned by a value in memory. Strong fairness is stated so
  that no classical axiom is needed: at any time, a thread will step or there is a time after which
  it never can. A removing thread waits for the shard's lock; each holder lets go within three
  steps; so the remover can step again and again. Under weak fairness it need not: five steps in a
  circle (`FairEx.v`). New calls are excluded (with them C54 gives starvation), and so are panics (C13).
* C75: the other three structures have no loop but that of `push`, so the steps left in each frame,
  added up, fall with every step (`ileft`, `nleft`, `aleft`), panics included. `Term.v` shows once and
  for all, for any step function with such a measure, that the number of steps is bounded and that a
  weakly fair execution comes to rest: a thread that can step now either does, or somebody else has
  stepped meanwhile. That a state at rest is finished or deadlocked is C27, C57 and C61 again, now for
  every schedule instead of a chosen one. The bounds 6, 10 and 9 count steps of the model, and are
  reached. Spinning in `push` is a blocked attempt. User code that does not return is a thread that
  is not scheduled, which fairness excludes.
* C76: user code with a state of its own, or a random one. A label carries the answers of `Eq`, `Hash`
  and `Borrow` in this step (`WhimSpec.v`), so that they may differ from step to step; a step looks at
  any entry it may find, so one function per step loses nothing: whether the search misses, and which
  entry it returns, is covered. The invariants of Intern and NewIntern do not mention the answers
  (`IInv`, `MI`), so they survive; so do the measures of C75, and which thread can step does not depend
  on the answers. Arena and ArcIntern rely on two answers agreeing, which is refuted by an execution each.
  For Arena the condition on a set of answers is exact (`WhimArena.v`): necessary by a search under one
  and an insertion under another, sufficient by the frame invariant "this call's search, under some
  answers of the set, missed everything stored now".
* C77: text. `FmtModel.v` writes down the part of `core::fmt` that `{:p}` uses, with all its options, down to
  the characters; `laid_out` says independently what the text should look like. That an address can be read off the text is shown by a decoder working from the right; the
  condition on the options is exact. The rest is C02, C18, C20, C30 and C38 put together with it.
* C78: `AsRef` to `OsStr` and `Path`. `ViewModel.v` makes the three text types users of Intern, the Intern of
  typearena.rs, ArcIntern and Arena, with `Eq` of paths by components. `ViewSpec.v` says which spellings mean one path,
  by rewriting rules instead; `C78_path_eq` is that they agree.
* C58-C60, second half (`HbStepSpec.v`): that no access has been forgotten. Whatever a step
  changes it is said to write, whatever is not said to be accessed can be replaced by something
  else without changing the step, locks are acquired and released as said, and sets are accessed
  under their mutex. By cases over the steps.
* C51, second half (`RaceAccSpec.v`): the same for `RaceModel`. Objects are created and destroyed
  by writes and counts changed by read-modify-writes only; data, counts and shards that a step
  is not said to access can be replaced; entries come and go under the lock of their shard.

No property is believed inexpressible.

## Trusted base

* Coq 8.16.1's kernel (including `vm_compute`, used for concrete executions), and the
  statements: `Prop*.v`, `*Spec.v`, `ArenaAtom.v`, `ArenaWait.v`, `*Model.v`, `Base.v`.
* `Print Assumptions` under every theorem of the `Prop*.v` files says "Closed under the global
  context": no axiom is used.  (std++ loads ssreflect, whose module `ssrunder` declares seven
  parameters `Coq.ssr.ssrunder.Under_rel.*`; they are what `coqchk -o` lists for the whole
  development.  They are part of Coq's standard distribution and no theorem here depends on
  them.)
* That the model is the code: the table above and the line citations in the model files.
  `ModelTests.v` replays the crate's own unit tests in the models and checks that the models
  call misuse (a dangling pointer) undefined; it holds tests, not properties.

### What is idealised in the modelled code

* **Memory model.**  Threads interleave sequentially consistently.  Exception: the `Relaxed`
  load of `HEAP_LOCATION` (FitsModel) may return the old null, and the loads of the length of
  a vector in NewIntern may return an old length.  For Intern, NewIntern and Arena C58 to C60
  show that there is no data race, so that the interleavings are all there is.  For ArcIntern
  C51 shows that
  the executions have no data race under happens-before with the orderings in the code; the
  counts are changed by read-modify-writes only, which read the latest value, so that the
  interleavings give all their values.  Only `refcount()` can return an older one, which is the
  subject of C66.  The fence of arc.rs:314 is ignored.  As usual, program order and reads-from
  are assumed not to form cycles.
* **Memory.**  Allocations have an address chosen by the label (any address not in use) and
  a serial number.  A freed address may be re-used.  Integer/pointer casts keep provenance
  (`Fits64`).  Out-of-memory is modelled only in `from_slice` (C44), where the code does not
  check it.
* **Libraries.**  dashmap 5 (a list of shards, each a reader-writer lock around a hash table;
  `get_mut`, `entry`, `remove_if`-style calls and `len` as documented), hashbrown's `HashMap`
  (`raw_entry`, `insert`, `get`: which entry a search with an unlawful `Eq` returns is left
  open), `std::sync::Mutex` with poisoning, `once_cell`, append-only-vec 0.1 (reserve, then
  publish in order), serde's and deepsize's traits are modelled by their documented behaviour
  and not by their code.  Growing a table is invisible: its allocation and the calls of `Hash`
  it makes are not modelled, except for panics in them.
  For `Intern` and `Arena`
  nothing is ever removed, so a table is only ever moved to a larger one, and a panic leaves the
  old one intact.  For `ArcIntern` see `GrowModel` (C62): a table with tombstones may be rehashed
  in place, and then hashbrown's `rehash_in_place` drops the entries not rehashed yet; the key
  given to `VacantEntry::insert` is dropped once.  (dashmap 5's own code may drop it twice in this
  case; the model is the more favourable one.)
* **User code.**  `Eq`, `Hash`, `Borrow` are functions of the value (no state; but see C65 for
  values that change and C76 for answers that vary); `From` may
  return any of a set of values.  In Intern, NewIntern and Arena user code may call back into
  the library and may panic at any point; a panic inside a destructor during unwinding
  aborts (nothing happens afterwards).  In ArcIntern `Hash`/`Eq`/`Drop` may panic (the latter in
  `GrowModel`) and values may own handles (`te_kids`), dropped with them; `Hash`, `Eq` and `Drop` that call back
  into ArcIntern are in `NestModel` (C53), where the progress theorems C11 and C12 do not apply.
* **deepsize**: sums are unbounded; the user's `DeepSizeOf` is what the derive macro gives.
* **Aliasing** (C68-C70): `AliasModel.v` is written from the papers on Stacked Borrows and Tree Borrows and
  from what Miri is documented to do with boxes (`Box<T>` arguments are retagged like `&mut T` and
  protected) and with protectors. Rust has not settled on a model. How often a box is retagged is a
  parameter. A block is one location, its type has no interior mutability, a search of a table makes one
  reference to each entry; moving a box within the table does not retag it (hashbrown moves raw bytes).
  For ArcIntern (C69) a block is two locations, the count (inside an `UnsafeCell`) and the data; whether
  `Box<RefCount<T>>` counts as interior mutable where the data is, is a parameter; the argument of
  `m.remove` is protected in the step in which the entry is taken out, and not before.
  For Intern (C70) a value is two locations, one inside an `UnsafeCell` and one outside; the client, `Hash`
  and `Eq` may write to the former through any reference they get. Which of the references to a value is
  used is left open; an integer turned back into a pointer (`Fits64::from_u64`) has the provenance of one
  of them. When a protected argument goes out of scope, Tree Borrows uses it once more, which pointers
  derived from it do not notice (as in Miri).
* **Paths** (C78): `Eq` and `Hash` of `Path` go by its components, which `comps` computes as documented for
  Unix; `as_ref` between `str`, `OsStr` and `Path` leaves the bytes alone.
* **Layout** (C43): the compiler's layout of `RefCount<[T]>` (a `repr(C)`-like struct of a
  usize and a slice) is written down in `PropDst.v`'s spec from the Rust reference.
* **Send/Sync**: the rules for `&T`, `Box`, `Mutex`, collections are those of std's
  documentation.

### What is not modelled

`AsRef<T>`, `Deref` as conversions (a dereference is modelled as a memory access; C78 is about `AsRef` to
another type); paths of Windows; errors of a `Formatter`'s writer; the `loom`/test-only `yield_on_tests`; `_take` (unused).
