{
 "claims": [
  {
   "property": "C01",
   "status": "proved",
   "theorems": [
    "C01_memory_safe",
    "C01_memory_safe_short"
   ],
   "note": "UB unreachable for every schedule, client, allocator and panic point, given reflexive symmetric Eq compatible with Hash (transitivity not needed) and at most usize::MAX handles to one object"
  },
  {
   "property": "C02",
   "status": "proved",
   "theorems": [
    "C02_handles_eq_iff_values_eq",
    "C02_results_eq_iff_arguments_eq"
   ],
   "note": ""
  },
  {
   "property": "C03",
   "status": "proved",
   "theorems": [
    "C03_handle_reads_what_was_interned",
    "C03_handle_keeps_its_object",
    "C03_reads_consistent"
   ],
   "note": ""
  },
  {
   "property": "C04",
   "status": "proved",
   "theorems": [
    "C04_refcount_exact"
   ],
   "note": ""
  },
  {
   "property": "C05",
   "status": "proved",
   "theorems": [
    "C05_no_leak"
   ],
   "note": ""
  },
  {
   "property": "C06",
   "status": "proved",
   "theorems": [
    "C06_live_handle_pins_object"
   ],
   "note": ""
  },
  {
   "property": "C07",
   "status": "proved",
   "theorems": [
    "C07_num_objects_exact"
   ],
   "note": ""
  },
  {
   "property": "C08",
   "status": "proved",
   "theorems": [
    "C08_num_objects_sums_visits",
    "C08_num_objects_snapshot_refuted"
   ],
   "note": "num_objects is a sum of per-shard visits; it is not a snapshot (refutation)"
  },
  {
   "property": "C09",
   "status": "proved",
   "theorems": [
    "C09_bound_is_tight",
    "C09_clone_forget_overflow"
   ],
   "note": "the safe side of the bound is C01"
  },
  {
   "property": "C10",
   "status": "proved",
   "theorems": [
    "C10_lawless_eq_memory_safe_refuted",
    "C10_lawless_eq_pins_object_refuted",
    "C10_lawless_hash_memory_safe_refuted"
   ],
   "note": ""
  },
  {
   "property": "C11",
   "status": "proved",
   "theorems": [
    "C11_no_deadlock"
   ],
   "note": ""
  },
  {
   "property": "C12",
   "status": "proved",
   "theorems": [
    "C12_calls_can_finish"
   ],
   "note": ""
  },
  {
   "property": "C13",
   "status": "proved",
   "theorems": [
    "C13_panic_in_last_drop_poisons"
   ],
   "note": ""
  },
  {
   "property": "C14",
   "status": "proved",
   "theorems": [
    "C14_children_alive",
    "C14_released_outside_locks",
    "C14_everything_freed"
   ],
   "note": ""
  },
  {
   "property": "C15",
   "status": "proved",
   "theorems": [
    "C15_constructors_agree",
    "C15_constructor_starts"
   ],
   "note": ""
  },
  {
   "property": "C16",
   "status": "proved",
   "theorems": [
    "C16_one_container_per_type",
    "C16_no_panic_no_duplicate",
    "C16_calls_can_finish"
   ],
   "note": ""
  },
  {
   "property": "C17",
   "status": "proved",
   "theorems": [
    "C17_shrink_unobservable"
   ],
   "note": ""
  },
  {
   "property": "C18",
   "status": "proved",
   "theorems": [
    "C18_handles_eq_iff_values_eq"
   ],
   "note": ""
  },
  {
   "property": "C19",
   "status": "proved",
   "theorems": [
    "C19_handle_valid_forever"
   ],
   "note": ""
  },
  {
   "property": "C20",
   "status": "proved",
   "theorems": [
    "C20_result_equals_argument",
    "C20_first_representative",
    "C20_equal_argument_same_handle"
   ],
   "note": ""
  },
  {
   "property": "C21",
   "status": "proved",
   "theorems": [
    "C21_is_interned_exact",
    "C21_returned_is_interned",
    "C21_is_interned_monotone",
    "C21_only_supplied_values_inserted"
   ],
   "note": ""
  },
  {
   "property": "C22",
   "status": "proved",
   "theorems": [
    "C22_len_exact",
    "C22_len_monotone"
   ],
   "note": ""
  },
  {
   "property": "C23",
   "status": "proved",
   "theorems": [
    "C23_sets_isolated",
    "C23_set_has_only_its_type",
    "C23_set_complete",
    "C23_one_set_per_type"
   ],
   "note": ""
  },
  {
   "property": "C24",
   "status": "proved",
   "theorems": [
    "C24_index_in_range",
    "C24_index_stable",
    "C24_hash_fits",
    "C24_index_of_u64",
    "C24_index_of_bytes",
    "C24_index_used"
   ],
   "note": ""
  },
  {
   "property": "C25",
   "status": "proved",
   "theorems": [
    "C25_panic_releases_mutex",
    "C25_poison_ignored",
    "C25_later_calls_work"
   ],
   "note": ""
  },
  {
   "property": "C26",
   "status": "proved",
   "theorems": [
    "C26_incoherent_calls_allocate",
    "C26_uniqueness_without_coherence_refuted"
   ],
   "note": "without coherence: a general theorem (every mismatching call allocates) and, for one conversion, n handles for n calls; with coherence: C18, C20"
  },
  {
   "property": "C27",
   "status": "proved",
   "theorems": [
    "C27_finish_or_deadlock",
    "C27_deadlock_needs_nesting",
    "C27_no_deadlock_without_nesting",
    "C27_no_deadlock_if_ordered",
    "C27_reentrancy_deadlocks",
    "C27_deadlock_is_forever"
   ],
   "note": "dichotomy finish/deadlock, deadlocks are exactly wait cycles of nested calls; T::from assumed able to return"
  },
  {
   "property": "C28",
   "status": "proved",
   "theorems": [
    "C28_memory_safe"
   ],
   "note": ""
  },
  {
   "property": "C29",
   "status": "proved",
   "theorems": [
    "C29_clear_breaks_uniqueness"
   ],
   "note": "validity after clears is C19"
  },
  {
   "property": "C30",
   "status": "proved",
   "theorems": [
    "C30_handles_eq_iff_values_eq",
    "C30_result_equals_argument"
   ],
   "note": "zero-sized values of one type and length assumed Eq, as for C18"
  },
  {
   "property": "C31",
   "status": "proved",
   "theorems": [
    "C31_no_undefined_behaviour",
    "C31_handle_valid_until_drop",
    "C31_not_freed_before_drop",
    "C31_drop_frees_once",
    "C31_panicking_drop",
    "C31_freed_by_own_arena",
    "C31_drop_frees_nothing_else",
    "C31_no_double_free",
    "C31_no_leak"
   ],
   "note": "if the drop of a value panics the rest of the arena leaks (theorem); otherwise freed exactly once"
  },
  {
   "property": "C32",
   "status": "proved",
   "theorems": [
    "C32_entry_points_agree",
    "C32_box_stored_or_freed"
   ],
   "note": ""
  },
  {
   "property": "C33",
   "status": "proved",
   "theorems": [
    "C33_arenas_independent",
    "C33_different_arenas_not_equal",
    "C33_zero_sized_equal"
   ],
   "note": ""
  },
  {
   "property": "C34",
   "status": "proved",
   "theorems": [
    "C34_safe_iff_coherent",
    "C34_normalising_conversion_dangles"
   ],
   "note": "exact: with lawful Eq/Hash/Borrow, safe in all executions iff the conversion is coherent"
  },
  {
   "property": "C35",
   "status": "proved",
   "theorems": [
    "C35_only_dangling_references",
    "C35_safe_iff_sound",
    "C35_safe_iff_symmetric",
    "C35_asymmetric_eq_dangles"
   ],
   "note": "exact: safe iff every call is sound; without conversions iff Eq is symmetric where compared"
  },
  {
   "property": "C36",
   "status": "proved",
   "theorems": [
    "C36_intern_is_send_and_sync",
    "C36_new_is_send_and_sync",
    "C36_arc_is_send_and_sync",
    "C36_handles_sound",
    "C36_handles_complete",
    "C36_arena_refuted",
    "C36_arena_shares_every_send_type",
    "C36_arena_shared_is_send_or_sync"
   ],
   "note": "holds for Intern, NewIntern, ArcIntern; refuted for Arena, exactly for types that are Send but not Sync; the auto-trait rules of std are taken as documented"
  },
  {
   "property": "C37",
   "status": "proved",
   "theorems": [
    "C37_panic_releases_mutex",
    "C37_poison_ignored",
    "C37_later_calls_work"
   ],
   "note": ""
  },
  {
   "property": "C38",
   "status": "proved",
   "theorems": [
    "C38_same_type_same_set",
    "C38_first_set_is_used",
    "C38_no_undefined_behaviour",
    "C38_push_finishes",
    "C38_handles_eq_iff_values_eq",
    "C38_result_equals_argument",
    "C38_inserted_once",
    "C38_len_is_exact"
   ],
   "note": "append-only-vec push modelled as reserve + publish; a search may read an old length"
  },
  {
   "property": "C39",
   "status": "proved",
   "theorems": [
    "C39_type_disabled_for_ever",
    "C39_disabled_from_the_panic_on",
    "C39_call_panics",
    "C39_only_user_panics",
    "C39_handles_stay_valid"
   ],
   "note": "a second panic while unwinding aborts the process; not a continuation"
  },
  {
   "property": "C40",
   "status": "proved",
   "theorems": [
    "C40_decodes",
    "C40_injective",
    "C40_round_trip"
   ],
   "note": "addresses and codes as numbers; int-to-pointer provenance is not modelled"
  },
  {
   "property": "C41",
   "status": "proved",
   "theorems": [
    "C41_heap_location_agrees",
    "C41_wait_free"
   ],
   "note": "relaxed loads may return a stale null; compare_exchange reads the latest value"
  },
  {
   "property": "C42",
   "status": "proved",
   "theorems": [
    "C42_small_codes"
   ],
   "note": "stronger: iff"
  },
  {
   "property": "C43",
   "status": "proved",
   "theorems": [
    "C43_layout_is_the_types",
    "C43_layout_is_the_least",
    "C43_panics_iff_too_large",
    "C43_elements_in_bounds"
   ],
   "note": "that rustc lays out RefCount<[T]> (repr(Rust), two fields, the last unsized) with the count first is assumed, as the cast at arc_dst.rs:36 does"
  },
  {
   "property": "C44",
   "status": "proved",
   "theorems": [
    "C44_contents",
    "C44_elements",
    "C44_str_contents",
    "C44_null_is_not_checked"
   ],
   "note": "byte-level memory; the null case is shown to be undefined behaviour"
  },
  {
   "property": "C45",
   "status": "proved",
   "theorems": [
    "C45_arc_round_trip",
    "C45_str_round_trip",
    "C45_str_reads",
    "C45_intern_round_trip",
    "C45_new_intern_round_trip"
   ],
   "note": "formats are arbitrary functions from what serde's data model receives to visitor calls; also for NewIntern"
  },
  {
   "property": "C46",
   "status": "proved",
   "theorems": [
    "C46_bytes_fail",
    "C46_bytes_round_trip",
    "C46_succeeds_iff",
    "C46_bytes_read"
   ],
   "note": "both families, and for any format: deserialising succeeds iff the format hands over bytes"
  },
  {
   "property": "C47",
   "status": "proved",
   "theorems": [
    "C47_interned_counts_once",
    "C47_arena_counts_once",
    "C47_handles_add_nothing"
   ],
   "note": "exact formula for every reachable state, any sharing pattern (also cyclic) and any iteration order; user DeepSizeOf impls are taken to be the derived ones; usize overflow of sums not modelled"
  },
  {
   "property": "C48",
   "status": "proved",
   "theorems": [
    "C48_arc_counts_per_object",
    "C48_arc_counts_live_objects",
    "C48_arena_handle_counts_twice",
    "C48_surplus_in_interned",
    "C48_surplus_in_arena",
    "C48_padding_not_counted"
   ],
   "note": "exact formula with multiplicities, for a table that does not change during the call; padding of RefCount is not counted"
  },
  {
   "property": "C49",
   "status": "proved",
   "theorems": [
    "C49_arc_compares_values",
    "C49_arc_order",
    "C49_arc_hash",
    "C49_intern_compares_values",
    "C49_intern_order",
    "C49_intern_hash",
    "C49_new_compares_values",
    "C49_new_order",
    "C49_new_hash",
    "C49_arena_hash"
   ],
   "note": "ArcIntern, Intern and the Intern of typearena.rs; ArenaIntern has Eq and Hash only; a hasher is what is written to it"
  },
  {
   "property": "C50",
   "status": "proved",
   "theorems": [
    "C50_compare_with_plain"
   ],
   "note": ""
  },
  {
   "property": "C51",
   "status": "proved",
   "theorems": [
    "C51_race_free",
    "C51_code_race_free",
    "C51_weaker_drop_races",
    "C51_model_exact",
    "C51_model_ub",
    "C51_reads_data",
    "C51_reads_count",
    "C51_writes",
    "C51_locks",
    "C51_table_reads",
    "C51_table_writes"
   ],
   "note": "happens-before is defined on the events of the execution (program order, locks, release sequences of the counts, client synchronisation); the interleavings of ArcModel, shown to be the same executions; the fence of arc.rs:314 is not needed and ignored"
  },
  {
   "property": "C52",
   "status": "proved",
   "theorems": [
    "C52_linearizable",
    "C52_one_effect",
    "C52_atomic_unique"
   ],
   "note": "num_objects_interned is left out, it is not atomic (C08); refcount reads the count of the interleaving; the atomic interner and the visible actions are in AtomSpec.v"
  },
  {
   "property": "C53",
   "status": "proved",
   "theorems": [
    "C53_reentrant_memory_safe",
    "C53_reentrant_is_concurrent",
    "C53_any_call_back",
    "C53_no_deadlock_if_ordered",
    "C53_same_shard_deadlocks",
    "C53_equal_value_waits_for_itself"
   ],
   "note": "call-backs are modelled as further activities of ArcModel (NestModel.v); user code may run in searches and, more than in the code, anywhere in a chain of drops; that ordered call-backs also finish is not stated"
  },
  {
   "property": "C54",
   "status": "proved",
   "theorems": [
    "C54_undisturbed_call",
    "C54_retry_has_a_cause",
    "C54_waits_for_the_dropper",
    "C54_calls_return_if_fair_refuted"
   ],
   "note": "that fair scheduling makes every call return is refuted; steps are the atomic steps of ArcModel"
  },
  {
   "property": "C55",
   "status": "proved",
   "theorems": [
    "C55_intern_linearizable",
    "C55_new_linearizable",
    "C55_one_effect",
    "C55_all_complete",
    "C55_atomic_unique",
    "C55_panics_from_user_code"
   ],
   "note": "the atomic interner and the visible actions are in SetSpec.v; a panicking call may leave a leaked value behind, which no client can see (C26); From that breaks its contract is C26"
  },
  {
   "property": "C56",
   "status": "proved",
   "theorems": [
    "C56_arena_linearizable",
    "C56_one_effect",
    "C56_all_complete",
    "C56_drop_frees_all",
    "C56_panicking_drop_frees",
    "C56_atomic_unique",
    "C56_atomic_no_duplicates",
    "C56_atomic_apart",
    "C56_panics_from_user_code"
   ],
   "note": "Simulation between ArenaModel and the atomic arenas of ArenaAtom. A miss takes effect at the insertion; a hit takes effect once the argument has been dropped, since its Drop may panic. Poisoning of the mutex is ignored by get_mut, and so in the model."
  },
  {
   "property": "C57",
   "status": "proved",
   "theorems": [
    "C57_finish_or_deadlock",
    "C57_deadlock_needs_nesting",
    "C57_no_deadlock_without_nesting",
    "C57_no_deadlock_if_ordered",
    "C57_reentrancy_deadlocks",
    "C57_deadlock_is_forever",
    "C57_deadlocked_arena_is_lost"
   ],
   "note": "The drop of an arena needs no mutex, since the borrow checker allows it only when no call on it runs. That calls can finish assumes a_sound (C35: no undefined behaviour) and that From can return."
  },
  {
   "property": "C58",
   "status": "proved",
   "theorems": [
    "C58_intern_race_free",
    "C58_unsynchronised_handle_refuted",
    "C58_model_exact",
    "C58_reads_value",
    "C58_reads_set",
    "C58_writes",
    "C58_syncs"
   ],
   "note": "handles_travel is what safe Rust guarantees to its callers: a handle is used by a thread only after a call that returned it, in happens-before. A container (vector and all its sets) is one location."
  },
  {
   "property": "C59",
   "status": "proved",
   "theorems": [
    "C59_new_intern_race_free",
    "C59_unsynchronised_handle_refuted",
    "C59_model_exact",
    "C59_reads_value",
    "C59_reads_set",
    "C59_reads_elt",
    "C59_writes",
    "C59_syncs"
   ],
   "note": "append-only-vec: the length is published by compare_exchange(Release) and read by load(Acquire), which may return an old length; element and set are written before. handles_travel as in C58."
  },
  {
   "property": "C60",
   "status": "proved",
   "theorems": [
    "C60_arena_race_free",
    "C60_defined",
    "C60_early_drop_refuted",
    "C60_unsynchronised_arena_refuted",
    "C60_unsynchronised_handle_refuted",
    "C60_model_exact",
    "C60_reads_value",
    "C60_reads_set",
    "C60_writes",
    "C60_syncs"
   ],
   "note": "Creating, locking and freeing an arena count as accesses of its memory. Assumed of the clients (safe Rust): handles_travel, arenas_travel, drops_are_last; each is shown to be necessary. Forming the reference &*p counts as a read."
  },
  {
   "property": "C61",
   "status": "proved",
   "theorems": [
    "C61_finish_or_deadlock",
    "C61_deadlock_needs_nesting",
    "C61_no_deadlock_without_nesting",
    "C61_no_deadlock_if_ordered",
    "C61_finish_if_ordered_and_calm",
    "C61_reentrancy_deadlocks",
    "C61_deadlock_is_forever",
    "C61_deadlocked_type_is_lost"
   ],
   "note": "A panic on a poisoned mutex while the thread unwinds aborts the process; this is an outcome of its own in the theorems. That calls can finish assumes that From can return."
  },
  {
   "property": "C62",
   "status": "proved",
   "theorems": [
    "C62_panic_in_insert_refuted",
    "C62_panic_in_insert_is_ub",
    "C62_no_return_from_panic_in_insert",
    "C62_lost_entries_dangle",
    "C62_safe_if_insert_returns",
    "C62_safe_if_handle_made_last",
    "C62_nothing_leaks",
    "C62_handle_made_last_refuted"
   ],
   "note": "Refutes memory safety for a Hash that panics in the insertion, as the property says; dashmap and hashbrown are modelled by what unwinding does to their tables, in the way most favourable to the crate."
  },
  {
   "property": "C63",
   "status": "proved",
   "theorems": [
    "C63_where_memory_is",
    "C63_one_place",
    "C63_one_allocation_per_value",
    "C63_len_is_memory",
    "C63_panics_leak_refuted",
    "C63_new_one_allocation_per_value",
    "C63_new_leaks_once_per_type"
   ],
   "note": "The refuted statement is the one about panics in insertions; a zero-sized value counts as an allocation although its box occupies no memory."
  },
  {
   "property": "C64",
   "status": "proved",
   "theorems": [
    "C64_memory_safe_refuted",
    "C64_five_lines",
    "C64_finds_a_live_object",
    "C64_same_type",
    "C64_safe_when_apart",
    "C64_safe_when_apart_short",
    "C64_lost_for_ever",
    "C64_handles_eq_refuted",
    "C64_intern_handles_eq_refuted",
    "C64_intern_never_equal"
   ],
   "note": "Refutes memory safety for handles coerced to a supertype, as the property says. Variance and the TypeIds of function pointer types are taken from the documentation of Rust. The leak is proved under the condition that makes memory safe (apart)."
  },
  {
   "property": "C65",
   "status": "proved",
   "theorems": [
    "C65_arc_memory_safe_refuted",
    "C65_arc_set_and_drop",
    "C65_arc_unseen_stores",
    "C65_arc_unseen_stores_safe",
    "C65_arc_unseen_stores_safe_short",
    "C65_arc_eq_is_unseen",
    "C65_arc_unstored_values_stay",
    "C65_arc_last_store_is_read",
    "C65_arena_memory_safe_refuted",
    "C65_arena_set_between",
    "C65_arena_unseen_stores",
    "C65_arena_unseen_stores_safe",
    "C65_arena_unstored_values_stay",
    "C65_arena_last_store_is_read",
    "C65_intern_any_stores_safe",
    "C65_intern_handles_for_ever",
    "C65_intern_unstored_values_stay",
    "C65_intern_last_store_is_read",
    "C65_intern_unique_refuted",
    "C65_intern_unseen_stores",
    "C65_intern_eq_is_unseen",
    "C65_new_any_stores_safe",
    "C65_new_handles_for_ever",
    "C65_new_unstored_values_stay",
    "C65_new_last_store_is_read",
    "C65_new_unique_refuted",
    "C65_new_unseen_stores"
   ],
   "note": "Refutes memory safety of ArcIntern and Arena for values that are changed while interned, as the property says. Stores that move interned handles in and out of values are not modelled; one search of a table is one step."
  },
  {
   "property": "C66",
   "status": "proved",
   "theorems": [
    "C66_race_free",
    "C66_coherent",
    "C66_possible",
    "C66_refcount_value",
    "C66_refcount_lower",
    "C66_refcount_exact",
    "C66_stale_low",
    "C66_stale_high",
    "C66_model_exact",
    "C66_model_ub"
   ],
   "note": "The load may return any value that write-read and read-read coherence allow; were it SeqCst, or if the fence of arc.rs:314 is taken into account, fewer are possible. Everything else is sequentially consistent, which loses nothing, since the counts are otherwise changed by read-modify-writes only and the tables are under locks (C51). Program order and reads-from are assumed not to form cycles."
  },
  {
   "property": "C67",
   "status": "proved",
   "theorems": [
    "C67_memory",
    "C67_entries",
    "C67_nesting",
    "C67_depth",
    "C67_depth_unbounded"
   ],
   "note": "The stack is not modelled: the theorem is about the number of destructors entered and not left, each of which has a frame. The statement about chains is for the first handle in each value; handles after it are dropped later."
  },
  {
   "property": "C68",
   "status": "proved",
   "theorems": [
    "C68_tree_borrows",
    "C68_tree_borrows_defined",
    "C68_stacked_borrows_box_not_retagged",
    "C68_stacked_borrows_defined",
    "C68_stacked_borrows_refuted_at",
    "C68_stacked_borrows_handles",
    "C68_stacked_borrows_refuted",
    "C68_machines",
    "C68_reads",
    "C68_no_use_missed"
   ],
   "note": "Refutes the absence of undefined behaviour under Stacked Borrows if boxes are retagged as they are moved into the table, as the property says. The aliasing models are written down from the papers and the documentation of Miri. One location per block, types without interior mutability, one reference per entry and search."
  },
  {
   "property": "C69",
   "status": "proved",
   "theorems": [
    "C69_tree_borrows",
    "C69_stacked_borrows",
    "C69_stacked_borrows_first_handle",
    "C69_stacked_borrows_remove",
    "C69_tree_borrows_box_protected",
    "C69_tree_borrows_box",
    "C69_refuted",
    "C69_same",
    "C69_machines",
    "C69_no_use_missed"
   ],
   "note": "Refutes the absence of undefined behaviour for the code as it is if e.insert retags the Box, as the property says. The aliasing models are written down from the papers and the documentation of Miri; which functions of dashmap retag the Box is a parameter. Two locations per block, one reference per entry and search."
  },
  {
   "property": "C70",
   "status": "proved",
   "theorems": [
    "C70_intern",
    "C70_typearena",
    "C70_references",
    "C70_typearena_references",
    "C70_no_use_missed",
    "C70_typearena_no_use_missed",
    "C70_early",
    "C70_early_undefined",
    "C70_typearena_early_undefined"
   ],
   "note": "The retags are parameters. A value is two locations, one inside an UnsafeCell and one outside; a search of a set looks at every entry."
  },
  {
   "property": "C71",
   "status": "proved",
   "theorems": [
    "C71_zero_sized",
    "C71_zero_sized_typearena",
    "C71_zero_sized_arena",
    "C71_trait_objects",
    "C71_trait_objects_typearena",
    "C71_trait_objects_arena"
   ],
   "note": "Refutes uniqueness where two zero-sized types share a vtable, as the property says. Which vtables there are is a parameter (the metadata of a value). For Arena the values must be obtainable from a reference, since intern_ref is the only call for trait objects."
  },
  {
   "property": "C72",
   "status": "proved",
   "theorems": [
    "C72_coherent_loads_suffice",
    "C72_one_set_per_thread_and_type",
    "C72_only_first_calls_create",
    "C72_losers_are_never_used",
    "C72_bound_is_attained",
    "C72_fresh_is_coherent"
   ],
   "note": "Threads are counted over the whole execution. That a thread started after a push sees it, by happens-before, is not used: it would lower the bound only for such threads. AppendOnlyVec is written down from its source as remembered: reserve, write, publish in order."
  },
  {
   "property": "C73",
   "status": "proved",
   "theorems": [
    "C73_types_do_not_interfere",
    "C73_new_types_do_not_interfere",
    "C73_arenas_do_not_interfere",
    "C73_undefined_behaviour_of_one_arena"
   ],
   "note": "Progress is not included: a call may wait for the mutex of a container while another type uses it. Pointers keep address and metadata; the ghost serials are renumbered one-to-one. Unused arenas are still created. For NewIntern the indices of the sets are renumbered too."
  },
  {
   "property": "C74",
   "status": "proved",
   "theorems": [
    "C74_calls_return",
    "C74_bounded_work",
    "C74_weak_fairness_refuted"
   ],
   "note": "Strong fairness, no new calls, no panics, counts with room. Under weak fairness it is false (refuted). Call-backs from Hash, Eq and Drop are not included (NestModel)."
  },
  {
   "property": "C75",
   "status": "proved",
   "theorems": [
    "C75_intern_bounded",
    "C75_new_bounded",
    "C75_arena_bounded",
    "C75_intern_stuck",
    "C75_new_stuck",
    "C75_arena_stuck",
    "C75_intern_settles",
    "C75_new_settles",
    "C75_arena_settles",
    "C75_intern_returns",
    "C75_new_returns",
    "C75_arena_returns"
   ],
   "note": "No new calls. Conversions can return (total_from), which for Intern and Arena only matters in that a thread in user code is able to step. Steps are those of the models; spinning in push is a blocked attempt."
  },
  {
   "property": "C76",
   "status": "proved",
   "theorems": [
    "C76_intern_safe",
    "C76_new_safe",
    "C76_intern_handles",
    "C76_new_handles",
    "C76_intern_bounded",
    "C76_new_bounded",
    "C76_intern_settles",
    "C76_new_settles",
    "C76_intern_returns",
    "C76_new_returns",
    "C76_unique_refuted",
    "C76_arena_safe_iff",
    "C76_arena_handles",
    "C76_arena_no_double_free",
    "C76_arena_bounded",
    "C76_arena_refuted",
    "C76_arc_refuted"
   ],
   "note": "Refutes safety of Arena and ArcIntern and uniqueness, as the property says. The answers are fixed within a step of the model, which is one search or one insertion. In the refutation for ArcIntern only Eq varies."
  },
  {
   "property": "C77",
   "status": "proved",
   "theorems": [
    "C77_pointer_layout",
    "C77_pointer_legible",
    "C77_arc_pointer",
    "C77_arc_display_fixed",
    "C77_arc_display",
    "C77_arc_display_own_text_refuted",
    "C77_arc_pointer_over_time_refuted",
    "C77_intern_pointer",
    "C77_intern_display_fixed",
    "C77_intern_display",
    "C77_intern_address_only_refuted",
    "C77_new_pointer",
    "C77_new_display_fixed",
    "C77_new_display",
    "C77_arena_display_fixed",
    "C77_arena_display"
   ],
   "note": "The part of core::fmt that {:p} uses is written down as text, for all options; of a fat pointer the metadata is kept as a number. Refutes, as the property says: the text of the passed value when equal values print differently, {:p} at different times, and address-only {:p} of zero-sized values."
  },
  {
   "property": "C78",
   "status": "proved",
   "theorems": [
    "C78_path_eq",
    "C78_intern_text_views",
    "C78_intern_path_views",
    "C78_intern_handles_and_views",
    "C78_intern_handles",
    "C78_intern_views_fixed",
    "C78_intern_first_spelling",
    "C78_intern_spelling_kept_refuted",
    "C78_intern_str_paths_refuted",
    "C78_new_text_views",
    "C78_new_path_views",
    "C78_new_handles_and_views",
    "C78_new_handles",
    "C78_new_views_fixed",
    "C78_new_first_spelling",
    "C78_arc_text_views",
    "C78_arc_path_views",
    "C78_arc_handles_and_views",
    "C78_arc_views_fixed",
    "C78_arena_text_views",
    "C78_arena_path_views",
    "C78_arena_views_fixed",
    "C78_arena_handles"
   ],
   "note": "Unix paths; Eq, Hash and as_ref of str, OsStr and Path are written down from the documentation of std. For ArcIntern also for Path, though the crate has no conversion that makes an ArcIntern<Path> or ArcIntern<OsStr>. Refutes, as the property says: that the spelling of a path is kept, and that different strings are different paths."
  }
 ]
}