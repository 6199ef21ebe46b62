{"claims": [
  {"property": "C01", "status": "proved", "theorems": ["C01_handles_unique", "C01_create_fresh_and_alive"], "note": "Any history of create, recycle, reserve, flush in the documented phases, below the 32-bit wrap."},
  {"property": "C02", "status": "partial", "theorems": ["C02_dead_stays_dead", "C02_alive_exact", "C02_unbounded_refuted", "C02_alive_never_issued_refuted"], "note": "Proved below 2^32 destructions; REFUTED without that bound (generation wrap revives a handle) and for handles never issued."},
  {"property": "C03", "status": "proved", "theorems": ["C03_reserve_distinct", "C03_flush_publishes"], "note": "All interleavings of any number of threads."},
  {"property": "C04", "status": "partial", "theorems": ["C04_reserve_then_create_refuted", "C04_create_not_alive_refuted", "C04_recycle_then_flush_refuted", "C04_create_taken_refuted", "C04_recycle_spoils_refuted", "C04_forgotten_refuted", "C04_no_free_slot_partial"], "note": "REFUTED: create or destroy between reserve and sync duplicates or loses handles.  It always happens: with a free slot a create returns the handle of the first outstanding reservation (C04_create_taken_refuted), and a destroy spoils the last one (C04_recycle_spoils_refuted).  At the registry, after any destroy a reservation is forgotten by the next create, which does exactly what it would do without it and returns the reserved handle (C04_forgotten_refuted).  Proved: without a free slot every mixture of creates and reservations returns different handles, all alive after sync (C04_no_free_slot_partial)."},
  {"property": "C05", "status": "proved", "theorems": ["C05_create"], "note": "Create with a list that fits a chunk, without pending reservations (C04), fewer than 2^31 operations (C02)."},
  {"property": "C06", "status": "proved", "theorems": ["C06_destroy"], "note": "Unless the entity is trapped (a row below it in its chunk and an empty last chunk); C17_exact proves the call undefined for exactly those entities."},
  {"property": "C07", "status": "proved", "theorems": ["C07_set"], "note": "Present component: every reachable registry; absent component: unless the entity is trapped (C17_exact) and when the new set fits."},
  {"property": "C08", "status": "proved", "theorems": ["C08_remove"], "note": "Unless the entity is trapped (C17_exact); the corner where remove throws insufficient_chunk_size is C51."},
  {"property": "C09", "status": "proved", "theorems": ["C09_get_or_insert"], "note": "As C07."},
  {"property": "C10", "status": "proved", "theorems": ["C10_get_has", "C10_last_write"], "note": "All histories of fewer than 2^31 operations."},
  {"property": "C100", "status": "partial", "theorems": ["C100_once_partial", "C100_frames_partial", "C100_one_thread_partial", "C100_retry_partial", "C100_refuted"], "note": "REFUTED: when a command of one thread throws, commands that other threads recorded in the same frame are executed one frame late, after commands of the later frame; an older value replaces a newer one (C100_refuted).  Proved for all histories: one sequence of executions explains the entities, what a thread recorded is what was executed of it followed by what is queued, and each exception of flush is that of one execution (C100_once_partial); when no flush throws, every command is executed at the end of its own frame, frame by frame (C100_frames_partial); with one thread the order of frames is kept even with exceptions (C100_one_thread_partial); calling flush more often than there are recorded commands includes a call that returns (C100_retry_partial).  Undefined behaviour of the calls (C17, C18) is the other alternative of the statements."},
  {"property": "C101", "status": "partial", "theorems": ["C101_refuted", "C101_late_refuted", "C101_distance_partial", "C101_parts_partial"], "note": "REFUTED: a function called by parallel_for that calls parallel_for 4096 times loses its own slot while it runs, with at most two unfinished tasks at any time and any number of workers (C101_refuted); without nested calls and with at most one unfinished task, a worker that is late to look at a counter it has decremented finds the slot taken by another task (C101_late_refuted).  Proved: exactly which tasks share a slot (C101_distance_partial), and that no task whose function has not returned loses its slot when the code consists of any number of parts that submit at most 4096 tasks each (C101_parts_partial)."},
  {"property": "C102", "status": "proved", "theorems": ["C102_order", "C102_age", "C102_bound_needed", "C102_valid", "C102_entity", "C102_entities"], "note": "Fewer than 2^32 operations of the pool, as in C01; after that generations wrap around and the order by age is lost (C102_bound_needed)."},
  {"property": "C11", "status": "partial", "theorems": ["C11_dead", "C77_has_refuted"], "note": "All operations of the registry on destroyed handles are proved; the handle consumed by clone/copy/move is C26.  REFUTED for entity_ref::has and entity_ref::archetype, which are noexcept: they terminate the program instead of throwing (C77_has_refuted)."},
  {"property": "C12", "status": "proved", "theorems": ["C12_refinement", "C12_traces"], "note": "Step and trace refinement for programs with several registries; undefined behaviour only in the states of C17 and C18."},
  {"property": "C13", "status": "proved", "theorems": ["C13_size", "C13_count"], "note": ""},
  {"property": "C14", "status": "proved", "theorems": ["C14_view", "C14_view_observed"], "note": "Registries in which no call threw insufficient_chunk_size (see C18)."},
  {"property": "C15", "status": "proved", "theorems": ["C15_each"], "note": "The callback may depend on the earlier calls and assigns the mutable components of its entity."},
  {"property": "C16", "status": "proved", "theorems": ["C16_single"], "note": ""},
  {"property": "C17", "status": "partial", "theorems": ["C17_destroy_refuted", "C17_failed_clone_refuted", "C17_two_chunks_partial", "C17_only_hazards", "C17_exact"], "note": "REFUTED by five creations and four destructions, and by a failed clone followed by a destruction; proved for histories with at most two chunks per archetype and no failed copies; exact: a call other than single is undefined if and only if it takes out a trapped entity or iterates over a null archetype, and is not rejected with insufficient_chunk_size."},
  {"property": "C18", "status": "partial", "theorems": ["C18_view_refuted", "C18_handle_refuted", "C18_failed_call_partial"], "note": "REFUTED: later views are undefined behaviour and an entity id is lost; proved: entities and components are unchanged and all operations other than views go on as if the call had not been made."},
  {"property": "C19", "status": "proved", "theorems": ["C19_cells_disjoint", "C19_blocks_in_order"], "note": "All component type lists."},
  {"property": "C20", "status": "partial", "theorems": ["C20_too_large_is_refused", "C20_in_buffer_partial", "C20_overrun_bounded", "C20_C21_uniform_alignment", "C20_in_buffer_refuted", "C20_refuses_fitting_row_refuted", "C20_refused_exactly_partial", "C20_refuses_full_row_refuted"], "note": "REFUTED in general (per-block padding is not counted); proved when alignments are uniform, and the overrun is bounded."},
  {"property": "C21", "status": "partial", "theorems": ["C21_aligned_partial", "C20_C21_uniform_alignment", "C21_aligned_refuted", "C21_single_component_refuted"], "note": "REFUTED in general (blocks are aligned to the previous block's type); proved when alignments are not increasing."},
  {"property": "C22", "status": "partial", "theorems": ["C22_destructor", "C17_only_hazards", "C22_throwing_constructor_refuted", "C22_failed_copy_refuted"], "note": "Proved: the model makes every misuse of a slot undefined behaviour, which is confined to the hazards of C17/C18, and the destructor destroys every object once. REFUTED for throwing component constructors and for failed copies."},
  {"property": "C23", "status": "proved", "theorems": ["C23_visit"], "note": ""},
  {"property": "C24", "status": "proved", "theorems": ["C24_clone"], "note": ""},
  {"property": "C25", "status": "proved", "theorems": ["C25_move", "C25_copy"], "note": "Unless the entity is trapped in the source (C17_exact)."},
  {"property": "C26", "status": "partial", "theorems": ["C26_id_refuted", "C26_object_refuted", "C26_failed_copy_partial"], "note": "REFUTED: the id is consumed and already copied objects are never destroyed; proved: nothing about existing handles changes."},
  {"property": "C27", "status": "proved", "theorems": ["C27_one_thread", "C27_history", "C27_direct"], "note": "Every history of recordings by any number of threads and flushes; undefined behaviour only by a call in a state of C17."},
  {"property": "C28", "status": "partial", "theorems": ["C28_set_refuted", "C28_residue_partial"], "note": "REFUTED: every set leaves one entity in the staging storage; proved: the queues are empty and the residue is exactly that."},
  {"property": "C29", "status": "partial", "theorems": ["C29_throw_partial", "C29_queues_partial", "C29_cross_refuted"], "note": "Proved: the rest stays queued in order and runs at the next flush; REFUTED: commands for one registry are applied to another one that is flushed."},
  {"property": "C30", "status": "partial", "theorems": ["C30_no_conflict", "C30_exact", "C30_registry_read_refuted"], "note": "Proved for every list of systems with the library's parameter types, and exact without registry parameters; REFUTED for a user-defined pattern with registry read access."},
  {"property": "C31", "status": "partial", "theorems": ["C31_batches", "C31_partition_any_patterns", "C31_registry_read_refuted"], "note": "Proved for every list of systems with the library's parameter types; termination and partition for all patterns; conflict freedom REFUTED for user-defined registry-read patterns."},
  {"property": "C32", "status": "partial", "theorems": ["C32_order_refuted", "C32_writers_refuted", "C32_order_partial"], "note": "REFUTED (read A, write A, read A); proved when conflict is transitive.  C81_reversed says what a reversed pair needs."},
  {"property": "C33", "status": "partial", "theorems": ["C33_runs_partial", "C33_main_thread_refuted"], "note": "Proved for ordinary systems; REFUTED for main-thread systems, which run once per batch (never if there is none)."},
  {"property": "C34", "status": "proved", "theorems": ["C34_deterministic"], "note": "Arbitrary system bodies that access only the components of their parameters; sequentially consistent steps."},
  {"property": "C35", "status": "partial", "theorems": ["C35_schedule", "C35_runs_exist", "C35_main_init_refuted"], "note": "REFUTED for main-thread initialization systems: without another initialization system they never run, in any schedule, and with others they can run several times (C35_main_init_refuted).  Proved for ordinary systems, for all schedules and numbers of runs; main-thread systems run at most as often as there are ordinary ones in their stage."},
  {"property": "C36", "status": "proved", "theorems": ["C36_batches", "C36_each_element_once", "C36_batch_order", "C36_task_tree"], "note": "Every range, worker count and interleaving of the batches."},
  {"property": "C37", "status": "proved", "theorems": ["C37_complete_means_all_done", "C37_wait_ends", "C37_steps_decrease", "C37_too_many_children_refuted"], "note": "Every interleaving of any number of workers, below 65535 outstanding children; the bound is shown to be needed."},
  {"property": "C38", "status": "partial", "theorems": ["C38_nested_refuted", "C38_nested_serial_partial"], "note": "REFUTED: with three levels the root can be complete while a grandchild runs; proved when one worker runs the tasks serially."},
  {"property": "C39", "status": "partial", "theorems": ["C39_linearizable", "C39_items_conserved", "C39_taken_once", "C39_never_stuck", "C39_size_exact", "C39_sequential", "C39_capacity_not_power_refuted"], "note": "Proved under sequential consistency for power-of-two capacities (the library uses the default); REFUTED for capacity 6, which the constructor accepts."},
  {"property": "C40", "status": "partial", "theorems": ["C40_hash_map_refines", "C40_any_initial_size", "C40_reserve_not_power_refuted", "C40_not_power_refuted", "C40_reserve_zero_refuted"], "note": "Proved for all sequences whose reserve calls use powers of two; REFUTED for every other n: for every hash function, of more than 2n/3 insertions of different keys after reserve(n) one never returns (C40_not_power_refuted; C40_reserve_not_power_refuted is a short run with n = 6), and for reserve(0)."},
  {"property": "C41", "status": "partial", "theorems": ["C41_sparse_map_refines", "C41_full_key_type_refuted"], "note": "Proved while the number of entries is below the key modulus; REFUTED when every key of the key type is present."},
  {"property": "C42", "status": "partial", "theorems": ["C42_equal_iff_same_content", "C42_membership", "C42_equal_content_equal_hash", "C42_meta_order", "C42_meta_contains", "C42_meta_key", "C42_other_initial_size_refuted"], "note": "Proved for sets built from the default size (the only one the library uses); REFUTED for another initial block count."},
  {"property": "C43", "status": "proved", "theorems": ["C43_ids_are_first_seen_positions", "C43_same_id_iff_same_name"], "note": "Fewer than 2^32 distinct names."},
  {"property": "C44", "status": "proved", "theorems": ["C44_linear_allocator", "C44_reset_frees_all"], "note": "All buffers, sizes and power-of-two alignments."},
  {"property": "C45", "status": "partial", "theorems": ["C45_stack_allocator_partial", "C45_release_restores", "C45_all_released", "C45_full_buffer_refuted", "C45_empty_block_refuted", "C45_move_refuted", "C45_temp_overflow_refuted"], "note": "Proved below the boundary; REFUTED for an exactly full buffer, empty blocks at the end of the buffer, moved allocators and large temporaries."},
  {"property": "C46", "status": "proved", "theorems": ["C46_type_name_exact", "C46_type_name_injective"], "note": ""},
  {"property": "C47", "status": "partial", "theorems": ["C47_recent_slots_distinct_partial", "C47_slot_in_array", "C47_slot_reused_refuted", "C47_run_refuted"], "note": "REFUTED, in a run of the pool (C47_run_refuted; see C101 for when it is safe); proved within one pool length."},
  {"property": "C48", "status": "partial", "theorems": ["C48_main_thread_conflict_refuted", "C48_beside_partial", "C48_deterministic_partial"], "note": "REFUTED: every main-thread system can run beside every other system of its stage, whatever they access (C48_beside_partial).  When no main-thread system conflicts with an ordinary system of the stage, which the library does not check, every interleaving of the main thread with a batch ends in the world of running the systems one after another (C48_deterministic_partial)."},
  {"property": "C49", "status": "partial", "theorems": ["C49_commands_beside_owner_refuted", "C49_mix_up_refuted", "C49_owner_first_partial"], "note": "REFUTED when the command writer is added first; then the entities the two create can get the same handle, and the owner reads the data of the other entity from its own one (C49_mix_up_refuted); proved when the owner is first in the stage."},
  {"property": "C50", "status": "partial", "theorems": ["C50_second_executor_refuted"], "note": "REFUTED for every stage: the second executor runs nothing."},
  {"property": "C51", "status": "partial", "theorems": ["C51_remove_refuted", "C51_small_alignment_refuted", "C51_exact_partial", "C51_one_alignment_partial", "C51_two_alignments_partial", "C51_room_partial"], "note": "REFUTED by an over-aligned component, and by components of alignments 1 and 4.  Proved in every reachable registry: the only exception is insufficient_chunk_size and means that the components fit but not without the removed one (C51_exact_partial); there is none for entities whose components have one alignment, have two alignments g and 2g with g dividing 4, or leave room for the largest paddings."},
  {"property": "C52", "status": "partial", "theorems": ["C52_exit_refuted", "C52_ub_refuted"], "note": "REFUTED: no flush succeeds after such a thread ended."},
  {"property": "C53", "status": "partial", "theorems": ["C53_order_refuted", "C27_one_thread"], "note": "REFUTED across threads; proved within one thread."},
  {"property": "C54", "status": "proved", "theorems": ["C54_each_task_once", "C54_one_call"], "note": "Task objects are not reused in this model (see C47)."},
  {"property": "C55", "status": "proved", "theorems": ["C55_wait_means_done", "C55_nothing_left", "C55_parallel_for_waits", "C55_stage_waits", "C55_sequence_waits", "C55_between_parts"], "note": "Sequential consistency; task objects are not reused in this model (see C47 and C101).  C55_between_parts is for programs of any number of parts with less than 65536 tasks each."},
  {"property": "C56", "status": "proved", "theorems": ["C56_never_blocked", "C56_finitely_many_calls", "C56_can_finish", "C56_parallel_for", "C56_stage", "C56_sequence"], "note": "Proved for all fork-join code, of which nested parallel_for and stages are instances."},
  {"property": "C57", "status": "partial", "theorems": ["C57_earlier_task_refuted", "C56_never_blocked"], "note": "REFUTED with three workers and three tasks; C56 is the part that holds."},
  {"property": "C58", "status": "partial", "theorems": ["C58_all_tasks_run_partial", "C58_dropped_at_stop_refuted", "C58_one_worker_refuted"], "note": "REFUTED when the pool is destroyed or has no background worker; proved for a running pool with at least two workers (that it happens in every fair execution: C92)."},
  {"property": "C59", "status": "partial", "theorems": ["C59_semaphore_refuted", "C59_rounds_partial", "C59_no_wait_partial"], "note": "REFUTED: a single wait can release the semaphore any number of times.  Proved: the count is at most the number of tasks plus the steps made inside wait, and at most the number of tasks for code that never waits."},
  {"property": "C60", "status": "proved", "theorems": ["C60_as_each", "C60_par_each", "C60_no_shared_chunk"], "note": "A call of the callback is one step; waiting for the tasks is C55."},
  {"property": "C61", "status": "proved", "theorems": ["C61_linearizable", "C61_items_conserved", "C61_taken_once", "C61_no_race", "C61_handover", "C61_push_knows", "C61_never_stuck"], "note": "View model of the C++ memory orders (WeakMem.v)."},
  {"property": "C62", "status": "partial", "theorems": ["C62_relaxed_store_refuted", "C62_release_linearizable", "C62_release_conserved", "C62_release_no_race", "C62_release_handover"], "note": "REFUTED for the code's relaxed store: a data race that loses an item; proved for a releasing store."},
  {"property": "C63", "status": "partial", "theorems": ["C63_wait_refuted", "C63_release_acquire"], "note": "REFUTED for the code's relaxed counter; proved for a releasing subtraction and an acquiring load."},
  {"property": "C64", "status": "proved", "theorems": ["C64_batch", "C64_stage", "C64_no_race", "C64_no_race_single"], "note": "Also: the calls of their command_writers are those of the run in order.  A call of a callback and single() are one step each (C64_no_race justifies it); The callback of par_each uses only its own arguments, as in C60; C64_stage is for stages without main-thread systems, whose defects are C33 and C48."},
  {"property": "C65", "status": "partial", "theorems": ["C65_erase_leaks_refuted", "C65_lifetimes", "C65_no_erase"], "note": "REFUTED for erase, which never destroys the emptied bucket's object; proved: nothing is destroyed twice, and the objects never destroyed are exactly one per successful erase."},
  {"property": "C66", "status": "proved", "theorems": ["C66_value_semantics"], "note": "Maps with the state of HashLife.v."},
  {"property": "C67", "status": "partial", "theorems": ["C67_other_counts_refuted", "C67_default_count_partial"], "note": "REFUTED for every bucket count other than 16 (_info always gets 16 entries); proved for 16."},
  {"property": "C68", "status": "proved", "theorems": ["C68_iterators"], "note": "For tables made by the other constructors; for the range constructor see C67."},
  {"property": "C69", "status": "partial", "theorems": ["C69_value_semantics_partial", "C69_moved_from_refuted"], "note": "REFUTED for the use of a moved-from map, which keeps its size and capacity; proved for programs that only assign to or destroy moved-from maps."},
  {"property": "C70", "status": "partial", "theorems": ["C70_independent_partial", "C70_conflict_refuted"], "note": "REFUTED for systems of which one changes an entity that another uses (the flush plays the threads' buffers in registration order); proved for independent systems, for every assignment to threads and every interleaving, up to a renaming of new handles; exceptions other than a refused layout are excluded, undefined behaviour is that of C17 and C18."},
  {"property": "C71", "status": "partial", "theorems": ["C71_views", "C71_frame_partial", "C71_batch", "C71_conflict_refuted"], "note": "REFUTED for systems of which one changes through commands an entity that another one uses: the value that stays depends on the threads (C71_conflict_refuted).  Proved: the views and the requested commands are always those of the run in order; the entities behind the flush are the same if no system changes through commands an entity that another one uses, with the exceptions of C70.  The threads have registered their buffers before; no main-thread systems."},
  {"property": "C72", "status": "partial", "theorems": ["C72_frames_partial", "C72_outcome_partial", "C72_order_refuted"], "note": "REFUTED for bodies that see the order of a view's rows (single(), or a callback with memory): two threads that exchange two creations exchange the rows for the next run.  Proved for any number of runs of blind bodies, which record the same groups of calls, up to their order and the renaming of handles, for every order of the rows, if no system changes through commands an entity that another one uses; with the restrictions of C71; another execution can also stop with a refused layout or as in C17 and C18."},
  {"property": "C73", "status": "partial", "theorems": ["C73_sequential_partial", "C73_main_ends_partial", "C73_no_throw_partial", "C73_dangling_refuted", "C73_terminated_refuted", "C73_wrong_handler_refuted"], "note": "REFUTED for every number of workers from two to 65535: the call is left while its tasks are queued and refer to its variables (dangling), a throw on another worker terminates the program although the caller catches everything, or goes to the wrong handler and leaves a call waiting forever.  Proved with the sequential meaning if there is one worker or every range is shorter than the number of workers, and, for any program, as long as nothing was thrown and fewer than 65536 tasks were submitted.  Values of exceptions, and handlers that do not catch everything, are not modelled."},
  {"property": "C74", "status": "partial", "theorems": ["C74_calm_partial", "C74_destroy_refuted", "C74_add_refuted", "C74_remove_refuted", "C74_twice_refuted"], "note": "REFUTED for callbacks that destroy the visited entity or add or remove one of its components: the loop then reads a row that no longer exists (undefined behaviour), or visits the entity twice.  Proved for all programs of nested loops whose calls leave every entity where it is (get, has, visit, alive, size, single, loops, set and get_or_insert of an existing component, remove of an absent one), without a preceding insufficient_chunk_size (C18)."},
  {"property": "C75", "status": "partial", "theorems": ["C75_one_pool", "C75_submit", "C75_parallel_for", "C75_batch", "C75_foreign_refuted", "C75_handed_over_refuted", "C75_after_exit_refuted", "C75_refuted"], "note": "REFUTED for other threads, which follow a null or dangling current_worker; proved: at most one pool, a second construction throws, and exactly which calls are defined (the thread that constructed the existing pool, its workers, short ranges, the first get()).  Calls are not concurrent here."},
  {"property": "C76", "status": "partial", "theorems": ["C76_one_worker_partial", "C76_no_throw_partial", "C76_two_threads_refuted", "C76_late_refuted", "C76_terminated_refuted", "C76_dangling_refuted", "C76_main_system_refuted"], "note": "REFUTED for every number of workers from two: the run is left while systems of its batch are queued; another thread then runs them after the exception, during a later run (the same system on two threads at once) or after the executor was destroyed (dangling), and an exception on another thread terminates the program.  Proved as stated for one worker, and for any number of workers as long as no system throws (fewer than 65536 systems in a batch).  Systems do not submit tasks themselves, and slots of tasks are never reused (C47)."},
  {"property": "C77", "status": "partial", "theorems": ["C77_has", "C77_archetype", "C77_visit", "C77_visit_calm", "C77_has_refuted", "C77_visit_refuted"], "note": "REFUTED: has and archetype terminate the program for every handle without an entity, and visit terminates it for every callback that throws.  Proved: exactly when each of them terminates, what they return otherwise, and that the assignments of the callback are those of set calls.  The callback does not use the registry."},
  {"property": "C78", "status": "partial", "theorems": ["C78_late_sync", "C78_fill", "C78_clone", "C78_taken_refuted", "C78_dead_refuted", "C78_twice_refuted", "C78_stale_refuted"], "note": "The first sentence is proved, for any calls between that take no handles from the registry and give none back.  The second is REFUTED: a placeholder that was filled or destroyed before is filled without a check (for every registry: the entity in its slot reads as the copy, or the size counts a dead entity; by runs: views visit an entity twice, or a dead one)."},
  {"property": "C79", "status": "partial", "theorems": ["C79_fluent", "C79_kept", "C79_kept_refuted", "C79_move", "C79_moved_refuted"], "note": "Chains of calls are proved, for every state that calls lead to and every growth policy.  REFUTED for kept references (C79_kept: exactly when they can still be used; for every reference some number of begin_stage calls makes it dangle) and for schedules that were moved after a stage was begun (end_stage returns the old schedule)."},
  {"property": "C80", "status": "partial", "theorems": ["C80_first", "C80_same", "C80_part", "C80_none_refuted", "C80_grown_refuted", "C80_empty_refuted", "C80_missed_refuted", "C80_wrong_refuted", "C80_freed_refuted"], "note": "Proved for the first loop, and for later loops as long as no archetype was added in between.  REFUTED otherwise: the range keeps the iterator to the first match.  C80_part: in every reachable registry a kept range visits a last part of what each visits, or throws component_not_found, or is undefined behaviour; the refutations show each case."},
  {"property": "C81", "status": "proved", "theorems": ["C81_first", "C81_count", "C81_one", "C81_reversed"], "note": "Every stage of distinct systems; the relation between the parameters is defined without access patterns."},
  {"property": "C82", "status": "proved", "theorems": ["C82_freed", "C82_in_use", "C82_capacity", "C82_grows", "C82_no_growth"], "note": "Sequentially consistent interleavings; the allocation of an array does not throw."},
  {"property": "C83", "status": "partial", "theorems": ["C83_ordered", "C83_recording", "C83_flush_refuted", "C83_sync_refuted"], "note": "REFUTED: in every state, a command recorded by one thread races with a flush by another one, even of another registry (C83_flush_refuted), and two flushes of one registry race in sync, if one of them has reserved handles to publish (C83_sync_refuted).  Proved: without flushes there is no data race; with flushes there is none if the user orders flushes and commands of other threads, and flushes of the same registry."},
  {"property": "C84", "status": "partial", "theorems": ["C84_move_refuted", "C84_other_refuted"], "note": "REFUTED: in every reachable registry, if the last chunk of the entity's archetype has room and the entity is in it, or in an earlier chunk but not at its end, the move is undefined behaviour (C84_move_refuted); with full chunks the placeholder gets the row of another entity (C84_other_refuted).  The moves that do work are those of the last entity of an earlier or full chunk, or of the first one of a full last chunk; they are shown by an example only."},
  {"property": "C85", "status": "proved", "theorems": ["C85_ref", "C85_kept", "C85_taken", "C85_destroy_dangles", "C85_reused_shows", "C85_set_dangles"], "note": "A reference is archetype, chunk and offset in its buffer; below 2^31 calls.  The last three are runs in which a reference dangles after the calls that the property excepts."},
  {"property": "C86", "status": "partial", "theorems": ["C86_no_growth", "C86_growth_refuted", "C86_fourteen_refuted"], "note": "REFUTED: whenever the call makes the table grow, the argument is read from the freed buckets (C86_growth_refuted, every reachable map with more than 870/1024 of its buckets in use); in a fresh map that is after 14 insertions, for every hash function (C86_fourteen_refuted).  Proved: without growth each call equals the call with a copy."},
  {"property": "C87", "status": "partial", "theorems": ["C87_exact_partial", "C87_get_refuted", "C87_refuted"], "note": "REFUTED: without an existing pool, every failure behind the first allocation terminates the program (second or later thread) or leaves _instance dangling, so that no pool can ever be used again, whatever is called (C87_exact_partial; also in get(): C87_get_refuted; a run: C87_refuted).  Proved: if a pool exists, or the first allocation fails, nothing changes."},
  {"property": "C88", "status": "partial", "theorems": ["C88_ids_partial", "C88_out_of_range", "C88_random", "C88_refuted"], "note": "REFUTED for more than 65536 workers: worker 65536 has the id 0 (C88_refuted).  Proved for up to 65536 workers, and the rest for all numbers."},
  {"property": "C89", "status": "partial", "theorems": ["C89_worker_partial", "C89_total_partial", "C89_wait_refuted"], "note": "REFUTED: after wait returned and the program of the main thread ended, the task is counted by no worker yet (C89_wait_refuted).  Proved: the other counts, for all programs and interleavings; the counters do not wrap around."},
  {"property": "C90", "status": "proved", "theorems": ["C90_calls_return", "C90_main_returns", "C90_all_done", "C90_destructor_returns", "C90_fair_executions", "C90_fairness_needed"], "note": "For all fair infinite executions, without classical axioms.  C90_fair_executions: each program has one; C90_fairness_needed: without fairness it is false.  The timed wait on the semaphore is a step that ends."},
  {"property": "C91", "status": "partial", "theorems": ["C91_seen", "C91_initialized_partial", "C91_no_unload", "C91_same_name_refuted", "C91_before_refuted", "C91_unload_refuted"], "note": "REFUTED: before their initialization all ids are 0, so the types are taken for one another and for the first one (C91_before_refuted); different types of one name have one id (C91_same_name_refuted); after the module that named a type first is unloaded, the next initialization reads freed memory (C91_unload_refuted).  Proved: exactly which id every use sees."},
  {"property": "C92", "status": "proved", "theorems": ["C92_all_tasks_run", "C92_executions", "C92_stealing_needed"], "note": "For all fair infinite executions in which a background worker with an empty queue steals from the main worker unless another thread did something since its last turn (tries_main), as the code does.  C92_executions: each program has one; C92_stealing_needed: without it the claim is false."},
  {"property": "C93", "status": "partial", "theorems": ["C93_order", "C93_last_partial", "C93_no_recording", "C93_late_refuted", "C93_first_refuted", "C93_spawn_refuted"], "note": "REFUTED: commands recorded while a buffer behind that of the flushing thread is played stay queued (C93_late_refuted); a thread without a buffer locks the mutex it holds (C93_first_refuted); an entity created by a destructor is dead behind the flush and the next one, and brought to life by the next creation, whose entity is dead (C93_spawn_refuted).  Proved: exactly which commands are executed in which order and which are left (C93_order); all are if the flushing thread's buffer is the last one."},
  {"property": "C94", "status": "partial", "theorems": ["C94_nested_partial", "C94_growth_refuted", "C94_overwrite_refuted"], "note": "REFUTED: a vector that grows releases its old memory behind the request for the new one, which moves the allocator below the new memory, so the next container of the same alignment overlaps it, whatever the sizes (C94_growth_refuted, C94_overwrite_refuted).  Proved: containers that request their memory once, as in nested parallel_for calls, do not overlap, are not overwritten, and the allocator ends where it was, if the buffer is never exactly full (C45)."},
  {"property": "C95", "status": "proved", "theorems": ["C95_order", "C95_so_far", "C95_each_once", "C95_parallel_for", "C95_stage", "C95_parts"], "note": "For runs of the pool model of C54-C58 (interleaving semantics, std::memory_order is not modelled there).  order (PoolTrace.v) is the specification; C95_parallel_for and C95_stage connect it with pf_exec (C35, C36) and stage_trace (C33, C60, C64).  Functions that throw are not included (C39)."},
  {"property": "C96", "status": "partial", "theorems": ["C96_packed_partial", "C96_refuted"], "note": "REFUTED: four calls that never have more than three entities leave an empty 16 kB chunk each time they are repeated, for ever (C96_refuted).  Proved: if no call takes an entity from the last row of a chunk that is not the last of its archetype, all chunks but the last of every archetype are full, so the entities alive bound the chunks."},
  {"property": "C97", "status": "partial", "theorems": ["C97_two_workers_partial", "C97_two_workers_any_partial", "C97_tasks_partial", "C97_refuted"], "note": "REFUTED for three or more workers: code of three levels reaches stacks of any depth (C97_refuted), as wait executes stolen tasks inside the waiting call.  Task objects are never used again in the pool model; the code reuses them after a fixed number of submissions (C47), so read C97_refuted for forks below that number.  Proved: the claim for one and two workers, which is all for which it holds, and a bound by the number of tasks for any number of workers."},
  {"property": "C98", "status": "partial", "theorems": ["C98_calls_partial", "C98_pool_partial", "C98_far_partial", "C98_default_partial", "C98_alive_refuted"], "note": "REFUTED: after destroy, alive is true for the next handle of the slot, which was never handed out, and calls with it throw std::out_of_range (C98_alive_refuted; with an entity of another registry in ex_two).  Proved: every call with any handle that is not an entity throws one of the two exceptions and changes nothing; alive is true only for handles handed out and for the successors of destroyed ones (C98_pool_partial), so not for default-constructed handles (C98_default_partial)."},
  {"property": "C99", "status": "partial", "theorems": ["C99_ids_partial", "C99_unfailing_partial", "C99_pool_partial", "C99_refuted"], "note": "REFUTED: create, clone, copy and move allocate the id first and lose it when they throw; after k failed calls of clone on an empty registry the first entity has the id k (C99_refuted).  Proved: with L such failed calls all ids are smaller than K + L (C99_ids_partial), so smaller than K when none failed (C99_unfailing_partial); for the pool alone, with threads inside reserve, ids are smaller than K (C99_pool_partial)."}
]}
