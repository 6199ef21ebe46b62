{"id": "C01", "title": "Issued handles are unique", "statement": "Along any history of entity creations, destructions, reservations and syncs that respects the reserve phase discipline (no creation or destruction between a reservation and the following sync), every handle handed out differs from every handle handed out before, and a created handle is alive immediately.", "quantifier": "all finite histories of create/destroy/reserve/sync of fewer than 2^32 operations", "why_tests_cant": "Uniqueness over histories needs induction; ids are recycled with generations so any finite test sees only a few reuses.", "anchors": ["include/co_ecs/detail/handle.hpp: handle_pool::create, recycle, reserve, flush"]}
{"id": "C02", "title": "A destroyed handle stays dead", "statement": "Once an entity handle has been destroyed, alive() on it is false in every later state, whatever is created, destroyed, reserved or synced afterwards.", "quantifier": "all continuations of fewer than 2^32 operations; the bound is shown necessary (generation wrap revives a stale handle)", "why_tests_cant": "Tests check a handful of reuses; the claim ranges over unbounded futures and the failing case needs 2^32 recycles.", "anchors": ["include/co_ecs/detail/handle.hpp: handle_pool::alive, recycle"]}
{"id": "C03", "title": "Concurrent reservations are distinct and become alive at sync", "statement": "When any number of threads reserve entities concurrently, in every interleaving of their atomic steps all returned handles are pairwise distinct and distinct from every living handle, and after a sync all of them are alive and the pool is quiescent again.", "quantifier": "all quiescent pools, all numbers of threads, all interleavings of the atomic steps of reserve", "why_tests_cant": "Interleavings cannot be enumerated by tests.", "anchors": ["include/co_ecs/detail/handle.hpp: handle_pool::reserve, flush", "include/co_ecs/base_registry.hpp: reserve, sync"]}
{"id": "C04", "title": "Creating or destroying between reserve and sync", "statement": "Mixing create/destroy with outstanding reservations still yields distinct, alive handles.", "quantifier": "all histories with create/destroy between reserve and sync", "why_tests_cant": "Only specific interleavings of recycled ids show the failure; ordinary tests sync immediately.", "anchors": ["include/co_ecs/detail/handle.hpp: handle_pool::create, reserve, recycle"]}
{"id": "C05", "title": "Create stores exactly the given components and disturbs nothing else", "statement": "create(c1..cn) returns a new alive handle whose components are exactly the given ones with the given values, and every other entity keeps its exact component values; size grows by one.", "quantifier": "all reachable registries, all component lists that fit a chunk", "why_tests_cant": "Frame property over all other entities and all storage layouts (chunk boundaries, archetype reuse).", "anchors": ["include/co_ecs/base_registry.hpp: create_impl", "include/co_ecs/archetype.hpp: archetype::emplace", "include/co_ecs/chunk.hpp: chunk::emplace_back"]}
{"id": "C06", "title": "Destroy removes exactly one entity", "statement": "Destroying an alive entity makes it dead, and every other entity keeps its handle, its component set and all its values although storage is compacted by moving another entity; size shrinks by one.", "quantifier": "all reachable registries, all entities (outside the storage-hole state of C17)", "why_tests_cant": "Compaction relocates an arbitrary other entity; the frame claim ranges over all of them and all positions.", "anchors": ["include/co_ecs/base_registry.hpp: destroy", "include/co_ecs/archetype.hpp: archetype::swap_erase", "include/co_ecs/chunk.hpp: chunk::swap_erase"]}
{"id": "C07", "title": "Set adds or overwrites one component", "statement": "set<C>(v) on an alive entity makes C have value v on it whether or not C was present, keeps its other components and handle, and leaves all other entities unchanged.", "quantifier": "all reachable registries, entities, component types and values (outside the storage-hole state of C17; an added component must fit a chunk with the others)", "why_tests_cant": "The add path moves the entity between archetypes and relocates another one; frame over all states.", "anchors": ["include/co_ecs/entity_ref.hpp: entity_ref::set", "include/co_ecs/base_registry.hpp: set_impl", "include/co_ecs/archetype.hpp: archetype::move"]}
{"id": "C08", "title": "Remove deletes one component", "statement": "remove<C>() on an alive entity removes C if present and is a no-op otherwise; its other components and all other entities are unchanged.", "quantifier": "all reachable registries, entities, component types (outside the storage-hole state of C17 and the layout defect of C51)", "why_tests_cant": "Frame over all states; relocation of an arbitrary entity.", "anchors": ["include/co_ecs/base_registry.hpp: remove"]}
{"id": "C09", "title": "get_or_insert inserts only when absent", "statement": "get_or_insert<C>(v) leaves an existing value untouched and otherwise adds C with value v; nothing else changes.", "quantifier": "all reachable registries, entities, component types and values (outside the storage-hole state of C17; an added component must fit a chunk with the others)", "why_tests_cant": "Both branches must preserve everything else in all layouts.", "anchors": ["include/co_ecs/entity_ref.hpp: get_or_insert"]}
{"id": "C10", "title": "get and has report the latest write", "statement": "get<C> returns the last value written to C on that entity and throws component_not_found exactly when the entity is alive without C; has is true exactly for the present components; both leave the registry unchanged.", "quantifier": "all histories of registry operations", "why_tests_cant": "Read-over-write across arbitrary interleavings of creations, moves and compactions is an inductive property.", "anchors": ["include/co_ecs/base_registry.hpp: has, get_impl", "include/co_ecs/chunk.hpp: ptr"]}
{"id": "C11", "title": "Operations on dead handles are rejected without effect", "statement": "Every entity operation on a destroyed handle throws entity_not_found and leaves all observable registry state unchanged.", "quantifier": "all reachable registries, all destroyed handles, all operations", "why_tests_cant": "Quantifies over operations and histories; slot reuse by a newer generation must not be affected.", "anchors": ["include/co_ecs/base_registry.hpp: ensure_alive, get_location"]}
{"id": "C12", "title": "The registry refines a finite map from handles to component maps", "statement": "For every sequence of registry operations the visible outputs are those of an abstract map from handles to component maps, as long as no undefined behaviour occurred.", "quantifier": "all finite operation sequences from the empty registry", "why_tests_cant": "Trace refinement over unbounded histories.", "anchors": ["include/co_ecs/base_registry.hpp", "include/co_ecs/registry.hpp"]}
{"id": "C13", "title": "size counts the entities", "statement": "size() equals the number of entities created (or placed) and not destroyed or moved out.", "quantifier": "all operation histories", "why_tests_cant": "Inductive invariant over histories.", "anchors": ["include/co_ecs/registry.hpp: size, empty"]}
{"id": "C14", "title": "A view yields exactly the matching entities once", "statement": "Iterating a view yields each entity that has all requested components exactly once, with its current values, and nothing else.", "quantifier": "all reachable registries without a failed archetype creation, all component requests", "why_tests_cant": "Exactness over all archetype sets, chunk counts and hash-table orders.", "anchors": ["include/co_ecs/view.hpp: chunks, each, match", "include/co_ecs/chunk.hpp: chunk_view"]}
{"id": "C15", "title": "each updates exactly the requested components of the matching entities", "statement": "each(f) with an updating callback applies f once per matching entity to its requested components and changes no other component and no other entity.", "quantifier": "all reachable registries without a failed archetype creation (C18), component requests, and update functions", "why_tests_cant": "Frame over all other storage.", "anchors": ["include/co_ecs/view.hpp: each"]}
{"id": "C16", "title": "single returns a match iff one exists", "statement": "single() returns the components of some matching entity when one exists and nothing otherwise, also when the leading chunks are empty.", "quantifier": "all reachable registries without a failed archetype creation (C18), component requests", "why_tests_cant": "Empty chunks arise only after particular destroy orders.", "anchors": ["include/co_ecs/view.hpp: single"]}
{"id": "C17", "title": "Destroying entities never reaches undefined behaviour", "statement": "No sequence of API calls with valid arguments makes the storage layer act on an empty last chunk.", "quantifier": "all operation sequences", "why_tests_cant": "The failing order needs several chunks and a particular destroy order.", "anchors": ["include/co_ecs/archetype.hpp: archetype::swap_erase", "include/co_ecs/chunk.hpp: chunk::swap_erase"]}
{"id": "C18", "title": "A failed creation leaves the registry usable", "statement": "When create or set throws insufficient_chunk_size, no entity and no component changes, and later views and operations behave as if the call had not been made.", "quantifier": "all reachable registries, all oversized component lists", "why_tests_cant": "The corruption shows only in later, different operations.", "anchors": ["include/co_ecs/archetype.hpp: archetypes::ensure_archetype", "include/co_ecs/base_registry.hpp: create_impl"]}
{"id": "C19", "title": "Blocks never overlap", "statement": "Within a chunk the byte ranges of distinct (component, row) cells are disjoint.", "quantifier": "all component lists with arbitrary sizes and alignments", "why_tests_cant": "Sizes and alignments are unbounded inputs.", "anchors": ["include/co_ecs/archetype.hpp: init_blocks, add_block, get_max_size"]}
{"id": "C20", "title": "Blocks stay inside the chunk buffer", "statement": "All cells lie inside the 16384-byte buffer and an archetype is refused exactly when one row does not fit.", "quantifier": "all component lists with valid sizes and alignments", "why_tests_cant": "Overflow needs particular size/alignment combinations.", "anchors": ["include/co_ecs/archetype.hpp: get_max_size, aligned_components_size, add_block"]}
{"id": "C21", "title": "Components are correctly aligned", "statement": "Every component address is a multiple of the component's alignment.", "quantifier": "all component lists with valid sizes and alignments", "why_tests_cant": "x86 tolerates misaligned access, so tests pass.", "anchors": ["include/co_ecs/archetype.hpp: add_block"]}
{"id": "C22", "title": "Component lifetimes balance", "statement": "Every stored component object is constructed once before use and destroyed exactly once: no slot is constructed over a live object, read or destroyed while raw, or leaked by compaction, archetype moves or registry destruction.", "quantifier": "all operation sequences", "why_tests_cant": "Leaks and double destruction on rare paths are invisible to value-based tests.", "anchors": ["include/co_ecs/chunk.hpp: emplace_back, pop_back, swap_erase, move, copy, ~chunk"]}
{"id": "C23", "title": "visit enumerates exactly the entity's components", "statement": "visit calls the visitor once for each component of the entity with its current value and not for the handle itself.", "quantifier": "all reachable registries and entities", "why_tests_cant": "Depends on block order for all histories.", "anchors": ["include/co_ecs/base_registry.hpp: visit", "include/co_ecs/chunk.hpp: visit"]}
{"id": "C24", "title": "clone duplicates an entity", "statement": "clone returns a new entity with equal component values, leaving the original and all others unchanged; a type that is not copyable throws invalid_argument.", "quantifier": "all reachable registries and entities", "why_tests_cant": "Frame over all states and layouts, including clone into the same chunk.", "anchors": ["include/co_ecs/base_registry.hpp: clone, copy", "include/co_ecs/archetype.hpp: archetype::copy"]}
{"id": "C25", "title": "move transfers an entity between registries", "statement": "Moving an entity to another registry gives it there exactly the same component values, makes the source handle dead, and leaves all other entities of both registries unchanged; copy leaves the source registry unchanged.", "quantifier": "all pairs of reachable registries and entities (outside the storage-hole state of C17)", "why_tests_cant": "Two-registry frame property.", "anchors": ["include/co_ecs/base_registry.hpp: move, copy"]}
{"id": "C26", "title": "Failed copies leak nothing", "statement": "When clone, copy or move throws (dead entity, non-copyable component), no entity id is consumed and no object is leaked.", "quantifier": "all reachable registries", "why_tests_cant": "The leak is not visible in values; needs pool accounting.", "anchors": ["include/co_ecs/base_registry.hpp: move, copy, clone", "include/co_ecs/chunk.hpp: copy"]}
{"id": "C27", "title": "Command flush equals direct execution", "statement": "Flushing recorded commands has the same effect on the registry as executing the same operations directly in recording order, and the handles returned while recording denote the created entities.", "quantifier": "all command sequences recorded by one thread against one registry (outside the storage-hole state of C17)", "why_tests_cant": "Deferred execution through a staging registry over unbounded command lists.", "anchors": ["include/co_ecs/command.hpp: command_buffer::flush, play_commands, command_*"]}
{"id": "C28", "title": "Flush leaves no residue", "statement": "After a successful flush the command queues are empty and the staging storage holds no entity.", "quantifier": "all command sequences", "why_tests_cant": "Slow leak invisible to functional tests.", "anchors": ["include/co_ecs/command.hpp: command_entity_ref::set"]}
{"id": "C29", "title": "A failing command does not lose or cross commands", "statement": "If a command throws during flush, the remaining commands stay queued in order and run at the next flush, and a flush of one registry never applies commands recorded for another.", "quantifier": "all command sequences, all failing positions, several registries", "why_tests_cant": "Needs all positions of failure and multi-registry histories.", "anchors": ["include/co_ecs/command.hpp: command_buffer::flush"]}
{"id": "C30", "title": "Access check admits no conflict", "statement": "Whenever the accumulated access pattern of a batch allows a system, no component is written by one side and read or written by the other.", "quantifier": "all access patterns", "why_tests_cant": "Patterns are unbounded maps.", "anchors": ["include/co_ecs/system/access.hpp: allows, operator&="]}
{"id": "C31", "title": "Stage batches partition the systems without conflicts", "statement": "create_executor terminates, places every added system in exactly one batch, keeps relative order inside a batch, and no two systems of a batch conflict.", "quantifier": "all lists of systems and access patterns", "why_tests_cant": "Greedy loop over unbounded lists.", "anchors": ["include/co_ecs/system/stage.hpp: create_executor"]}
{"id": "C32", "title": "Conflicting systems run in registration order", "statement": "Two conflicting systems of a stage execute in the order in which they were added.", "quantifier": "all lists of systems", "why_tests_cant": "Only three-way conflicts reorder.", "anchors": ["include/co_ecs/system/stage.hpp: create_executor"]}
{"id": "C33", "title": "Each system runs exactly once per stage run", "statement": "One run of a stage executes every system, including main-thread systems, exactly once.", "quantifier": "all stages", "why_tests_cant": "Depends on the number of batches.", "anchors": ["include/co_ecs/system/stage.hpp: execute_batch, run"]}
{"id": "C34", "title": "Parallel batch execution is deterministic", "statement": "For systems of one batch, every interleaving of their component accesses ends in the same world as running them one after another.", "quantifier": "all batches, all interleavings", "why_tests_cant": "Interleavings cannot be enumerated by tests.", "anchors": ["include/co_ecs/system/stage.hpp: execute_batch", "include/co_ecs/system/access.hpp"]}
{"id": "C35", "title": "Schedule execution order", "statement": "Initialization systems run once before all others and their commands are applied before the first run; each run_once executes the stages in order and applies all commands at its end.", "quantifier": "all schedules, all numbers of runs", "why_tests_cant": "Trace property over unbounded runs.", "anchors": ["include/co_ecs/system/schedule.hpp"]}
{"id": "C36", "title": "parallel_for covers the range exactly once", "statement": "parallel_for splits any range into consecutive parts so that every element is processed exactly once, for every number of workers.", "quantifier": "all range sizes and worker counts", "why_tests_cant": "Boundary arithmetic over all sizes.", "anchors": ["include/co_ecs/thread_pool/parallel_for.hpp: parallel_for"]}
{"id": "C37", "title": "wait returns only after all subtasks finished", "statement": "For a parent task and children submitted before the wait, in every interleaving the parent is reported complete only after its own function and all children have finished.", "quantifier": "all numbers of children below 65535, all interleavings", "why_tests_cant": "Interleavings cannot be enumerated by tests.", "anchors": ["include/co_ecs/thread_pool/task.hpp: task, finish, is_completed", "include/co_ecs/thread_pool/thread_pool.hpp: wait"]}
{"id": "C38", "title": "Nested task completion is counted once", "statement": "With tasks nested deeper than two levels each finished task is counted once by its parent.", "quantifier": "all task trees and interleavings", "why_tests_cant": "Needs a particular interleaving of two finishers.", "anchors": ["include/co_ecs/thread_pool/task.hpp: finish"]}
{"id": "C39", "title": "The work-stealing queue neither loses nor duplicates items", "statement": "In every interleaving of one owner and any number of thieves each pushed item is taken at most once, and items not taken remain in the queue in order; growing keeps all contents.", "quantifier": "all interleavings (sequentially consistent), all thread counts and histories", "why_tests_cant": "Interleavings cannot be enumerated by tests.", "anchors": ["include/co_ecs/detail/work_stealing_queue.hpp: push, pop, steal, grow"]}
{"id": "C40", "title": "hash_map behaves as a finite map", "statement": "Every sequence of insertions, assignments, erasures, lookups and iterations on the hash map gives the results of a finite map; lookups always terminate and iteration yields each entry once.", "quantifier": "all operation sequences, all hash functions", "why_tests_cant": "Robin-hood displacement and backward shift over all collision patterns.", "anchors": ["include/co_ecs/detail/hash_table.hpp: _emplace_impl, find_impl, erase_impl, reserve"]}
{"id": "C41", "title": "sparse_map behaves as a finite map", "statement": "Every sequence of operations on the sparse map gives the results of a finite map; iteration yields each entry once.", "quantifier": "all operation sequences and keys", "why_tests_cant": "Stale sparse entries matter only after particular histories.", "anchors": ["include/co_ecs/detail/sparse_table.hpp: emplace, erase, find_impl, clear"]}
{"id": "C42", "title": "Component sets compare by content", "statement": "Two component sets built by any histories of insert/erase/clear compare equal exactly when they contain the same components, and equal sets hash equally.", "quantifier": "all insert/erase/clear histories", "why_tests_cant": "Canonical form is a history invariant.", "anchors": ["include/co_ecs/detail/dynamic_bitset.hpp: set, clear, operator==, hash", "include/co_ecs/component.hpp: component_set, component_meta_set"]}
{"id": "C43", "title": "Type ids are stable and unique", "statement": "A type name always maps to the same id, different names map to different ids, and ids are consecutive from zero.", "quantifier": "all sequences of id requests", "why_tests_cant": "Uniqueness over unbounded sequences.", "anchors": ["include/co_ecs/component.hpp: type_registry::id"]}
{"id": "C44", "title": "Linear allocator hands out valid memory", "statement": "Every block from the linear allocator is aligned, inside the buffer and disjoint from all blocks handed out since the last reset; a failed request changes nothing.", "quantifier": "all request sequences", "why_tests_cant": "Unbounded sizes and alignments.", "anchors": ["include/co_ecs/detail/allocator/linear_allocator.hpp: allocate"]}
{"id": "C45", "title": "Stack allocator hands out valid memory", "statement": "Every block from the stack allocator is aligned, inside the buffer and disjoint from live blocks, and releasing in reverse order restores the allocator exactly.", "quantifier": "all LIFO request sequences", "why_tests_cant": "Unbounded sizes; the boundary case needs an exactly full buffer.", "anchors": ["include/co_ecs/detail/allocator/stack_allocator.hpp: allocate, deallocate"]}
{"id": "C46", "title": "Type names are recovered exactly", "statement": "The name extracted from the compiler's function signature is exactly the type's name, so two types get the same name only if the compiler prints them the same.", "quantifier": "all type names", "why_tests_cant": "Names are unbounded strings, including ones that contain brackets and '=' signs.", "anchors": ["include/co_ecs/type_meta.hpp: type_name"]}
{"id": "C47", "title": "Unfinished tasks never share a task slot", "statement": "A task slot handed out for a new task is never the slot of a task that has not finished.", "quantifier": "all allocation histories of a worker", "why_tests_cant": "Needs more unfinished tasks than the pool has slots.", "anchors": ["include/co_ecs/thread_pool/task.hpp: task_pool::allocate"]}
{"id": "C48", "title": "Main-thread systems never conflict with what runs beside them", "statement": "A system added with the main thread policy never runs at the same time as a system of the stage that conflicts with it.", "quantifier": "all stages", "why_tests_cant": "The overlap is a race that tests rarely hit.", "anchors": ["include/co_ecs/system/stage.hpp: add_system, execute_batch"]}
{"id": "C49", "title": "Command writers never run beside a registry owner", "statement": "A system with a command_writer parameter, which reserves entities, never shares a batch with a system with a registry& parameter.", "quantifier": "all lists of systems", "why_tests_cant": "Depends on registration order and is a race.", "anchors": ["include/co_ecs/system/system.hpp: system_command_writer_state::access_pattern", "include/co_ecs/system/access.hpp: allows"]}
{"id": "C50", "title": "A schedule can create several executors", "statement": "Every executor created from the same stage or schedule runs the same systems.", "quantifier": "all stages", "why_tests_cant": "Needs reasoning about what the first call leaves behind.", "anchors": ["include/co_ecs/system/stage.hpp: create_executor", "include/co_ecs/system/schedule.hpp: create_executor"]}
{"id": "C51", "title": "Removing a component needs no space", "statement": "remove<C>() on an alive entity never throws insufficient_chunk_size.", "quantifier": "all component sets", "why_tests_cant": "Needs a size and alignment combination for which the padding computation is not monotone.", "anchors": ["include/co_ecs/base_registry.hpp: remove", "include/co_ecs/archetype.hpp: aligned_components_size"]}
{"id": "C52", "title": "Threads that recorded commands may end", "statement": "A flush after the end of a thread that used a command_writer works on the remaining threads' commands.", "quantifier": "all programs", "why_tests_cant": "The stale buffer address is read after the thread's storage is gone, which often goes unnoticed in tests.", "anchors": ["include/co_ecs/command.hpp: command_buffer::get, _command_buffers"]}
{"id": "C53", "title": "Commands of several threads take effect in the order of recording", "statement": "A command recorded after another one, on any thread, takes effect after it.", "quantifier": "all interleavings of recording threads", "why_tests_cant": "Depends on the order in which threads first used their buffers.", "anchors": ["include/co_ecs/command.hpp: command_buffer::flush"]}
{"id": "C54", "title": "Every submitted task is executed at most once and none is lost", "statement": "At any moment every task submitted to the thread pool is either in exactly one queue or has been started exactly once, and it counts as done exactly when its function has returned.", "quantifier": "all programs, numbers of workers and interleavings", "why_tests_cant": "Duplicates and losses need particular interleavings of owner, thieves and helping waiters.", "anchors": ["include/co_ecs/thread_pool/thread_pool.hpp: submit, wait, get_task, execute, run"]}
{"id": "C55", "title": "wait returns only after the tasks it waits for", "statement": "When code that waits only for tasks it submitted itself, and gives children only to those, returns from wait, the task and its children have been executed.", "quantifier": "all such programs with fewer than 65536 tasks, all interleavings", "why_tests_cant": "The waiting worker executes arbitrary other tasks meanwhile.", "anchors": ["include/co_ecs/thread_pool/thread_pool.hpp: wait", "include/co_ecs/thread_pool/task.hpp: finish"]}
{"id": "C56", "title": "parallel_for and stages never deadlock", "statement": "parallel_for and stage runs, nested in each other to any depth, never block: as long as a call has not returned some worker can go on with a call, and calls cannot go on for ever.", "quantifier": "all nestings, numbers of workers and interleavings", "why_tests_cant": "A deadlock would need a rare order of steals.", "anchors": ["include/co_ecs/thread_pool/parallel_for.hpp: parallel_for", "include/co_ecs/system/stage.hpp: execute_batch", "include/co_ecs/thread_pool/thread_pool.hpp: wait"]}
{"id": "C57", "title": "Waiting for earlier tasks never deadlocks", "statement": "If every task waits only for tasks submitted before it, every wait can return.", "quantifier": "all programs and interleavings", "why_tests_cant": "The deadlock needs a particular order of steals.", "anchors": ["include/co_ecs/thread_pool/thread_pool.hpp: wait, get_task"]}
{"id": "C58", "title": "Every submitted task is executed eventually", "statement": "Every submitted task can be executed, at the latest when the thread pool is destroyed.", "quantifier": "all programs, numbers of workers and interleavings", "why_tests_cant": "Depends on the race between the last submit and the workers' exit.", "anchors": ["include/co_ecs/thread_pool/thread_pool.hpp: run, ~thread_pool"]}
{"id": "C59", "title": "The worker semaphore's count stays bounded", "statement": "The count of the workers' semaphore is bounded by a function of the numbers of workers and tasks, so that release never exceeds the semaphore's maximum.", "quantifier": "all programs and interleavings", "why_tests_cant": "The count grows only in long waits.", "anchors": ["include/co_ecs/thread_pool/thread_pool.hpp: wait, wake_worker"]}
{"id": "C60", "title": "par_each does what each does", "statement": "par_each(f) with a callback that uses only its own arguments calls it exactly once for every matching entity, never has two tasks in the same chunk, and leaves exactly the registry that each(f) leaves, however the tasks interleave.", "quantifier": "all reachable registries without a failed archetype creation (C18), component requests, callbacks, numbers of workers and interleavings", "why_tests_cant": "The number of interleavings is astronomical, and a lost update would need a particular one.", "anchors": ["include/co_ecs/view.hpp: par_each, chunks", "include/co_ecs/thread_pool/parallel_for.hpp: parallel_for"]}
{"id": "C61", "title": "The queue's memory orders are strong enough while the array does not grow", "statement": "Under the C++ memory model (every load may return any value that coherence, fences and synchronisation leave possible) a queue with one owner thread and any number of stealing threads behaves as long as no push had to grow the array like an atomic deque: no item is lost or delivered twice, no thread uses memory whose construction it does not know, and a thread that steals an item knows everything the owner knew when it pushed it.", "quantifier": "all capacities that are powers of two, numbers of thieves, sequences of operations, interleavings and choices of the values loads return", "why_tests_cant": "A wrong order shows on weakly ordered hardware only, in windows of a few instructions.", "anchors": ["include/co_ecs/detail/work_stealing_queue.hpp: push, pop, steal"]}
{"id": "C62", "title": "A thief may follow the pointer to a grown array", "statement": "When a push has replaced the array by a larger one, the construction and copy of the new array happen before every use by a stealing thread, and no item is lost.", "quantifier": "all capacities that are powers of two, numbers of thieves, sequences of operations, interleavings and choices of the values loads return", "why_tests_cant": "Needs a steal between the store of the pointer and the store of the bottom, on weakly ordered hardware.", "anchors": ["include/co_ecs/detail/work_stealing_queue.hpp: push, steal"]}
{"id": "C63", "title": "What a task did is visible after wait", "statement": "When wait returns, everything the awaited task and its children did happened before the return, so that their results may be read without a data race.", "quantifier": "all numbers of children, interleavings and choices of the values loads return", "why_tests_cant": "Needs weakly ordered hardware or a compiler that reorders around the relaxed counter.", "anchors": ["include/co_ecs/thread_pool/task.hpp: finish, is_completed", "include/co_ecs/thread_pool/thread_pool.hpp: wait"]}
{"id": "C64", "title": "The systems of a batch leave the registry that running them one after another leaves", "statement": "When a batch of systems runs in parallel and the systems only call each, single and par_each of their view parameters, every interleaving ends, without undefined behaviour, in the registry that running them one after another leaves; no two systems ever touch the same component of the same entity at the same time with one of them writing.", "quantifier": "all registries, stages, view parameters, system bodies and interleavings of their callback calls", "why_tests_cant": "Needs every interleaving of every set of systems; a test runs a few, and a race shows rarely.", "anchors": ["include/co_ecs/system/stage.hpp: execute_batch, run", "include/co_ecs/view.hpp: each, single", "include/co_ecs/system/access.hpp: allows"]}
{"id": "C65", "title": "Every element of a hash_map is destroyed exactly once", "statement": "In any program with any number of hash maps, every element ever constructed in a map is destroyed exactly once by the time the maps are gone.", "quantifier": "all sequences of calls, copies, moves, assignments and destructions of any number of maps, hash functions and values", "why_tests_cant": "A test would have to count constructors and destructors around every path of insertion, displacement, rehash and erasure.", "anchors": ["include/co_ecs/detail/hash_table.hpp: ~hash_table, erase_impl, reserve, clear, copy constructor"]}
{"id": "C66", "title": "Copying, moving and assigning hash maps", "statement": "A copy of a hash_map holds the same elements and is independent of the original, a map that was moved from is empty and usable, copy assignment makes a copy and move assignment exchanges the two maps, also of a map with itself; explicit reservations ask for a power of two.", "quantifier": "all sequences of calls on any number of maps, hash functions and values", "why_tests_cant": "Aliasing bugs show only for particular later calls on the copies.", "anchors": ["include/co_ecs/detail/hash_table.hpp: hash_table(const hash_table&), hash_table(hash_table&&), operator=, swap"]}
{"id": "C67", "title": "A hash_map constructed from a range holds the range", "statement": "Constructing a hash_map from a range or an initializer list with any valid bucket count gives a map that holds for every key the last value given, and can be used and destroyed.", "quantifier": "all ranges, bucket counts and hash functions", "why_tests_cant": "Tests use the default bucket count.", "anchors": ["include/co_ecs/detail/hash_table.hpp: hash_table(first, last, bucket_count), hash_table(initializer_list)"]}
{"id": "C68", "title": "hash_map iterators visit every element exactly once", "statement": "Incrementing begin() reaches end() without leaving the bucket and info arrays, and dereferencing on the way visits every element exactly once.", "quantifier": "all histories of calls whose reservations ask for a power of two, hash functions and values", "why_tests_cant": "Depends on the pattern of occupied buckets.", "anchors": ["include/co_ecs/detail/hash_table.hpp: begin, end, iterator_impl"]}
{"id": "C69", "title": "Copying, moving and assigning sparse maps", "statement": "A copy of a sparse_map holds the same elements and is independent of the original, and a map that was moved from is empty and usable.", "quantifier": "all sequences of calls on any number of maps", "why_tests_cant": "Tests do not use moved-from objects, and aliasing shows only after particular later calls.", "anchors": ["include/co_ecs/detail/sparse_table.hpp: copy and move constructors and assignments"]}
{"id": "C70", "title": "What systems record does not depend on the threads", "statement": "When systems with command_writer parameters run between two flushes, the entities and components that the flush leaves do not depend on which thread ran which system or on the order of their calls, up to the choice of the handles of new entities.", "quantifier": "all systems, numbers of calls, threads and interleavings", "why_tests_cant": "The assignment of systems to threads changes from run to run; a test sees one.", "anchors": ["include/co_ecs/system/system.hpp: system_command_writer_state::get", "include/co_ecs/command.hpp: command_buffer::get, flush, command_writer, command_entity_ref", "include/co_ecs/system/schedule.hpp: schedule_executor"]}
{"id": "C71", "title": "A frame of a schedule leaves the same entities however it is scheduled", "statement": "When a schedule runs once (its stages, batch after batch, then the flush), systems that go over their views and call their command_writers see on their views, and request through the writers, exactly what they would if they ran one after another, and the registry behind the flush holds the same entities and components for every assignment to threads and every interleaving, up to the choice of the handles of new entities.", "quantifier": "all schedules, system bodies, registries, threads and interleavings", "why_tests_cant": "Needs every interleaving of view accesses and recorded commands; a test sees a few.", "anchors": ["include/co_ecs/system/schedule.hpp: schedule_executor::run_once", "include/co_ecs/system/stage.hpp: stage_executor::run, execute_batch", "include/co_ecs/command.hpp: command_buffer::flush", "include/co_ecs/view.hpp: each, single"]}
{"id": "C72", "title": "Running a schedule again and again leaves the same entities however it is scheduled", "statement": "When an executor's run_once is called any number of times, the entities and components in the registry do not depend on which thread ran which system or how they interleaved in any of the runs, up to the choice of the handles of new entities.", "quantifier": "all schedules, system bodies, registries, numbers of runs, threads and interleavings", "why_tests_cant": "Differences of one run (handles, order of rows) feed the next; a test sees few histories of scheduling decisions.", "anchors": ["include/co_ecs/system/schedule.hpp: schedule_executor::run_once", "include/co_ecs/system/stage.hpp: stage_executor::run, execute_batch", "include/co_ecs/command.hpp: command_buffer::flush", "include/co_ecs/view.hpp: each, single, par_each"]}
{"id": "C73", "title": "An exception thrown by the callback of parallel_for reaches its caller", "statement": "An exception that the callback of parallel_for or par_each throws leaves the call on the calling thread and can be caught there, the program is terminated only if nothing catches it, and no task of the call uses the range or the callback after the call has ended.", "quantifier": "all nestings of parallel_for, try blocks and throwing callbacks, numbers of workers and interleavings", "why_tests_cant": "Which thread runs the throwing callback, and what is still queued then, changes from run to run.", "anchors": ["include/co_ecs/thread_pool/parallel_for.hpp: parallel_for", "include/co_ecs/thread_pool/thread_pool.hpp: wait, execute, run", "include/co_ecs/thread_pool/task.hpp: execute, finish"]}
{"id": "C74", "title": "The callback of each may use the registry", "statement": "The callback of each may call the registry again, also in nested loops: every entity that has the requested components when the loop begins is visited exactly once with the components it has by then, and each call has the effect it has outside of the loop.", "quantifier": "all registries, callbacks, nestings of loops and calls", "why_tests_cant": "Whether a loop survives a change depends on rows, chunks and table positions at that moment.", "anchors": ["include/co_ecs/view.hpp: each, chunks", "include/co_ecs/chunk.hpp: chunk_view", "include/co_ecs/base_registry.hpp: destroy, set_impl, remove"]}
{"id": "C75", "title": "The thread pool may be used from any thread", "statement": "There is at most one thread_pool, a second construction throws and changes nothing, and submit, parallel_for and the batches of a stage can be called from any thread of the program, whoever constructed the pool.", "quantifier": "all histories of constructions, destructions, uses of get() and calls of threads that are not concurrent", "why_tests_cant": "A test program has one thread that constructs and uses the pool.", "anchors": ["include/co_ecs/thread_pool/thread_pool.hpp: thread_pool, ~thread_pool, get, submit, current_worker", "include/co_ecs/thread_pool/parallel_for.hpp: parallel_for", "include/co_ecs/system/stage.hpp: execute_batch"]}
{"id": "C76", "title": "An exception thrown by a system leaves run_once and nothing else", "statement": "An exception thrown by a system leaves run_once on the calling thread and can be caught there, no system of that run is run afterwards, and every later run_once runs each of its systems exactly once before it returns.", "quantifier": "all batches of systems and main thread systems, numbers of runs, throwing systems, workers and interleavings", "why_tests_cant": "Which thread runs the throwing system, and which systems are still queued then, changes from run to run.", "anchors": ["include/co_ecs/system/stage.hpp: stage_executor::run, execute_batch", "include/co_ecs/system/schedule.hpp: schedule_executor::run_once", "include/co_ecs/thread_pool/thread_pool.hpp: submit, wait, run", "include/co_ecs/thread_pool/task.hpp: execute, finish"]}
{"id": "C77", "title": "Calls through entity_ref can fail without ending the program", "statement": "Calling has, archetype or visit through an entity_ref returns, or throws an exception that the caller can catch: for every handle and every callback. visit calls the callback once per component and keeps what it assigns.", "quantifier": "all reachable registries, handles and callbacks", "why_tests_cant": "Each noexcept function is right on the entities that tests look at; a dead handle or a throwing callback ends the test program itself.", "anchors": ["include/co_ecs/entity_ref.hpp: has, archetype, visit", "include/co_ecs/chunk.hpp: visit, visit_impl", "include/co_ecs/base_registry.hpp: has, visit, get_location, ensure_alive"]}
{"id": "C78", "title": "A placeholder is filled at any time, and once", "statement": "Filling a placeholder by clone, copy or move before sync gives the same registries and results as filling it after sync. Filling it again, or after its entity was destroyed, is rejected or replaces the entity: no entity is visited twice or when it is not alive, and no other entity changes.", "quantifier": "all reachable registries, all calls before sync, all placeholders", "why_tests_cant": "When sync is called relative to the other calls is a choice of every program, and a stale placeholder only shows when its slot was reused.", "anchors": ["include/co_ecs/base_registry.hpp: reserve, sync, set_location, clone, copy, move", "include/co_ecs/detail/handle.hpp: flush, alive"]}
{"id": "C79", "title": "Stages and systems go into the schedule they are added to", "statement": "The systems and stages that are added by begin_stage, add_system, end_stage and add_init_system are in that schedule afterwards, in the order of the calls, and no other schedule changes. This holds in one chain of calls, through references to stages that were kept, and for schedules that were moved.", "quantifier": "all sequences of calls, all schedules, all growth policies of the vectors", "why_tests_cant": "Whether a kept reference still refers to the stage depends on the capacity of a vector that no test sees, and a moved schedule that is used through an old reference looks right until the old object is gone.", "anchors": ["include/co_ecs/system/schedule.hpp: add_init_system, begin_stage", "include/co_ecs/system/stage.hpp: add_system, end_stage"]}
{"id": "C80", "title": "The range returned by each can be kept", "statement": "A range that each() returned can be looped over again after other calls: every loop visits exactly the entities that match at that time, each once and with its components.", "quantifier": "all reachable registries, all views, all calls between the loops", "why_tests_cant": "What the second loop does depends on the buckets that the archetypes are in, and on whether the table was replaced; most programs loop over a range once.", "anchors": ["include/co_ecs/view.hpp: each, chunks", "include/co_ecs/detail/views.hpp: join", "include/co_ecs/detail/hash_table.hpp: iterator"]}
{"id": "C81", "title": "A stage uses as few batches as first fit allows", "statement": "create_executor puts every system into the first batch that holds no earlier added system that excludes it: one that has the registry as a parameter, one that has a view when the system has the registry, or one such that one of the two writes a component that the other uses.  So a stage in which no system excludes a later one runs as one batch; there are never more batches than one plus the number of earlier systems that exclude some one system; and a system runs in an earlier batch than an earlier added one that excludes it only if a third system, added before both and in that batch, excludes the earlier one and not the later one.", "quantifier": "all stages, all parameters of the systems", "why_tests_cant": "The batches depend on every pair of systems in a stage; tests only check batches of a few hand-written systems.", "anchors": ["include/co_ecs/system/stage.hpp: create_executor", "include/co_ecs/system/access.hpp: allows"]}
{"id": "C82", "title": "The queue frees every array once and grows only when full", "statement": "work_stealing_queue frees every array that it allocated exactly once, in its destructor, and so no array that a push, pop or steal in progress still uses is freed before; each array has twice the capacity of the one before, so the old arrays together are smaller than the current one; and the array is replaced only by a push that found as many items in the queue as the array has room for, so a queue that never holds as many items as it was made for when an item is pushed keeps its first array.", "quantifier": "all initial capacities that are powers of two, all interleavings of one owner and any number of thieves", "why_tests_cant": "Whether an old array is still used depends on where a thief was interrupted; leaks and repeated frees only show under sanitizers, for the schedules that are tested.", "anchors": ["include/co_ecs/detail/work_stealing_queue.hpp: push, ~work_stealing_queue, array::grow"]}
{"id": "C83", "title": "Commands can be recorded and flushed on several threads", "statement": "Any number of threads may construct command writers, record commands for any registries, and call command_buffer::flush for any registries, without a data race.", "quantifier": "all interleavings of the operations of any number of threads", "why_tests_cant": "A data race is a property of all schedules; tests record on several threads and flush after joining them.", "anchors": ["include/co_ecs/command.hpp: command_buffer::get, command_buffer::flush, command_buffer::push", "include/co_ecs/detail/handle.hpp: reserve, flush"]}
{"id": "C84", "title": "An entity can be moved within its registry", "statement": "Moving an entity into a placeholder of its own registry (entity_ref::move with the registry that the entity is in) makes the placeholder an entity with the components, makes the old handle dead, and changes no other entity.", "quantifier": "all reachable registries, entities and placeholders", "why_tests_cant": "Only the overload without a placeholder asserts that the registries differ; what the other one does depends on where in its chunk the entity is stored.", "anchors": ["include/co_ecs/entity_ref.hpp: move", "include/co_ecs/base_registry.hpp: move", "include/co_ecs/archetype.hpp: move, swap_erase"]}
{"id": "C85", "title": "A reference to a component stays valid while no entity is taken out of its place", "statement": "The reference that get<C>() returns stays the reference to that component, reads its current value and can be assigned through like set, while entities of the registry are created, cloned, copied or moved into it, looked at, looped over and assigned to in any order and number; only destroying an entity, moving it away, or giving it or taking from it a component type may invalidate it, and then the components of every other entity lie where they did, or where those of that entity were.", "quantifier": "all reachable registries, entities, component types and sequences of calls", "why_tests_cant": "Tests use a reference at once; that none of the operations relocates rows depends on how chunks are added and emptied.", "anchors": ["include/co_ecs/entity_ref.hpp: get", "include/co_ecs/archetype.hpp: get, emplace_back, swap_erase, ensure_free_chunk", "include/co_ecs/chunk.hpp: chunk(chunk&&)"]}
{"id": "C86", "title": "A value stored in a hash map can be inserted into the same map", "statement": "insert, insert_or_assign, emplace and operator[] with a reference to an element of the same map as argument do what they do with a copy of that element.", "quantifier": "all key types, hash functions, histories of calls, elements and keys", "why_tests_cant": "It fails only in the call that makes the table grow, and then reads freed memory that usually still holds the old bytes.", "anchors": ["include/co_ecs/detail/hash_table.hpp: emplace_impl, emplace_or_assign_impl, reserve, operator[]"]}
{"id": "C87", "title": "A failed construction of a thread pool leaves the program as it was", "statement": "If the constructor of a thread_pool, or of the pool inside thread_pool::get(), throws because an allocation or the start of a thread fails, a pool can be constructed afterwards, get() returns an existing pool, and the program is not terminated.", "quantifier": "all histories of constructions, destructions and uses of pools, numbers of workers, points of failure and later calls", "why_tests_cant": "Tests cannot make an allocation or the start of a thread fail at a chosen point.", "anchors": ["include/co_ecs/thread_pool/thread_pool.hpp: thread_pool(std::size_t), start, get"]}
{"id": "C88", "title": "Workers are found under their ids", "statement": "For each worker of a pool get_worker_by_id(worker.id()) is that worker, other ids terminate the program, and the random victim of a theft is any background worker and never the main one.", "quantifier": "all numbers of workers and ids", "why_tests_cant": "The id is truncated to 16 bits, and no test has so many workers.", "anchors": ["include/co_ecs/thread_pool/thread_pool.hpp: worker(thread_pool&, uint16_t), get_worker_by_id, random_worker"]}
{"id": "C89", "title": "The statistics of the workers count what happened", "statement": "With CO_ECS_WORKER_STATS each executed task is counted once, by the worker that executed it, each theft by the thief and each search without result by the searcher; when no worker is in a task the task counts sum up to the number of tasks taken from the queues; and a task that was waited for has been counted.", "quantifier": "all programs, numbers of workers and interleavings", "why_tests_cant": "The counts are made after a task is complete, so that a test sees a missing one only in a short window.", "anchors": ["include/co_ecs/thread_pool/thread_pool.hpp: worker_stats, wait, steal, execute, idle"]}
{"id": "C90", "title": "Code that waits for its own tasks ends, and so does the destructor of the pool", "statement": "Whenever every thread of a thread_pool runs again and again, all calls of code whose functions wait only for tasks that they submitted themselves return, so the main program ends; if moreover all code waits for what it submits, a moment comes from which on every task has been executed and no task is queued; and when the main program gets to the destructor of the pool, the destructor returns.  This holds whichever victims are chosen for thefts and however the steps of the threads are interleaved.", "quantifier": "all programs of this form that submit fewer than 65536 tasks (any number for the calls and the destructor), all numbers of workers, all infinite executions in which no thread is kept from running for ever", "why_tests_cant": "It is a statement about infinite executions; a test that ends shows it for one schedule.", "anchors": ["include/co_ecs/thread_pool/thread_pool.hpp: wait, run, get_task, ~thread_pool", "include/co_ecs/task.hpp: finish"]}
{"id": "C91", "title": "Component ids tell component types apart", "statement": "Whenever code of any module (executable or shared library) uses a component type, it sees the id of that type: two uses see the same id exactly if they name the same type.  This holds also before and during the initialization of global objects, for types in unnamed namespaces, and when modules are loaded and unloaded.", "quantifier": "all component types, numbers of modules, orders of initialization and unloading, hash functions", "why_tests_cant": "The order in which the ids are initialized is unspecified, and a test sees the one its compiler and linker chose.", "anchors": ["include/co_ecs/component.hpp: type_registry::id, type_id::value, component_meta::of", "include/co_ecs/type_meta.hpp: type_name"]}
{"id": "C92", "title": "Tasks that nobody waits for are executed", "statement": "While a pool with background workers exists, every submitted task gets executed, exactly once, and its execution ends, also if no one waits for it and the thread that submitted it never touches the pool again: there is a moment from which on all submitted tasks have been executed.", "quantifier": "all programs whose functions wait only for tasks they submitted, pools of at least two workers, infinite executions in which each thread runs again and again", "why_tests_cant": "It is a statement about every infinite interleaving; a test that waits some seconds sees one of them.", "anchors": ["include/co_ecs/thread_pool/thread_pool.hpp: worker::submit, worker::run, worker::get_task", "include/co_ecs/thread_pool/task.hpp: task::execute"]}
{"id": "C93", "title": "Commands can be recorded while a flush runs", "statement": "A destructor, copy or move of a component that a flush calls may use a command_writer of the same registry: what it records is executed by the same flush, behind what its thread recorded before, and an entity that it creates is alive behind the flush.", "quantifier": "all queues, threads, flushing threads and calls made by components", "why_tests_cant": "It depends on the order in which the threads registered their buffers and on which thread flushes; tests use one thread and components without effects.", "anchors": ["include/co_ecs/command.hpp: command_buffer::get, command_buffer::flush, command_buffer::play_commands, command_writer", "include/co_ecs/base_registry.hpp: destroy", "include/co_ecs/detail/handle.hpp: handle_pool::reserve, handle_pool::recycle"]}
{"id": "C94", "title": "Containers with temp_allocator own their memory", "statement": "A container that uses temp_allocator has its memory to itself until it is destroyed, also when it grows and when functions called meanwhile, such as nested parallel_for calls, use such containers too; when those calls return the thread's temporary memory is as before.", "quantifier": "all nestings of calls, sizes, alignments, element types and states of the thread's temporary allocator", "why_tests_cant": "Nesting arises when a waiting thread executes other tasks; overwritten temporary memory shows only when another container happens to be used at that time.", "anchors": ["include/co_ecs/detail/allocator/temp_allocator.hpp: temp_allocator::allocate, temp_allocator::deallocate", "include/co_ecs/detail/allocator/stack_allocator.hpp: allocate, deallocate", "include/co_ecs/thread_pool/parallel_for.hpp: parallel_for"]}
{"id": "C95", "title": "Parallel code runs in an order that its text allows", "statement": "Code that runs on the thread pool and calls parallel_for or stages, nested to any depth, does each of its actions exactly once, in an order in which everything of a call of parallel_for or of a batch of a stage happens behind what is written before it and before what is written behind it, the parts of one call or batch being interleaved arbitrarily and each part in its own order; at each moment the actions so far are the beginning of such an order. In particular parallel_for and stages produce only the orders that the properties about them assume.", "quantifier": "all code of actions and nested calls that submits fewer than 65536 tasks, all numbers of workers, all interleavings of the workers and all choices made when stealing", "why_tests_cant": "A wait that returns too early, or a task executed twice, shows only in particular interleavings of several workers.", "anchors": ["include/co_ecs/thread_pool/thread_pool.hpp: worker_t::submit, worker_t::wait, worker_t::run, get_task", "include/co_ecs/thread_pool/task.hpp: execute, finish", "include/co_ecs/thread_pool/parallel_for.hpp: parallel_for", "include/co_ecs/system/stage.hpp: stage_executor::execute_batch"]}
{"id": "C96", "title": "Memory of destroyed entities is used again", "statement": "However often entities are created and destroyed, a registry that never holds more than K entities, all with the same component types, never has more than K + 1 chunks.", "quantifier": "all programs with one registry, component types, numbers K and numbers of calls", "why_tests_cant": "It depends on the places of the destroyed entities; tests destroy few entities and do not look at chunks.", "anchors": ["include/co_ecs/archetype.hpp: archetype::swap_erase, archetype::ensure_free_chunk", "include/co_ecs/chunk.hpp: chunk::swap_erase", "include/co_ecs/base_registry.hpp: create, destroy"]}
{"id": "C97", "title": "Waiting does not nest deeper than the code does", "statement": "In code whose forks (parallel_for calls and batches of systems) nest d levels deep, no worker ever has more than d + 1 function calls of tasks and the main function on its stack.", "quantifier": "all codes, numbers of workers, schedules and states of their runs", "why_tests_cant": "The depth depends on which worker steals what and when; tests have few tasks and do not measure stacks.", "anchors": ["include/co_ecs/thread_pool/thread_pool.hpp: worker::wait, worker::get_task, worker::execute, worker::submit", "include/co_ecs/thread_pool/parallel_for.hpp: parallel_for"]}
{"id": "C98", "title": "Handles that are not entities of the registry are rejected", "statement": "For every handle value that is not an entity of the registry (default-constructed, made up, or of another registry), alive returns false, and every call that takes it throws entity_not_found and changes nothing.", "quantifier": "all registries reached by calls, all handle values, all components", "why_tests_cant": "Tests use handles the registry itself returned; the handle values that are wrong but look right depend on the history.", "anchors": ["include/co_ecs/detail/handle.hpp: handle_pool::alive, handle_pool::recycle, handle::invalid", "include/co_ecs/base_registry.hpp: alive, get_location, ensure_alive, destroy, get, has, copy, move, clone"]}
{"id": "C99", "title": "Ids of destroyed entities are used again", "statement": "If a registry never has more than K handles in use at a time (entities, and reserved handles not yet placed), then all ids it ever hands out are smaller than K, however many entities are created and destroyed over time.", "quantifier": "all programs with any number of registries, all K, all interleavings of reservations", "why_tests_cant": "Tests create and destroy a few entities; an id that is lost once in a while shows only after very long runs.", "anchors": ["include/co_ecs/detail/handle.hpp: handle_pool::create, handle_pool::recycle, handle_pool::reserve, handle_pool::flush", "include/co_ecs/base_registry.hpp: create, destroy, copy, move, clone, reserve"]}
{"id": "C100", "title": "Every recorded command runs once, and frames take effect in order", "statement": "Every command a thread recorded is executed exactly once, at the end of the frame in which it was recorded (by the next call of flush), after the commands the thread recorded before it; the commands of a frame take effect before those of any later frame.", "quantifier": "all histories of calls of the command writers of any number of threads and of flush, with calls that throw", "why_tests_cant": "Tests flush once or twice and look at the entities; commands that fail in one frame and what then happens to those of other threads and of the next frames are not tried.", "anchors": ["include/co_ecs/command.hpp: command_buffer::flush, play_commands, push, command_writer", "include/co_ecs/system/schedule.hpp: schedule_executor::run_once"]}
{"id": "C101", "title": "4096 slots are enough for few unfinished tasks", "statement": "As long as no more than 4096 tasks of a worker are unfinished at a time, a new task does not get the slot of a task that is still in use.", "quantifier": "all code that uses parallel_for and stages, all numbers of workers, all interleavings and all starting values of the allocation counters", "why_tests_cant": "Needs thousands of calls of parallel_for inside one task, or a worker that is interrupted between two instructions for as long as thousands of tasks take.", "anchors": ["include/co_ecs/thread_pool/task.hpp: task_pool::allocate, task_t::finish", "include/co_ecs/thread_pool/thread_pool.hpp: worker::submit, wait", "include/co_ecs/thread_pool/parallel_for.hpp: parallel_for"]}
{"id": "C102", "title": "Entities are ordered, and in each slot by age", "statement": "The comparison operators of entity are a total order in which only equal handles are equal, so that entities can be sorted and be keys of std::set and std::map; every handle that is handed out is valid and less than the invalid one; of two handles with the same id the one handed out earlier is less, so that an entity of a registry is greater than every destroyed one that had its id, and the entities of a registry are ordered by their ids.", "quantifier": "all handles, all histories of fewer than 2^32 operations, reservations of any number of threads, all programs with registries", "why_tests_cant": "It depends on how often slots were used before; tests compare few handles for equality only.", "anchors": ["include/co_ecs/detail/handle.hpp: handle::operator<=>, handle::valid, handle::invalid, handle_pool::create, handle_pool::recycle, handle_pool::reserve, handle_pool::flush", "include/co_ecs/entity.hpp: entity", "include/co_ecs/base_registry.hpp: create, destroy"]}
