# Design

Formal model of co_ecs (`/repo/include/co_ecs`) in Coq 8.16.1.  The code is read as text and
never built.  Theorems are about the model; the tie to the code is the line citation
on every definition.

## Conventions

* A model file holds only computable definitions, a `*Proofs.v` file the lemmas, a `Prop*.v` file the
  property theorems, their examples and `Print Assumptions`.
* Undefined behaviour is an explicit outcome (`UB`), exceptions are explicit outcomes (`Throw e`) that
  keep the state changes made before the throw.
* Fuelled loops return an explicit out-of-fuel outcome which theorems exclude.
* 32-bit wrap of ids and generations is written into the handle pool.
* `_refuted` theorems exhibit a concrete history on which the English property fails.  `_partial` theorems
  prove less than the English property and say what is missing.

## Trusted base

* The Coq 8.16.1 kernel (and `vm_compute` for the computed witnesses).
* std++ (library, no axioms) and the Coq standard library.
* The reading of the C++ code documented by the citations.
* `Print Assumptions` answers "Closed under the global context" for every property theorem (each `Prop*.v`
  prints it).  A whole-library `coqchk` also lists seven constants `Coq.ssr.ssrunder.Under_rel.*`: opaque
  module-type fields of Coq's own ssreflect, loaded by std++; no theorem here depends on them.

## What is modelled

| header | modelled | not modelled |
|--------|----------|--------------|
| detail/handle.hpp | handle, handle_pool (HandlePool.v), reserve as two atomic steps; comparison (HandleOrder.v) | - |
| detail/sparse_table.hpp, sparse_map.hpp | HandlePool/registry operations: insertion, lookup, erase, clear, iteration order (SparseMap.v); copies, moves and moved-from tables (SparseMove.v) | iterators as objects |
| detail/hash_table.hpp, hash_map.hpp | lookup, emplace, insert_or_assign, index, erase, reserve, rehash, clear, iteration (HashTable.v); object lifetimes, destructor, copy, move, assignment (HashLife.v); iterators, range and initializer-list constructors (HashRange.v); references to own elements as arguments (HashAlias.v) | allocators with state, heterogeneous lookup, post-increment and cbegin/cend (ill-formed if instantiated) |
| detail/dynamic_bitset.hpp | all (Bitset.v) | - |
| detail/bits.hpp | all (Bits.v) | - |
| detail/work_stealing_queue.hpp | push, pop, steal, size, growth, interleaved (WSQueue.v, sequentially consistent); push, pop, steal with their memory orders (WeakMem.v, WeakQueue.v), and the arrays that are freed (QueueMem.v) | size and freeing under weak memory |
| detail/allocator/* | linear, stack, temp (Allocators.v) | typed construct helpers |
| component.hpp, type_meta.hpp, detail/macro.hpp | type ids, component sets, copy/move/destroy through type_meta (TypeRegistry.v, ComponentSet.v, Chunk.v); when the ids are initialized, modules (StaticInit.v); commands recorded by components during a flush (FlushHook.v); temporary memory of nested calls and of growing vectors (TempMemory.v) | real object contents: a component is a number or "moved from" |
| chunk.hpp | construction, swap_erase, move, copy, destruction at byte offsets (Chunk.v) | const overloads |
| archetype.hpp | layout (Layout.v), archetypes (Archetype.v), archetype table (Registry.v) | - |
| base_registry.hpp, registry.hpp, entity_ref.hpp, entity_location.hpp | create, destroy, set, get_or_insert, remove, get, has, visit, clone, copy, move, reserve, sync, alive, size (Registry.v); entity_ref is the handle with its registry, and its noexcept functions has, archetype and visit terminate (EntityRef.v); move within one registry (SelfMove.v); references kept across calls (RefKept.v) | - |
| view.hpp, view_arguments.hpp, chunk views | each, single (View.v), par_each as interleaved tasks (ParEach.v), callbacks of each that use the registry (EachOps.v), ranges that are looped over again (KeptRange.v) | copies of a range (they drop the kept iterator), callbacks of par_each that share state |
| command.hpp | buffers per thread, recording, flush, thread exit (Command.v); which memory the operations touch, the mutex, data races (CmdRace.v) | data races with other uses of a registry |
| system/access.hpp, stage.hpp, schedule.hpp, system.hpp | access patterns, batches, executors, schedules (Access.v, Stage.v); system bodies that go over their views with each, single and par_each, interleaved on the registry (SystemRun.v); the calls of command writers of concurrent systems (SysCommand.v); both together in a run of a schedule with the flush (SysFrame.v); several runs (Frames.v); systems that throw (StageThrow.v); the objects that building a schedule refers to (SchedBuild.v) | exceptions of the flush and of the conversion to arguments, template argument deduction |
| thread_pool/* | parallel_for, task counters, task slots (ParallelFor.v, Task.v); workers, queues, stealing, helping waits, run loop, stop (ThreadPool.v), order of the actions (PoolTrace.v), depth of the stacks (PoolDepth.v); callbacks of parallel_for that throw (PoolThrow.v); the single-instance pointer and current_worker (PoolContext.v), constructors that fail, worker ids (PoolFail.v); statistics (PoolStats.v); the memory orders of the task counter (WeakTask.v) | time-outs, join, concurrent construction and destruction of pools |
| exceptions.hpp | the exception kinds (Base.v) | texts |

Registry theorems assume fewer than 2^31 operations (generations wrap at 2^32, C02) and distinct component
types per call; handles may be any values (C98), also in commands; the scripts of systems (C70-C72, C76) refer to handles of the registry, as another handle could become that of a new entity depending on the interleaving.  `reach` in RegSpec.v is the set of histories.

## Defects found

* Destroying can leave an empty last chunk, from which the next destruction takes a row (C17); a failed clone
  prepares the same state.
* insufficient_chunk_size leaves a null archetype that views dereference, and loses an id (C18).
* A throwing component constructor leaves a registered raw slot (C22).
* clone, copy and move allocate an id before they check the source; a failed copy leaks objects (C26).
* Layout: blocks can overrun the buffer and be misaligned (C20, C21), remove can throw (C51), also with alignments
  up to 4.
* alive() answers true for the future handle of a free slot; creating between reserve and sync breaks reservations (C04).
* After hash_map::reserve(n) with n not a power of two (the assertion accepts all even numbers), for every hash function at
  most 2n/3 keys can be inserted; the next insertion never returns (C40); queue capacity likewise (C39).
* hash_map::erase never destroys the emptied bucket's object (C65); the range constructor ignores the bucket count for
  _info, so that any count but 16 is undefined (C67).
* A moved-from sparse_map keeps its size and capacity with empty vectors; using it is undefined (C69).
* Stage: conflicting systems can be reordered (C32), main-thread systems run once per batch (C33), overlap
  conflicting systems (C48); the second executor is empty (C50); command writers may run beside registry owners (C49).
* Command buffers: set leaks a staging entity (C28), commands go to whichever registry is flushed (C29), a buffer's
  address outlives its thread (C52), threads are played in registration order (C53, C70), so that the order
  of rows, and with it what single() returns in the next run, depends on the threads (C72).
* A helping wait can block on a task below it on its own stack (C57); the destructor drops queued tasks (C58); waiting
  releases the semaphore without bound (C59).
* An exception out of a callback of parallel_for leaves the call while its other tasks are queued and refer to its
  variables; on another thread it terminates the program, or goes to the handler of another call, and the call whose
  task threw waits forever (C73).
* A callback of each that destroys the entity it is given, or adds or removes a component, makes the loop read a row
  that no longer exists, or visit the entity twice (C74).
* submit, wait, and parallel_for on a thread that did not construct the pool dereference a null current_worker, or a
  dangling one if that thread had a pool before; get() after the end of its local static returns the destroyed
  object (C75).
* A system that throws on the calling thread leaves the rest of its batch queued: it runs during or after a later run, on
  two threads at once, or with an executor that was destroyed; on another thread the exception terminates the program;
  the run that is left does not flush (C76).
* entity_ref::has and entity_ref::archetype are noexcept and terminate the program on a handle that was destroyed or not
  filled yet; an exception of the callback of visit terminates it, too (C77, C11).
* A placeholder is filled without a check: a second time, its entity is visited twice; after its entity was destroyed, a
  dead entity is visited, or the entity that got its slot loses its components (C78).
* A `stage&` dangles as soon as a later `begin_stage` makes the vector of stages grow, and a `schedule` that is moved leaves
  its stages pointing at the old object, which `end_stage` then returns (C79).
* The range returned by `each()` keeps the first matching bucket: after new archetypes were added, looping over it again
  misses entities, throws, or reads freed memory (C80).
* `command_buffer::flush` reads the commands of all threads while they may be recording, even for other registries, and calls
  `sync` before it locks the mutex: both are data races (C83).
* Moving an entity into a placeholder of its own registry writes to a row that was just given up, or gives the placeholder
  the row of another entity (C84).
* hash_map::insert, emplace and operator[] grow the table before they read their arguments; with a reference into the map
  they read freed memory (C86).
* A thread_pool constructor that throws after it set _instance leaves it dangling: every later construction throws, get()
  returns the destroyed object; if a thread other than the first cannot be started, the program is terminated (C87).
* Worker ids are truncated to 16 bits (C88); a task is counted in the statistics only after it is complete, so that a wait for it
  can return first (C89).
* Code that runs before the component ids are initialized (constructors of global objects) takes all component types for one;
  types of unnamed namespaces with one name have one id; a shared library that is unloaded leaves dangling names (C91).
* A component destructor that records commands during a flush: deadlock on a thread that never recorded before; commands left
  behind if the thread's buffer comes early; a created entity that is not alive, after which handles and slots do not match (C93).
* A std::vector with temp_allocator that grows loses its new memory: releasing the old memory moves the top below the new one (C94).
* archetype::swap_erase fills the hole from the last chunk, but chunk::swap_erase on the last row of a chunk just drops that
  row, also if the chunk is not the last one; ensure_free_chunk looks at the last chunk only and only an empty last chunk is
  released.  So inner chunks become empty and stay, and a program with at most three entities needs any amount of memory (C96).
* worker::wait runs any task it gets, not only those it waits for.  With three or more workers the tasks of one fork can
  all begin inside one another on one stack, so the stack needed grows with the number of tasks (C97).
* alive is true for the handle that a destroyed slot will give next, although it was never handed out, for example for an
  entity of another registry; calls with it throw std::out_of_range instead of entity_not_found (C98).
* An id that create, clone, copy or move allocated is lost when the call throws: k failed calls use up k ids, also on an
  empty registry (C99).
* After a command threw, the commands that other threads recorded in that frame are executed at the end of the next frame,
  and after commands of that next frame: an older value replaces a newer one (C100).
* Three-level task trees complete too early (C38); task slots are reused while busy (C47).
* A system or batch that makes 4096 calls of parallel_for loses its own slot while it runs: its function object is destroyed and
  its counter reset, although only two tasks are unfinished (C101).
* work_stealing_queue::push stores the pointer to a grown array with relaxed order; a thief can use an array whose
  construction it does not know and lose an item (C62; a releasing store is enough).
* The task counter is changed and read with relaxed order; wait does not make the task's effects visible (C63).
* stack_allocator: exactly full buffer, empty blocks, moves, large temporaries (C45).

## Plan per property

| id | title | model | how |
|----|-------|-------|-----|
| C01 | Issued handles are unique | HandlePool | pool state machine with uint32 wrap; invariant over histories in phases |
| C02 | A destroyed handle stays dead | HandlePool | generation counter monotone below the wrap; wrap revival proved as a refutation of the unbounded claim |
| C03 | Concurrent reservations are distinct and become alive at sync | HandlePool | per-thread two-step reserve (fetch_sub, fetch_add), all interleavings |
| C04 | Creating or destroying between reserve and sync | HandlePool, Registry, PropReserveMix, PropReserveReg | refuted by computed histories, and for every pool with outstanding reservations by computing the pool and the handles after k reservations; without a free slot induction over the mixture; at every reachable registry, create overwrites the cursor, so that it is the same function with and without the reservation |
| C05 | Create stores exactly the given components and disturbs nothing else | Registry | refinement to a map handle -> component map |
| C06 | Destroy removes exactly one entity | Registry | same |
| C07 | Set adds or overwrites one component | Registry | same |
| C08 | Remove deletes one component | Registry | same |
| C09 | get_or_insert inserts only when absent | Registry | same |
| C10 | get and has report the latest write | Registry | same |
| C11 | Operations on dead handles are rejected without effect | Registry | same |
| C12 | The registry refines a finite map from handles to component maps | Registry | trace refinement over operation lists |
| C13 | size counts the entities | Registry | corollary of the refinement |
| C14 | A view yields exactly the matching entities once | View | the iteration list is a permutation of the spec's matching entities |
| C15 | each updates exactly the requested components of the matching entities | View | refinement of the update loop |
| C16 | single returns a match iff one exists | View | from the iteration list |
| C17 | Destroying entities never reaches undefined behaviour | Registry | refuted by a computed history; proved under stated sufficient conditions and exact characterisation of the failing state |
| C18 | A failed creation leaves the registry usable | Registry | entity data part proved; later-view part refuted by a computed history |
| C19 | Blocks never overlap | Layout | arithmetic over arbitrary sizes and alignments |
| C20 | Blocks stay inside the chunk buffer | Layout | refuted in general; proved under sufficient conditions |
| C21 | Components are correctly aligned | Layout | refuted in general; proved under sufficient conditions |
| C22 | Component lifetimes balance | Chunk/Registry | cells carry a raw/object state and misuse is undefined behaviour in the model; invariant |
| C23 | visit enumerates exactly the entity's components | Registry | from the chunk invariant |
| C24 | clone duplicates an entity | Registry | same refinement |
| C25 | move transfers an entity between registries | Registry | two-registry refinement |
| C26 | Failed copies leak nothing | Registry | refuted by computed histories |
| C27 | Command flush equals direct execution | Command | simulation between the queued run and direct execution |
| C28 | Flush leaves no residue | Command | queue part proved; staging part refuted |
| C29 | A failing command does not lose or cross commands | Command | queue part proved; cross-registry part refuted |
| C30 | Access check admits no conflict | Access | case analysis over all patterns; refuted for the registry-read pattern |
| C31 | Stage batches partition the systems without conflicts | Stage | induction on the greedy loop |
| C32 | Conflicting systems run in registration order | Stage | refuted |
| C33 | Each system runs exactly once per stage run | Stage | proved for ordinary systems; refuted for main-thread systems |
| C34 | Parallel batch execution is deterministic | Stage, Interleave | commutation of non-conflicting atomic actions, all interleavings |
| C35 | Schedule execution order | Schedule | trace of the executor |
| C36 | parallel_for covers the range exactly once | ParallelFor | arithmetic and list partition |
| C37 | wait returns only after all subtasks finished | Task | interleaving model, invariant on the counter |
| C38 | Nested task completion is counted once | Task | refuted by a computed interleaving |
| C39 | The work-stealing queue neither loses nor duplicates items | WSQueue | small-step interleavings, one owner and any number of thieves; sequential consistency |
| C40 | hash_map behaves as a finite map | HashTable, HashLoop | robin-hood invariant, refinement to gmap; for other bucket counts, the usable buckets are counted (at most two thirds) and the probe sequence is periodic, so that an insertion never returns |
| C41 | sparse_map behaves as a finite map | SparseMap | refinement to gmap |
| C42 | Component sets compare by content | Bitset | canonical form invariant |
| C43 | Type ids are stable and unique | TypeRegistry | invariant over request lists |
| C44 | Linear allocator hands out valid memory | Allocators | invariant over request lists |
| C45 | Stack allocator hands out valid memory | Allocators | LIFO law proved below the boundary; exact-full request refuted |
| C46 | Type names are recovered exactly | TypeRegistry | suffix computation on character lists for the documented signature formats |
| C47 | Unfinished tasks never share a task slot | Task | slot arithmetic; refuted once more tasks are unfinished than the pool has slots |
| C48 | Main-thread systems never conflict with what runs beside them | Stage, Interleave, PropMainThread | refuted by a trace; every main-thread system runs beside every other system of the stage, by building the traces; determinism without such conflicts from the commutation of C34, with the main thread as one program |
| C49 | Command writers never run beside a registry owner | Stage, Command, PropReserveMix | refuted by the schedule and by what a run of it does; the other registration order proved |
| C50 | A schedule can create several executors | Stage | refuted for every stage |
| C51 | Removing a component needs no space | Registry, Layout, RemoveProofs | refuted by computed histories; the archetype of an entity has a layout (part of the registry invariant), so that only the size without the component matters: monotone for one alignment or two neighbouring ones, bounded by the largest paddings |
| C52 | Threads that recorded commands may end | Command | refuted for every program |
| C53 | Commands of several threads take effect in the order of recording | Command | refuted by a computed history |
| C54 | Every submitted task is executed at most once and none is lost | ThreadPool | ghost list of started tasks; invariant: started and queued tasks are a permutation of all |
| C55 | wait returns only after the tasks it waits for | ThreadPool | weights: the counter is at most the number of unfinished children plus one |
| C56 | parallel_for and stages never deadlock | ThreadPool | the call started last can always go on; multiset order for termination; lemma that the library's uses are fork-join |
| C57 | Waiting for earlier tasks never deadlocks | ThreadPool | refuted by a computed interleaving whose core no step can change |
| C58 | Every submitted task is executed eventually | ThreadPool | possible completion proved from C56; refuted for stop and for one worker |
| C59 | The worker semaphore's count stays bounded | ThreadPool, PropSem | refuted by induction on the bound; each step raises the count at most as often as it adds tasks or is made inside wait |
| C60 | par_each does what each does | ParEach | invariant over interleaved steps: rows done and rows left partition the rows of the matching chunks; the rows and a frame determine the registry, so all executions end in the same one; each is the execution by one task |
| C61 | The queue's memory orders are strong enough while the array does not grow | WeakMem, WeakQueue | view-based memory; every step takes the message its load reads; invariant: a deque history with the log, the last messages are the SC queue of C39, bounds on what each thread can still read |
| C62 | A thief may follow the pointer to a grown array | WeakMem, WeakQueue | refuted for the relaxed store by a computed execution; proved for a releasing store by the invariant of C61 |
| C63 | What a task did is visible after wait | WeakMem, WeakTask | refuted for relaxed operations by a computed execution; proved for release/acquire by an invariant on the messages of the counter |
| C64 | The systems of a batch leave the registry that running them one after another leaves | SystemRun, ParEach, View, Stage | two steps of different systems of a batch commute on the row store of the registry (their views are separate by C31), and so do steps of two tasks of one par_each (they never meet in a row); a confluence lemma under an invariant then gives one final registry, which is that of the sequential run |
| C65 | Every element of a hash_map is destroyed exactly once | HashLife, HashTable | a table carries for every bucket whether an object lives there; every operation simulates that of HashTable.v and keeps: occupied buckets hold objects, and lost objects + live objects = elements + successful erasures |
| C66 | Copying, moving and assigning hash maps | HashLife, HashTable | a list of tables is related to a list of finite maps; every step keeps the relation |
| C67 | A hash_map constructed from a range holds the range | HashRange, HashTable | the two arrays simulate the buckets of HashTable.v when they have the same length; with different lengths the two positions of an iterator stay equal and so never reach end() |
| C68 | hash_map iterators visit every element exactly once | HashRange, HashTable | fast_forward from bucket p stops at the next occupied bucket; induction on the remaining buckets |
| C69 | Copying, moving and assigning sparse maps | SparseMove, SparseMap | a list of maps is related to a list of finite maps; a moved-from map is related to nothing but its existence |
| C70 | What systems record does not depend on the threads | SysCommand, Command | every run is a history of C27; operations of different systems on different entities commute, so that the queues can be sorted by system; two runs are related by a renaming of the new handles; refuted by two systems that set the same component |
| C71 | A frame of a schedule leaves the same entities however it is scheduled | SysFrame, SystemRun, SysCommand | view steps touch neither the pool of handles nor the buffers, recording touches nothing else of the registry, so every run splits into the views' run (C64) and a recording run of the same commands (C70) |
| C72 | Running a schedule again and again leaves the same entities however it is scheduled | Frames, SysFrame | relate the states of two executions after each run by an injective renaming of handles (the rows of every view are permutations of each other); a body is blind if related rows make it record the same groups of calls in another order; induction over the runs, each by C71 and the independence of C70; refuted for a body that calls single() |
| C73 | An exception thrown by the callback of parallel_for reaches its caller | PoolThrow, ThreadPool | workers with stacks of functions, scopes for the variables of each call, unwinding; with one worker or short ranges: the rest of main's stack and queue always evaluates to the rest of the sequential meaning; without a throw: simulation by ThreadPool, so that C54 and C55 apply; runs for every number of workers from two refute the claim |
| C74 | The callback of each may use the registry | EachOps, Registry, View | programs of calls and nested loops; calls that change only values keep table, locations and chunk sizes, so that the row of every handle stays; induction over programs with the abstract machine of C12 beside; runs with moving calls refute the claim |
| C75 | The thread pool may be used from any thread | PoolContext | calls of threads on the single-instance pointer, the local static and current_worker; an invariant ties the pointer to the existing pool and current_worker to its members, which gives exact conditions; three histories refute the claim |
| C76 | An exception thrown by a system leaves run_once and nothing else | StageThrow, StageCalm | the main program as a list of statements (runs in try blocks, batches, submissions, waits) beside workers with queues; one worker: what is left on the list and in the queue evaluates to the rest of the sequential meaning; no throw: an invariant counts for every task of the batch where it is (queued, running, finished) against the counter of the parent; runs for every number of workers from two refute the claim |
| C77 | Calls through entity_ref can fail without ending the program | EntityRef | noexcept turns an exception into termination; has and archetype follow from the lemmas on locations of C10 and C11; visit by induction over the blocks, every assignment being a set of a component that is there; destroyed handles and throwing callbacks refute the claim |
| C78 | A placeholder is filled at any time, and once | Placeholder | calls that ask the handle pool only about handles that sync does not change commute with any exchange of the pool, by composition over every function of the registry; so sync moves over them; a placeholder that names a used slot or a destroyed entity refutes the second sentence, for every registry |
| C79 | Stages and systems go into the schedule they are added to | SchedBuild | the objects behind the references: schedules, arrays of stages, addresses that are not reused; induction over the chain of calls; for kept references the exact number of calls that they survive, for any growth policy; references begun before a move refute the claim, for every state |
| C80 | The range returned by each can be kept | KeptRange | the iterator that std::views::filter keeps from its first begin(), as a bucket number; every call leaves the table as it is or makes it larger, by induction over the functions of the registry, so with equally many archetypes begin() would find the same bucket; any kept bucket gives a last part of what each visits, or a failure; concrete runs refute the rest |
| C81 | A stage uses as few batches as first fit allows | Stage | a relation on parameter lists, stated without access patterns; the pattern of a batch allows a system iff no member excludes it; each pass takes the systems in order, so first fit follows by induction over the passes; the rest follows by counting |
| C82 | The queue frees every array once and grows only when full | WSQueue, QueueMem | the executions of WSQueue with the list _garbage beside them; the arrays are numbered in the order of allocation; invariants over the steps: the list is 0..current-1, capacities are powers of two times the first, and a push that is about to test the capacity has a state in which it read _top |
| C83 | Commands can be recorded and flushed on several threads | CmdRace | a machine whose steps are memory accesses, locks and orders given by the user; happens-before and data races are defined on traces as in the C++ standard; invariants: accesses under the mutex are ordered, and a flush touches a buffer only after it was registered; for every state, two short runs refute the claim |
| C84 | An entity can be moved within its registry | SelfMove | base_registry::move with both registries, archetypes and possibly chunks the same object; a small logic of results that are undefined or satisfy a postcondition follows the sizes of the chunks and shows that the row that is returned has no object any more; concrete runs for full chunks |
| C85 | A reference to a component stays valid while no entity is taken out of its place | RefKept | an address is archetype, chunk and offset; every registry operation is shown to leave blocks and locations of the other entities as they are, or to exchange the location of one entity for that of the entity taken away; induction over calm sequences of calls; runs with dangling references |
| C86 | A value stored in a hash map can be inserted into the same map | HashAlias | the bucket array gets a number that changes with every reallocation, a reference is array and bucket; the argument is read after the growth; both cases for all histories |
| C87 | A failed construction of a thread pool leaves the program as it was | PoolFail | the constructor with a point of failure on top of PoolContext; a state with a dangling _instance is preserved by every call |
| C88 | Workers are found under their ids | PoolFail | the list of workers as the constructor builds it |
| C89 | The statistics of the workers count what happened | PoolStats | the steps of ThreadPool with increments that are due before a worker's next step; ghost log of get_task and of submitters; one invariant per worker, and the sum over all workers |
| C90 | Code that waits for its own tasks ends, and so does the destructor of the pool | ThreadPoolFair | infinite sequences of turns of the steps of ThreadPool, in which every worker gets a turn again and again; the worker with the latest started call changes a stack at its next turn whatever victim it chooses, and stays that worker until then; the multiset order of C56 decreases with every change of a stack; a stopped worker leaves its loop at the turns that follow |
| C91 | Component ids tell component types apart | StaticInit | the ids of each module as values that are zero until an initialization event, which asks the type registry of TypeRegistry; the modules that own the characters of the names |
| C92 | Tasks that nobody waits for are executed | ThreadPool, ThreadPoolFair | as C90; a background worker without own tasks steals from the main worker unless something happened since its last turn; a queued task is taken within three turns of one worker, and what is taken makes the measure of C90 smaller |
| C93 | Commands can be recorded while a flush runs | FlushHook | the loops of the flush in rounds, in each of which the executed command makes any calls of command_writers; an invariant relates the queues to the executed and the recorded commands of each buffer |
| C94 | Containers with temp_allocator own their memory | TempMemory | calls of parallel_for as trees, executed on the allocator of C45 by structural recursion; by induction on the tree every state satisfies the invariant of C45, keeps all bytes below the top at which the call began and ends at that top |
| C95 | Parallel code runs in an order that its text allows | PoolTrace | refinement: the specification (order) gives the allowed orders by recursion over the code, with no tasks, workers or queues.  Two steps: by backward induction over the run every queued task and every running function is given the trace of what it and its tasks still do (future), which a semantics without workers (fj) accepts for its remaining program; an action is added along the chain of submitters (climb).  Then fj of compiled code gives only orders (orderly), by nested induction over the code |
| C96 | Memory of destroyed entities is used again | ChunkCount | refutation by induction over the rounds of a program (create, create, destroy the entity in the last row of the inner chunk, twice), each of which adds an empty chunk; what holds is proved by an invariant (packed: all chunks but the last are full) kept by every call that takes no entity from the last row of an inner chunk, and by counting the rows |
| C97 | Waiting does not nest deeper than the code does | PoolDepth | refutation by induction over the number of tasks nested so far: one worker waits for a task that main has stolen, steals the next task of the fork from a third worker meanwhile, and main finishes the stolen task only then; with one worker by an invariant (stk) that relates the stack with segments of the queue: a call that waits for an unfinished task owns a queued task (wait_queued, from the invariants of C54-C58), so the newest queued task is nested deeper than the call; with two workers (stk2) the awaited task may also be a call of the other worker, which then took it with an empty queue, so all it has queued since is nested deeper |
| C98 | Handles that are not entities of the registry are rejected | PropForeign | two more facts in the invariant of the pool (C01-C04): a slot holds a generation that was handed out or the successor of a destroyed one, and ids behind the slots were handed out with generation 0; the calls by the specification of get_location for handles that are not placed; refutation from the generation destroy writes |
| C99 | Ids of destroyed entities are used again | Reuse, ReuseProofs, PropReuse | the ids spent are the next id minus the positive part of the cursor; every call spends at most one id per handle it returns (a failed one: one id), destroy gives one back, and a new id is taken only when all are spent; refutation with k failed calls of clone by induction on k |
| C100 | Every recorded command runs once, and frames take effect in order | Once, PropOnce | from the history theorem of C27: the queues labelled with the frame of each command, by induction on the history; the sequence of executions is built flush by flush; retries by counting queued commands; refutation by a run of two threads and three frames |
| C101 | 4096 slots are enough for few unfinished tasks | PoolSlot, PropPoolSlot | the runs of the pool with the worker that allocated each task; which tasks share a slot by counting; refutations by runs of 4097 tasks built by induction; for code of parts an invariant: the tasks before the current part are done, and the number of tasks of the part so far and still to come is bounded, with a budget per task, so that neither counters nor slots of the part wrap around |
| C102 | Entities are ordered, and in each slot by age | HandlePool, HandleOrder | the order is lexicographic; a handle that was not recycled has the largest generation handed out for its id, from the invariant of C01, and a new handle is not recycled; the same at the registry |

## Not expressible in the model

* Compile-time checks (unique component types, const-correctness, static assertions): they have no run-time
  behaviour to model.
* Weak memory orders are modelled for the queue and the task counter only (C61 to C63); the other concurrent theorems
  assume sequential consistency.  WeakMem.v is a view model of release/acquire/relaxed accesses and fences without load
  buffering; its comment lists the simplifications.
* Wall-clock behaviour, time-outs and thread start-up.
* The text of `__PRETTY_FUNCTION__` is compiler-defined; C46 takes the format as `prefix + name + suffix`.
