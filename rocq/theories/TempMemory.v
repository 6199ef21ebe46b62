(** Containers whose memory comes from [temp_allocator]: the batches of nested [parallel_for] calls and
    vectors that grow. *)
From Verif Require Import Base Bits Allocators.
Local Open Scope N_scope.

(** A call of [parallel_for] on one thread (thread_pool/parallel_for.hpp 13–51, the path of lines 22–50): the
    number of workers, size and alignment of [batch_t], the bytes stored by [emplace_back] (line 35) as pairs
    of a position and a value, and the calls that the thread makes before this one returns: by the function
    applied to the elements and by the tasks that it executes while it waits (line 48).  Calls of one thread
    nest; the short path of line 21 allocates nothing and is no call here. *)
Inductive pcall :=
  PCall (workers tsize talign : N) (stores : list (N * N)) (nested : list pcall).

(** The thread's allocator (temp_allocator.hpp 13) together with the blocks of the running calls, newest
    first: address, length, and the offset of the allocator when the block was requested. *)
Definition tconf : Type := stack * list (N * N * N).

(** One call, where [inner] executes the calls nested in it: the states it goes through (after the batches are prepared, the
    states of the nested calls, after the batches are destroyed) and its final state.  Line 30 requests the
    memory once; when that fails the exception leaves the call; the destructor of [batches] (line 50)
    releases the memory (temp_allocator.hpp 51–53); [None] when an assertion of the allocator fails. *)
Definition call_with (inner : tconf → list tconf * option tconf) (n tsize talign : N) (stores : list (N * N))
    (s : tconf) : list tconf * option tconf :=
  match temp_allocate s.1 n tsize talign with
  | (l, None) => ([], Some (l, s.2))
  | (l, Some p) =>
    let s1 := (foldl (λ (l : stack) (st : N * N), sa_poke l (p + st.1) st.2) l stores,
               (p, (n * tsize) mod size_mod, sa_offset s.1) :: s.2) in
    let '(vs, r) := inner s1 in
    match r with
    | None => (s1 :: vs, None)
    | Some s2 =>
      match sa_deallocate s2.1 p with
      | None => (s1 :: vs, None)
      | Some l' => let s3 := (l', tail s2.2) in (s1 :: vs ++ [s3], Some s3)
      end
    end
  end.

(** A call with its nested calls, one after the other. *)
Fixpoint run_call (c : pcall) (s : tconf) : list tconf * option tconf :=
  match c with
  | PCall n tsize talign stores nested =>
    call_with
      ((fix go (cs : list pcall) (s : tconf) : list tconf * option tconf :=
          match cs with
          | [] => ([], Some s)
          | c :: cs =>
            let '(vs, r) := run_call c s in
            match r with
            | None => (vs, None)
            | Some s' => let '(ws, r') := go cs s' in (vs ++ ws, r')
            end
          end) nested) n tsize talign stores s
  end.

(** A sequence of calls. *)
Fixpoint run_calls (cs : list pcall) (s : tconf) : list tconf * option tconf :=
  match cs with
  | [] => ([], Some s)
  | c :: cs =>
    let '(vs, r) := run_call c s in
    match r with
    | None => (vs, None)
    | Some s' => let '(ws, r') := run_calls cs s' in (vs ++ ws, r')
    end
  end.

(** A [std::vector] with [temp_allocator] that gets a larger capacity ([reserve], [push_back]): the new
    memory is requested, the elements are moved there (not modelled), the old memory is released
    (temp_allocator.hpp 39–45, 51–53).  The new address, or [std::bad_alloc] with the vector unchanged;
    [None] when an assertion of the allocator fails. *)
Definition vector_grow (s : stack) (old : option N) (n tsize talign : N) : option (stack * option N) :=
  match temp_allocate s n tsize talign with
  | (l, None) => Some (l, None)
  | (l, Some p) =>
    match old with
    | None => Some (l, Some p)
    | Some q => l' ← sa_deallocate l q; Some (l', Some p)
    end
  end.
