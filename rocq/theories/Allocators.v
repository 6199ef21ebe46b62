(** The bump allocators: detail/allocator/linear_allocator.hpp, stack_allocator.hpp and
    temp_allocator.hpp.  Addresses and sizes are natural numbers; [size_t] subtraction wraps
    modulo 2^64 where the code can underflow.  The bytes of the underlying buffer are only
    modelled for the stack allocator, which keeps its headers inside the buffer. *)
From Verif Require Import Base.
Local Open Scope N_scope.

Definition size_mod : N := 2 ^ 64.

(** [a - b] on [size_t]. *)
Definition size_sub (a b : N) : N := (a + (size_mod - b mod size_mod)) mod size_mod.

(** [std::align] (called at linear_allocator.hpp 42 and stack_allocator.hpp 62): the smallest
    aligned address at or after [ptr] if [size] bytes fit in [space] from there. *)
Definition std_align (alignment size ptr space : N) : option N :=
  if space <? size then None
  else
    let diff := (alignment - ptr mod alignment) mod alignment in
    if space - size <? diff then None else Some (ptr + diff).

(** linear_allocator.hpp 56–58 (members), 19–20 (constructor). *)
Record lin := Lin { l_head : N; l_ptr : N; l_size : N }.
Definition lin_init (ptr size : N) : lin := Lin ptr ptr size.

(** linear_allocator.hpp 38–48; [None] is the null pointer. *)
Definition lin_allocate (s : lin) (size alignment : N) : lin * option N :=
  let space_left := size_sub (l_size s) (l_head s - l_ptr s) in
  match std_align alignment size (l_head s) space_left with
  | None => (s, None)
  | Some ptr => (Lin (ptr + size) (l_ptr s) (l_size s), Some ptr)
  end.

(** linear_allocator.hpp 51–53. *)
Definition lin_reset (s : lin) : lin := Lin (l_ptr s) (l_ptr s) (l_size s).

(** stack_allocator.hpp 103–105 (members), 26–27 (constructor); [sa_mem] are the bytes of memory. *)
Record stack := Stack { sa_start : N; sa_offset : N; sa_size : N; sa_mem : gmap N N }.
Definition sa_init (ptr size : N) : stack := Stack ptr 0 size ∅.

(** stack_allocator.hpp 15: [padding_t] is [uint8_t]. *)
Definition padding_mod : N := 256.

(** stack_allocator.hpp 51–76. *)
Definition sa_allocate (s : stack) (bytes alignment : N) : stack * option N :=
  let top := sa_start s + sa_offset s in
  let ptr := top + 1 in
  let remaining_space := size_sub (size_sub (sa_size s) (sa_offset s)) 1 in
  match std_align alignment bytes ptr remaining_space with
  | None => (s, None)
  | Some aligned_ptr =>
    let padding := (aligned_ptr - top) mod padding_mod in
    (Stack (sa_start s) ((sa_offset s + (padding + bytes)) mod size_mod) (sa_size s)
       (<[aligned_ptr - 1 := padding]> (sa_mem s)), Some aligned_ptr)
  end.

(** stack_allocator.hpp 80–89; [None] when the assertion of line 81 fails or no header byte was ever written there. *)
Definition sa_deallocate (s : stack) (ptr : N) : option stack :=
  if negb ((ptr <? sa_start s + sa_size s) && (sa_start s <=? ptr)) then None else
  padding ← sa_mem s !! (ptr - 1);
  Some (Stack (sa_start s) (size_sub (size_sub ptr padding) (sa_start s)) (sa_size s) (sa_mem s)).

(** stack_allocator.hpp 93–95 and 98–100. *)
Definition sa_remaining (s : stack) : N := size_sub (sa_size s) (sa_offset s).
Definition sa_reset (s : stack) : stack := Stack (sa_start s) 0 (sa_size s) (sa_mem s).

(** stack_allocator.hpp 34–36: the move constructor; the new object keeps the default [_offset]. *)
Definition sa_move (s : stack) : stack := Stack (sa_start s) 0 (sa_size s) (sa_mem s).

(** The user of a block storing a byte. *)
Definition sa_poke (s : stack) (a b : N) : stack :=
  Stack (sa_start s) (sa_offset s) (sa_size s) (<[a := b]> (sa_mem s)).

(** temp_allocator.hpp 39–45: [n] objects of a type; [None] is [std::bad_alloc].  The product is
    computed in [size_t]. *)
Definition temp_allocate (s : stack) (n tsize talign : N) : stack * option N :=
  sa_allocate s ((n * tsize) mod size_mod) talign.
