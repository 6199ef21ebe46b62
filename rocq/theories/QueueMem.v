(** The arrays of detail/work_stealing_queue.hpp: when they are allocated, where their addresses are kept, and what the
    destructor frees.  An array is its position in [q_arrs] (WSQueue.v), in the order of allocation. *)
From Verif Require Import Base WSQueue.
Local Open Scope Z_scope.

Section mem.
Context {A : Type}.

(** work_stealing_queue.hpp:66-71: a push that allocated an array put the address of the one before into _garbage (176).
    Simplifications: neither the allocation nor push_back throws; the order of the two does not matter to other threads. *)
Definition garbage_after (s s' : system A) (g : list nat) : list nat :=
  if bool_decide (length (q_arrs (s_q s')) = length (q_arrs (s_q s))) then g else g ++ [q_cur (s_q s)].
Inductive mem_reach (capacity : Z) (thieves : nat) : system A → list nat → Prop :=
  | mr_init : mem_reach capacity thieves (Sys (wsq_init capacity) OIdle (replicate thieves TIdle) []) []
  | mr_step s g s' : mem_reach capacity thieves s g → sys_step s s' → mem_reach capacity thieves s' (garbage_after s s' g).

(** work_stealing_queue.hpp:35-40: the arrays that the destructor frees, in order. *)
Definition wsq_frees (q : wsq A) (g : list nat) : list nat := g ++ [q_cur q].

(** The arrays that an operation that has begun still uses. *)
Definition owner_uses (o : opc A) : option nat :=
  match o with OPushC _ _ a | OPopA _ a | OPopB _ a | OPopC _ _ a => Some a | _ => None end.
Definition thief_uses (p : tpc A) : option nat := match p with TC _ a => Some a | _ => None end.
End mem.
