(** Model of detail/dynamic_bitset.hpp with 64-bit blocks and of component_set (component.hpp:181-261),
    which forwards to it. *)
From Verif Require Import Base.

(** detail/dynamic_bitset.hpp:23 and 93: the vector of blocks, each a uint64. *)
Notation bitset := (list N).

(** sizeof(block_type) * CHAR_BIT. *)
Definition block_bits : N := 64.

(** detail/dynamic_bitset.hpp:28-30. *)
Definition bs_make (blocks : nat) : bitset := replicate blocks 0%N.
Definition bs_init : bitset := bs_make 1.

(** detail/dynamic_bitset.hpp:87-91. *)
Definition block_and_bit (pos : N) : nat * N :=
  (N.to_nat (pos / block_bits), (pos mod block_bits)%N).

(** detail/dynamic_bitset.hpp:37-43. *)
Definition bs_test (s : bitset) (pos : N) : bool :=
  let '(i, b) := block_and_bit pos in
  match s !! i with
  | Some blk => negb (N.eqb (N.land blk (N.shiftl 1 b)) 0)
  | None => false
  end.

(** detail/dynamic_bitset.hpp:60-63: index of the last block to keep. *)
Fixpoint trim_index (s : bitset) (i : nat) : nat :=
  match i with
  | 0 => 0
  | S i' => match s !! i with
            | Some 0%N => trim_index s i'
            | _ => i
            end
  end.

(** detail/dynamic_bitset.hpp:50-67.  The complement mask on a uint64 block is [N.ldiff]. *)
Definition bs_set (s : bitset) (pos : N) (value : bool) : bitset :=
  let '(i, b) := block_and_bit pos in
  let s1 := if decide (length s ≤ i) then resize (i + 1) 0%N s else s in
  if value then alter (λ blk, N.lor blk (N.shiftl 1 b)) i s1
  else
    let s2 := alter (λ blk, N.ldiff blk (N.shiftl 1 b)) i s1 in
    resize (trim_index s2 (length s2 - 1) + 1) 0%N s2.

(** detail/dynamic_bitset.hpp:70-73. *)
Definition bs_clear (s : bitset) : bitset := [0%N].

(** detail/dynamic_bitset.hpp:80-82. *)
Definition bs_eqb (s t : bitset) : bool := bool_decide (s = t).

(** detail/dynamic_bitset.hpp:102-110. *)
Definition bs_hash (s : bitset) : N := fold_left N.lxor s 0%N.

(** Histories of the public mutators. *)
Inductive bs_op := BsInsert (pos : N) | BsErase (pos : N) | BsClear.
Definition bs_step (s : bitset) (o : bs_op) : bitset :=
  match o with
  | BsInsert p => bs_set s p true
  | BsErase p => bs_set s p false
  | BsClear => bs_clear s
  end.
Definition bs_run (os : list bs_op) : bitset := fold_left bs_step os bs_init.
