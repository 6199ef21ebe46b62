(** Model of the chunk layout: archetype.hpp:177-251 and chunk.hpp:24-56.
    Simplification: std::size_t arithmetic is unbounded (no sum of type sizes reaches 2^64). *)
From Verif Require Import Base Bits.
Local Open Scope N_scope.

(** Size and alignment of a type, type_meta.hpp:91-92. *)
Record ctype := CType { ct_size : N; ct_align : N }.

(** entity is a handle of two 32-bit fields: detail/handle.hpp:62-64. *)
Definition entity_type : ctype := CType 8 4.

(** chunk.hpp:40 and 43 (alignof(entity)). *)
Definition chunk_bytes : N := 16384.
Definition alloc_alignment : N := ct_align entity_type.

(** archetype.hpp:227-232. *)
Definition packed_components_size (cs : list ctype) : N :=
  foldl (λ r c, r + ct_size c) (ct_size entity_type) cs.

(** archetype.hpp:240-243: the lambda add_elements. *)
Definition add_elements (e : N) (c : ctype) : N := e + mod_2n e (ct_align c) + ct_size c.

(** archetype.hpp:235-251. *)
Definition aligned_components_size (cs : list ctype) : N :=
  foldl add_elements (add_elements alloc_alignment entity_type) cs - alloc_alignment.

(** archetype.hpp:199-224; [None] is the thrown insufficient_chunk_size. *)
Definition get_max_size (cs : list ctype) : option N :=
  let a := aligned_components_size cs in
  if decide (chunk_bytes < a) then None
  else Some ((chunk_bytes - a) / packed_components_size cs + 1).

(** chunk.hpp:24-30: offset of the block and the type it holds. *)
Record block := Block { b_offset : N; b_type : ctype }.

(** archetype.hpp:187-196: the recorded block and the offset for the next one. *)
Definition add_block (max offset : N) (c : ctype) : block * N :=
  (Block offset c, offset + (mod_2n offset (ct_align c) + max * ct_size c)).

(** archetype.hpp:182-184: the loop over the components; the second result is the end offset. *)
Fixpoint add_blocks (max offset : N) (cs : list ctype) : list block * N :=
  match cs with
  | [] => ([], offset)
  | c :: cs =>
      let '(b, o) := add_block max offset c in
      let '(bs, e) := add_blocks max o cs in (b :: bs, e)
  end.

(** archetype.hpp:177-185. *)
Definition init_blocks (max : N) (cs : list ctype) : list block := (add_blocks max 0 (entity_type :: cs)).1.

(** archetype.hpp:26-30: rows per chunk and blocks, the entity block first. *)
Definition layout (cs : list ctype) : option (N * list block) :=
  m ← get_max_size cs; Some (m, init_blocks m cs).

(** Address of row [i] of a block inside the buffer: chunk.hpp:139-140, 160, 268, 287. *)
Definition cell_offset (b : block) (i : N) : N := b_offset b + i * ct_size (b_type b).
