(** Moving an entity into a placeholder of its own registry (entity_ref.hpp:321-323).  base_registry.hpp:209-212 rejects
    the destination [*this] by an assertion; base_registry.hpp:218-240 does not look. *)
From Verif Require Import Base Bits Layout HandlePool HandleSpec SparseMap HashTable Bitset ComponentSet Chunk Archetype Registry RegSpec Placeholder.

Section self.
Variable U : universe.

(** chunk.hpp:151-165 with both chunks in the same archetype: this is chunk [c], the other chunk [f], possibly the same. *)
Definition ck_move_self (c f index : nat) : M archetype nat :=
  let! a := get in
  let! s := on_chunk c get in
  let! d := on_chunk f get in
  if decide (ck_size s ≤ index) then ub
  else if ck_full d then ub
  else
    forM (sm_dense (ar_blocks a)) (λ e,
      match sm_contains (ar_blocks a) e.1 with
      | None => ub
      | Some false => ret tt
      | Some true =>
          let! b := blk_at (ar_blocks a) e.1 in
          let! x := on_chunk c (take_obj (addr e.2 index)) in
          on_chunk f (construct_at (b_offset (bm_block b) +
                        N.of_nat (ck_size d) * ct_size (b_type (bm_block e.2)))%N x)
      end) ;;!
    on_chunk f (ck_set_size (S (ck_size d))) ;;!
    ret (ck_size d).

(** archetype.hpp:94-109 with [other] being this archetype: the number of chunks is read after swap_erase. *)
Definition ar_move_self (c i : nat) : M archetype (nat * nat * option handle) :=
  let! f := ar_ensure_free in
  let! row := ck_move_self c f i in
  let! moved := ar_swap_erase U c i in
  let! a := get in
  ret (length (ar_chunks a) - 1, row, moved).

(** base_registry.hpp:218-240 with [dest] being this registry. *)
Definition rg_move_self (h ph : handle) : M registry handle :=
  let! l := rg_location h in
  let! ar := rg_arch (lc_arch l) in
  let! b := rg_ensure U (ar_comps ar) in
  let! r := on_arch (Some b) (ar_move_self (lc_chunk l) (lc_row l)) in
  rg_remove_location (h_id h) ;;!
  (match r.2 with
   | Some g => if decide (g = h) then ret tt else rg_set_location (h_id g) l
   | None => ret tt
   end) ;;!
  rg_recycle h ;;!
  on_arch (Some b) (ar_put_entity U r.1.1 r.1.2 ph) ;;!
  rg_set_location (h_id ph) (Loc (Some b) r.1.1 r.1.2) ;;!
  ret ph.

(** A program of calls with one move inside registry 0 in the middle: what the calls return. *)
Definition calls_move_self (before : list rop) (h ph : handle) (after : list rop) : list (outcome rres) * outcome handle * list (outcome rres) :=
  let '(rs, os) := calls U (At 0 <$> before) [rg_init] in
  match rs with
  | [r] => let '(r1, o) := rg_move_self h ph r in (os, o, (calls U (At 0 <$> after) [r1]).2)
  | _ => (os, UB, [])
  end.
End self.

(** The last chunk of the entity's archetype has room and is not empty, and the entity is stored in it, or in an earlier
    chunk but not at its end. *)
Definition stale_place (r : registry) (h : handle) : Prop :=
  ∃ l a ar k k', (rg_location h r).2 = Ok l ∧ lc_arch l = Some a ∧ rg_heap r !! a = Some ar ∧
    ar_chunks ar !! lc_chunk l = Some k ∧ last (ar_chunks ar) = Some k' ∧ ck_full k' = false ∧ ck_empty k' = false ∧
    (S (lc_chunk l) = length (ar_chunks ar) ∨ S (lc_row l) < ck_size k).
