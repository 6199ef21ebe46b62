(** The number of chunks a registry uses. *)
From Verif Require Import Base Bits Layout HandlePool SparseMap HashTable Bitset ComponentSet Chunk Archetype Registry View RegSpec.

(** * Specification *)

(** The chunks of all archetypes (archetype.hpp:288, 432): each has a buffer of 16 kB (chunk.hpp:40-55). *)
Definition chunks_of (r : registry) : nat := sum_list (length <$> (ar_chunks <$> rg_heap r)).

(** The entity is in the last row of its chunk, and the archetype has chunks behind that one. *)
Definition inner_tail (r : registry) (h : handle) : Prop := ∃ (a c i : nat) ar k,
  (rg_location h r).2 = Ok (Loc (Some a) c i) ∧ rg_heap r !! a = Some ar ∧ ar_chunks ar !! c = Some k ∧
  S i = ck_size k ∧ S c < length (ar_chunks ar).

(** The call takes no such entity out of its place. *)
Definition spares (r : registry) (op : rop) : Prop :=
  match op with
  | ODestroy h => ¬ inner_tail r h
  | OSet h c _ | OGetOrInsert h c _ => inner_tail r h → (rg_has h [c] r).2 = Ok true
  | ORemove h c => inner_tail r h → (rg_has h [c] r).2 = Ok false
  | _ => True
  end.

Section spec.
Variable U : universe.
(** A program with one registry that never holds more than [K] entities, all with the components [C]: [n] permitted calls,
    none with undefined behaviour, lead from the empty registry to [r]; [s] is the record of these calls. *)
Inductive narrow (C : gset cid) (K : nat) : nat → registry → sreg → Prop :=
| Narrow0 : narrow C K 0 rg_init sreg_init
| NarrowS n r s op r' o s' : narrow C K n r s → permitted U s op → run_rop U op r = (r', o) → rnext U s op o s' →
    agrees U r' s' → size (sr_world s') ≤ K → (∀ h m, sr_world s' !! h = Some m → dom m = C) → narrow C K (S n) r' s'.

(** A program with one registry that spares the entities in the last rows of inner chunks. *)
Inductive tidy : nat → registry → sreg → Prop :=
| Tidy0 : tidy 0 rg_init sreg_init
| TidyS n r s op r' o s' : tidy n r s → permitted U s op → spares r op → run_rop U op r = (r', o) → rnext U s op o s' →
    agrees U r' s' → tidy (S n) r' s'.
End spec.

(** The entities that fill the chunks of the archetype but one. *)
Definition needed (ar : archetype) : nat := (length (ar_chunks ar) - 1) * ar_max ar.
