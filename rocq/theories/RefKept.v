(** References to components that are kept while the program goes on. *)
From Verif Require Import Base Bits Layout HandlePool SparseMap HashTable Bitset ComponentSet Chunk Archetype Registry View RegSpec.

(** entity_ref.hpp:133-136, base_registry.hpp:194-203 and archetype.hpp:146-164: the reference returned by get<C>(), before it is read.
    Simplification: an address is the archetype, the number of the chunk and the offset in its buffer.  Archetypes are
    heap objects of their own (archetype.hpp:432), and a chunk that the vector of chunks moves keeps its buffer
    (chunk.hpp:69-84), so this is the address as long as the chunk exists. *)
Definition rg_ref (h : handle) (c : cid) : M registry (nat * nat * N) :=
  let! l := rg_location h in
  let! off := on_arch (lc_arch l) (ar_ref c (lc_chunk l) (lc_row l)) in
  ret (default 0 (lc_arch l), lc_chunk l, off).

(** Reading and assigning through a reference: undefined when no object is there. *)
Definition rf_read (p : nat * nat * N) : M registry cell := at_ptr p read_obj.
Definition rf_write (p : nat * nat * N) (v : val) : M registry unit := at_ptr p (λ off, assign_obj off (CVal v)).

(** * Specification *)

(** The call takes no entity of registry [i] out of its place: it destroys nothing, adds no component to an entity and takes
    none from it. *)
Definition calm (ss : list sreg) (i : nat) (op : sop) : Prop :=
  match op with
  | At j op => j = i → ∀ s, ss !! i = Some s →
      match op with
      | ODestroy g => sr_world s !! g = None
      | OSet g c _ | OGetOrInsert g c _ => ∀ m, sr_world s !! g = Some m → is_Some (m !! c)
      | ORemove g c => ∀ m, sr_world s !! g = Some m → m !! c = None
      | _ => True
      end
  | Move j g _ | MoveInto j g _ _ => j = i → ∀ s, ss !! i = Some s → sr_world s !! g = None
  | Copy _ _ _ | CopyInto _ _ _ _ => True
  end.

(** The call may take the entity [g] of registry [i] out of its place. *)
Definition takes (i : nat) (g : handle) (op : sop) : Prop :=
  match op with
  | At j (ODestroy g') | At j (OSet g' _ _) | At j (OGetOrInsert g' _ _) | At j (ORemove g' _)
  | Move j g' _ | MoveInto j g' _ _ => j = i ∧ g' = g
  | _ => False
  end.

Section spec.
Variable U : universe.
(** A program going on with calls that are calm for registry [i]. *)
Inductive calmly (i : nat) : list registry → list sreg → list sop → list registry → list sreg → Prop :=
| Calm0 rs ss : calmly i rs ss [] rs ss
| CalmS rs ss op rs1 o ss1 l rs' ss' : spermitted U ss op → calm ss i op → run_sop U op rs = (rs1, o) → snext U ss op o ss1 →
    Forall2 (agrees U) rs1 ss1 → calmly i rs1 ss1 l rs' ss' → calmly i rs ss (op :: l) rs' ss'.
End spec.
