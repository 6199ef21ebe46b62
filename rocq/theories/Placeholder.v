(** Placeholders that are filled before sync: programs of calls with their outcomes, and the calls that may be made
    before sync as well as after it. *)
From Verif Require Import Base Bits Layout HandlePool HandleSpec SparseMap HashTable Bitset ComponentSet Chunk Archetype Registry View RegSpec.

(** The calls [ops], one after the other: the registries afterwards, and what every call returned. *)
Fixpoint calls (U : universe) (ops : list sop) (rs : list registry) : list registry * list (outcome rres) :=
  match ops with
  | [] => (rs, [])
  | op :: ops => let '(rs1, o) := run_sop U op rs in let '(rs2, os) := calls U ops rs1 in (rs2, o :: os)
  end.

(** A handle that was handed out and is not a placeholder waiting for sync. *)
Definition known (s : sreg) (h : handle) : Prop := h ∈ sr_issued s ∧ h ∉ sr_pending s.

(** The calls that neither take handles from registry [j] nor give handles back to it, and that name none of its waiting
    placeholders, except as the place to be filled. *)
Definition early (j : nat) (s : sreg) (op : sop) : Prop :=
  match op with
  | At i op => i ≠ j ∨
      match op with
      | OSet h _ _ | OGetOrInsert h _ _ | ORemove h _ | OGet h _ | OHas h _ | OVisit h | OAlive h | OCloneInto h _ => known s h
      | OSize | OEach _ _ | OSingle _ => True
      | OCreate _ | ODestroy _ | OClone _ | OReserve | OSync => False
      end
  | CopyInto i h k _ => i ≠ k ∧ (i = j → known s h)
  | Copy i h k => i ≠ k ∧ k ≠ j ∧ (i = j → known s h)
  | MoveInto i h k _ => i ≠ k ∧ i ≠ j
  | Move i h k => i ≠ k ∧ i ≠ j ∧ k ≠ j
  end.

(** Record [s] after sync. *)
Definition synced (s : sreg) : sreg := SReg (sr_world s) (sr_issued s) (sr_dead s) [] (sr_failed s) (sr_leaky s).

(** The calls that fill placeholder [ph] of registry [j]. *)
Definition fills (j : nat) (ph : handle) (op : sop) : Prop :=
  (∃ h, op = At j (OCloneInto h ph)) ∨ (∃ i h, op = CopyInto i h j ph) ∨ (∃ i h, op = MoveInto i h j ph).
