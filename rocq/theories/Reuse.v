(** Programs that count the handles in use: how many ids does a registry need? *)
From Verif Require Import Base Bits Layout HandlePool HandleSpec SparseMap HashTable Bitset ComponentSet Chunk Archetype Registry View RegSpec.

(** * Specification *)

(** Handed out and not destroyed: entities, and reserved handles without an entity. *)
Definition in_use (s : sreg) : list handle := filter (λ h, h ∉ sr_dead s) (sr_issued s).

(** The call was to make a handle in registry [i], and threw. *)
Definition loses (i : nat) (op : sop) (o : outcome rres) : bool :=
  match op, o with
  | At j (OCreate _ | OClone _), Throw _ | (Copy _ _ j | Move _ _ j), Throw _ => bool_decide (j = i)
  | _, _ => false
  end.

Section spec.
Variable U : universe.
(** A program (see [reach]) in which registry [i] never has more than [K] handles in use, and in which [L] calls that were to
    make a handle there threw. *)
Inductive frugal (K i : nat) : nat → nat → list registry → list sreg → Prop :=
| Frugal0 k : frugal K i 0 0 (replicate k rg_init) (replicate k sreg_init)
| FrugalS L n rs ss op rs' o ss' : frugal K i L n rs ss → spermitted U ss op → run_sop U op rs = (rs', o) → snext U ss op o ss' →
    Forall2 (agrees U) rs' ss' → (∀ s, ss' !! i = Some s → length (in_use s) ≤ K) →
    frugal K i (if loses i op o then S L else L) (S n) rs' ss'.
End spec.

(** The pool alone, used by several threads: the handles in use, and the threads inside reserve, are at most [K]. *)
Inductive few (K : nat) : nat → hist → Prop :=
| Few0 : few K 0 hist_init
| FewS n s s' : few K n s → hstep s s' →
    length (filter (λ h, h ∉ hs_dead s') (hs_issued s')) + length (hs_inside s') ≤ K → few K (S n) s'.
