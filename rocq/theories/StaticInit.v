(** When the ids of component types get their values: component.hpp:32-39, 45-56 and 64-69, on top of TypeRegistry.v.
    [type_id::value<T>] is a static data member of a template that is initialized by a call, so each module (executable or
    shared library) has one that is zero until its initialization, which happens in no particular order at the start of the
    program or when the module is loaded. *)
From Verif Require Import Base Bits HashTable TypeRegistry.
Local Open Scope nat_scope.

(** What can happen: module [m] initializes its id of type [t] (component.hpp:68); module [m] is unloaded. *)
Inductive tev := EInit (m t : nat) | EUnload (m : nat).
Global Instance tev_eq_dec : EqDecision tev := ltac:(solve_decision).

(** [ti_val]: the initialized ids; [ti_owner]: the module whose memory holds the characters of the names in the id map, as
    a key is a string_view of the first caller (component.hpp:33, 45); [ti_gone]: the unloaded modules. *)
Record tinit := TInit { ti_reg : tyreg; ti_val : gmap (nat * nat) N; ti_owner : gmap str nat; ti_gone : gset nat }.
Definition ti_init : tinit := TInit tr_init ∅ ∅ ∅.

Section names.
(** The hash of names, and what type_name (type_meta.hpp:14-27) gives for a type. *)
Context (hsh : str → N) (name : nat → str).

(** The id that code of module [m] uses for type [t] (component.hpp:154, 201, 209, 219, 308, 318, chunk.hpp:286), whenever it runs:
    zero before the initialization. *)
Definition ti_use (s : tinit) (m t : nat) : N := default 0%N (ti_val s !! (m, t)).

(** [None] is undefined behaviour: the id map compares the name with a key that refers to memory of an unloaded module.
    Simplification: comparisons with keys of other names are left out (they need equal hashes), as are the hashes of all
    keys when the map grows, so that less is undefined than in the code. *)
Definition ti_step (s : tinit) (e : tev) : option tinit :=
  match e with
  | EInit m t =>
    let x := name t in
    if decide (Exists (λ o, o ∈ ti_gone s) (option_list (ti_owner s !! x))) then None
    else
      r ← tr_id hsh (ti_reg s) x;
      Some (TInit r.1 (<[(m, t) := r.2]> (ti_val s)) (match ti_owner s !! x with Some _ => ti_owner s | None => <[x := m]> (ti_owner s) end) (ti_gone s))
  | EUnload m => Some (TInit (ti_reg s) (ti_val s) (ti_owner s) ({[m]} ∪ ti_gone s))
  end.
Fixpoint ti_run (s : tinit) (es : list tev) : option tinit :=
  match es with [] => Some s | e :: es => s' ← ti_step s e; ti_run s' es end.
End names.
