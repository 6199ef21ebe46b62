(** The loop of hash_table::_emplace_impl, one iteration at a time, to speak about runs that do not end. *)
From Verif Require Import Base Bits HashTable.

Section loop.
Context {K V : Type} `{EqDecision K}.

(** The variables of the loop: the buckets, temp with n_info, index, and ret. *)
Definition ins_state : Type := list (option (hent K V)) * hent K V * nat * option nat.
Definition ins_res : Type := list (option (hent K V)) * (nat * bool).

(** detail/hash_table.hpp:820-848: one iteration goes on or returns; [None] is an access outside the buckets. *)
Definition ins_step (h : N) (s : ins_state) : option (ins_state + ins_res) :=
  let '(sl, t, i, r) := s in
  match sl !! i with
  | None => None
  | Some None => Some (inr (<[i := Some t]> sl, (default i r, true)))
  | Some (Some e) =>
      if e_match e h (he_key t) then Some (inr (sl, (i, false)))
      else if decide (he_psl e < he_psl t) then
        Some (inl (<[i := Some t]> sl, e_inc e, ht_next i (length sl), Some (default i r)))
      else Some (inl (sl, e_inc t, ht_next i (length sl), r))
  end.

Fixpoint ins_steps (f : nat) (h : N) (s : ins_state) : option (ins_state + ins_res) :=
  match f with
  | 0 => Some (inl s)
  | S f => match ins_step h s with Some (inl s') => ins_steps f h s' | x => x end
  end.

(** However many iterations, the loop goes on. *)
Definition never_returns (h : N) (s : ins_state) : Prop := ∀ f, ∃ s', ins_steps f h s = Some (inl s').
End loop.
