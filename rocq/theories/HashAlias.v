(** Arguments of hash_map's insertions that are references to elements of the map itself. *)
From Verif Require Import Base Bits HashTable.

Section alias.
Context {K V : Type} `{EqDecision K}.
Variable H : K → N.

(** detail/hash_table.hpp:59-162 and 899: [at_arr] numbers the bucket array; a new one is allocated by reserve, and the old one
    is freed when reserve returns (detail/hash_table.hpp:610-626). *)
Record atab := ATab { at_tab : htab K V; at_arr : nat }.

(** A reference to the element in bucket [p.2] of array [p.1].  Reading it after the array was freed is undefined. *)
Definition at_read (t : atab) (p : nat * nat) : option (K * V) :=
  if decide (p.1 = at_arr t) then
    o ← ht_slots (at_tab t) !! p.2; e ← (o : option (hent K V)); Some (he_key e, he_val e)
  else None.

(** detail/hash_table.hpp:610-626. *)
Definition at_reserve (t : atab) (new_size : nat) : option atab :=
  if decide (new_size < ht_size (at_tab t)) then Some t
  else t' ← ht_reserve H (at_tab t) new_size; Some (ATab t' (S (at_arr t))).

(** detail/hash_table.hpp:743-748 and 755-760. *)
Definition at_grow (t : atab) : option atab :=
  let n := N.of_nat (length (ht_slots (at_tab t))) in
  if decide (approx_85_percent n < N.of_nat (ht_size (at_tab t)))%N
  then at_reserve t (N.to_nat (N.shiftl n 1))
  else Some t.

(** detail/hash_table.hpp:500-502, 527-529, 742-762, 767 and 811: insert( *p) and insert_or_assign( *p); the argument is read after
    the growth, when temp is constructed. *)
Definition at_insert (asg : bool) (t : atab) (p : nat * nat) : option (atab * (nat * bool)) :=
  t1 ← at_grow t; e ← at_read t1 p; r ← ht_insert_raw H asg (at_tab t1) e.1 e.2; Some (ATab r.1 (at_arr t1), r.2).

(** detail/hash_table.hpp:539-541: emplace(k, p->second). *)
Definition at_emplace (t : atab) (k : K) (p : nat * nat) : option (atab * (nat * bool)) :=
  t1 ← at_grow t; e ← at_read t1 p; r ← ht_insert_raw H false (at_tab t1) k e.2; Some (ATab r.1 (at_arr t1), r.2).

(** detail/hash_table.hpp:442-450: operator[] with a key that is the mapped value, or a part of it. *)
Definition at_index (dflt : V) (part : V → K) (t : atab) (p : nat * nat) : option (atab * nat) :=
  e ← at_read t p;
  f ← ht_find H (at_tab t) (part e.2);
  match f with
  | Some i => Some (t, i)
  | None =>
      t1 ← at_grow t; e ← at_read t1 p; r ← ht_insert_raw H false (at_tab t1) (part e.2) dflt; Some (ATab r.1 (at_arr t1), r.2.1)
  end.
End alias.
Arguments ATab {K V} _ _.
Arguments at_tab {K V} _.
Arguments at_arr {K V} _.
