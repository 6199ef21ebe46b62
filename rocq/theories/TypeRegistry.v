(** Model of type names and type ids: type_meta.hpp:14-27 and component.hpp:22-68. *)
From Verif Require Import Base Bits HashTable.

(** std::string_view as a list of character codes. *)
Notation str := (list N).

(** string_view::find_first_of(c), find_last_of(c) and find_first_not_of(c, from); [None] is npos. *)
Definition find_first_of (c : N) (s : str) : option nat := fst <$> list_find (λ x, x = c) s.
Definition find_first_not_of (c : N) (from : nat) (s : str) : option nat :=
  (λ r, from + fst r) <$> list_find (λ x, x ≠ c) (drop from s).
Definition find_last_of (c : N) (s : str) : option nat :=
  (λ i, length s - 1 - i) <$> find_first_of c (reverse s).

(** type_meta.hpp:14-27: the name cut out of the compiler's pretty function string.  [pre] and [suf]
    are the compiler-dependent delimiters of detail/macro.hpp:3-17.  Simplification: where a
    delimiter is missing (npos arithmetic) the result is [None]; substr with a start past the suffix
    is [None] as well. *)
Definition type_name (pre suf space : N) (pretty : str) : option str :=
  p ← find_first_of pre pretty;
  e ← find_last_of suf pretty;
  f ← find_first_not_of space (p + 1) pretty;
  if decide (f ≤ e) then Some (take (e - f) (drop f pretty)) else None.

(** component.hpp:45-56: the name map and the next id; ids of components are 32-bit
    (component.hpp:73). *)
Record tyreg := TyReg { tr_map : htab str N; tr_next : N }.

Definition id_mod : N := (2 ^ 32)%N.

(** component.hpp:32-39.  The hash of names is a parameter. *)
Definition tr_id (hsh : str → N) (s : tyreg) (name : str) : option (tyreg * N) :=
  r ← ht_emplace hsh (tr_map s) name (tr_next s);
  v ← ht_deref r.1 r.2.1;
  Some (TyReg r.1 (if (r.2.2 : bool) then ((tr_next s + 1) mod id_mod)%N else tr_next s), v).

Definition tr_init : tyreg := TyReg ht_init 0.

Fixpoint tr_run (hsh : str → N) (s : tyreg) (names : list str) : option (tyreg * list N) :=
  match names with
  | [] => Some (s, [])
  | x :: names => r ← tr_id hsh s x; q ← tr_run hsh r.1 names; Some (q.1, r.2 :: q.2)
  end.
