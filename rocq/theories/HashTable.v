(** Model of detail/hash_table.hpp (robin-hood open addressing; instantiated as hash_map and
    hash_set).  [None] stands for undefined behaviour (out-of-range access) and for a probe loop
    that does not terminate. *)
From Verif Require Import Base Bits.

(** detail/hash_table.hpp:53-57 (bucket_info) together with the value stored in the bucket.
    Simplification: the parallel arrays _info and _buckets are one list, an unoccupied info is an
    absent entry; the moved-from object that erase leaves in an unoccupied bucket is dropped. *)
Record hent (K V : Type) := HEnt {
  he_hash : N;
  he_psl : nat;
  he_key : K;
  he_val : V }.
Arguments HEnt {K V} _ _ _ _.
Arguments he_hash {K V} _.
Arguments he_psl {K V} _.
Arguments he_key {K V} _.
Arguments he_val {K V} _.

(** detail/hash_table.hpp:898-902. *)
Record htab (K V : Type) := HTab {
  ht_slots : list (option (hent K V));
  ht_size : nat }.
Arguments HTab {K V} _ _.
Arguments ht_slots {K V} _.
Arguments ht_size {K V} _.

(** detail/hash_table.hpp:16-18 and 24-26. *)
Definition approx_85_percent (v : N) : N := N.shiftr (v * 870) 10.
Definition approx_40_percent (v : N) : N := N.shiftr (v * 409) 10.

(** detail/hash_table.hpp:48. *)
Definition default_bucket_count : nat := 16.

(** mod_2n(value, buckets_size) used as an index, detail/hash_table.hpp:692, 705, 719, 815, 837. *)
Definition ht_idx (v : N) (n : nat) : nat := N.to_nat (mod_2n v (N.of_nat n)).
Definition ht_next (i n : nat) : nat := ht_idx (N.of_nat i + 1) n.

Section hash_table.
Context {K V : Type} `{EqDecision K}.
(** The hasher; key_equal is equality of keys. *)
Variable H : K → N.

Definition e_inc (e : hent K V) : hent K V :=
  HEnt (he_hash e) (S (he_psl e)) (he_key e) (he_val e).
Definition e_dec (e : hent K V) : hent K V :=
  HEnt (he_hash e) (pred (he_psl e)) (he_key e) (he_val e).
Definition e_setval (e : hent K V) (v : V) : hent K V :=
  HEnt (he_hash e) (he_psl e) (he_key e) v.

(** info->hash == hash && _equal(get_key( *ptr), key), detail/hash_table.hpp:704, 780, 824, 863. *)
Definition e_match (e : hent K V) (h : N) (k : K) : bool :=
  bool_decide (he_hash e = h) && bool_decide (he_key e = k).

(** detail/hash_table.hpp:266 and 282-288: an empty table with the given number of buckets. *)
Definition ht_make (n : nat) : htab K V := HTab (replicate n None) 0.
Definition ht_init : htab K V := ht_make default_bucket_count.

(** detail/hash_table.hpp:860-871: the loop of find_impl. *)
Fixpoint find_loop (fuel : nat) (sl : list (option (hent K V))) (h : N) (k : K)
    (i probes : nat) : option (option nat) :=
  match fuel with
  | 0 => None
  | S fuel =>
      o ← sl !! i;
      match o with
      | Some e =>
          if e_match e h k then Some (Some i)
          else if decide (he_psl e < probes) then Some None
          else find_loop fuel sl h k (ht_next i (length sl)) (S probes)
      | None => Some None
      end
  end.

(** detail/hash_table.hpp:851-872: the bucket of the key, if present. *)
Definition ht_find (t : htab K V) (k : K) : option (option nat) :=
  let n := length (ht_slots t) in
  if decide (n = 0) then Some None
  else find_loop (S n) (ht_slots t) (H k) k (ht_idx (H k) n) 0.

(** detail/hash_table.hpp:820-848 (_emplace_impl, [asg = false]) and 776-805
    (_emplace_or_assign_impl, [asg = true]); the two loops differ only in line 781.  The result
    holds the bucket of the returned iterator and the inserted flag. *)
Fixpoint insert_loop (asg : bool) (fuel : nat) (sl : list (option (hent K V))) (h : N)
    (t : hent K V) (i : nat) (r : option nat) : option (list (option (hent K V)) * (nat * bool)) :=
  match fuel with
  | 0 => None
  | S fuel =>
      o ← sl !! i;
      match o with
      | None => Some (<[i := Some t]> sl, (default i r, true))
      | Some e =>
          if e_match e h (he_key t) then
            Some (if asg then <[i := Some (e_setval e (he_val t))]> sl else sl, (i, false))
          else if decide (he_psl e < he_psl t) then
            insert_loop asg fuel (<[i := Some t]> sl) h (e_inc e) (ht_next i (length sl))
              (Some (default i r))
          else insert_loop asg fuel sl h (e_inc t) (ht_next i (length sl)) r
      end
  end.

(** detail/hash_table.hpp:809-849 and 765-806. *)
Definition ht_insert_raw (asg : bool) (t : htab K V) (k : K) (v : V) : option (htab K V * (nat * bool)) :=
  let n := length (ht_slots t) in
  r ← insert_loop asg (S n) (ht_slots t) (H k) (HEnt (H k) 0 k v) (ht_idx (H k) n) None;
  Some (HTab r.1 (if (r.2.2 : bool) then S (ht_size t) else ht_size t), r.2).

(** detail/hash_table.hpp:631-654 and 249-254: iteration visits the occupied buckets in order. *)
Definition ht_entries (t : htab K V) : list (hent K V) := omap id (ht_slots t).
Definition ht_iter (t : htab K V) : list (K * V) := (λ e, (he_key e, he_val e)) <$> ht_entries t.

Fixpoint insert_all (t : htab K V) (l : list (K * V)) : option (htab K V) :=
  match l with
  | [] => Some t
  | (k, v) :: l => r ← ht_insert_raw false t k v; insert_all r.1 l
  end.

(** detail/hash_table.hpp:610-626. *)
Definition ht_reserve (t : htab K V) (new_size : nat) : option (htab K V) :=
  if decide (new_size < ht_size t) then Some t
  else insert_all (ht_make new_size) (ht_iter t).

(** detail/hash_table.hpp:743-748 and 755-760: growth before an insertion. *)
Definition ht_grow (t : htab K V) : option (htab K V) :=
  let n := N.of_nat (length (ht_slots t)) in
  if decide (approx_85_percent n < N.of_nat (ht_size t))%N
  then ht_reserve t (N.to_nat (N.shiftl n 1))
  else Some t.

(** detail/hash_table.hpp:742-751 (emplace_impl; insert and emplace forward to it). *)
Definition ht_emplace (t : htab K V) (k : K) (v : V) : option (htab K V * (nat * bool)) :=
  t1 ← ht_grow t; ht_insert_raw false t1 k v.

(** detail/hash_table.hpp:754-762 (emplace_or_assign_impl; insert_or_assign forwards to it). *)
Definition ht_insert_or_assign (t : htab K V) (k : K) (v : V) : option (htab K V * (nat * bool)) :=
  t1 ← ht_grow t; ht_insert_raw true t1 k v.

(** detail/hash_table.hpp:442-450: operator[]; [dflt] is the value-initialised mapped value.  The
    result is the bucket of the returned reference. *)
Definition ht_index (dflt : V) (t : htab K V) (k : K) : option (htab K V * nat) :=
  f ← ht_find t k;
  match f with
  | Some i => Some (t, i)
  | None => r ← ht_emplace t k dflt; Some (r.1, r.2.1)
  end.

(** The value behind a reference or iterator to bucket [i], and an assignment through it
    (detail/hash_table.hpp:231-240). *)
Definition ht_deref (t : htab K V) (i : nat) : option V :=
  o ← ht_slots t !! i; e ← o; Some (he_val e).
Definition ht_store (t : htab K V) (i : nat) (v : V) : option (htab K V) :=
  o ← ht_slots t !! i; e ← (o : option (hent K V));
  Some (HTab (<[i := Some (e_setval e v)]> (ht_slots t)) (ht_size t)).

(** detail/hash_table.hpp:458-480: [Some None] is the thrown std::out_of_range. *)
Definition ht_at (t : htab K V) (k : K) : option (option V) :=
  f ← ht_find t k;
  match f with
  | Some i => v ← ht_deref t i; Some (Some v)
  | None => Some None
  end.

(** detail/hash_table.hpp:578-589. *)
Definition ht_contains (t : htab K V) (k : K) : option bool :=
  f ← ht_find t k; Some (bool_decide (is_Some f)).

(** detail/hash_table.hpp:696-711: the search loop of erase_impl. *)
Fixpoint erase_find (fuel : nat) (sl : list (option (hent K V))) (h : N) (k : K)
    (i psl : nat) : option (option nat) :=
  match fuel with
  | 0 => None
  | S fuel =>
      o ← sl !! i;
      match o with
      | None => Some None
      | Some e =>
          if decide (he_psl e < psl) then Some None
          else if e_match e h k then Some (Some i)
          else erase_find fuel sl h k (ht_next i (length sl)) (S psl)
      end
  end.

(** detail/hash_table.hpp:716-732: backward shift starting at the emptied bucket [i]. *)
Fixpoint shift_loop (fuel : nat) (sl : list (option (hent K V))) (i : nat) : option (list (option (hent K V))) :=
  match fuel with
  | 0 => None
  | S fuel =>
      let sl1 := <[i := None]> sl in
      let j := ht_next i (length sl) in
      o ← sl1 !! j;
      match o with
      | None => Some sl1
      | Some e =>
          if decide (he_psl e = 0) then Some sl1
          else shift_loop fuel (<[i := Some (e_dec e)]> sl1) j
      end
  end.

(** Total probe length: bounds the number of shifts. *)
Definition psl_of (o : option (hent K V)) : nat := match o with Some e => he_psl e | None => 0 end.
Definition psum (sl : list (option (hent K V))) : nat := sum_list (psl_of <$> sl).

(** detail/hash_table.hpp:734-738. *)
Definition ht_shrink (n : nat) (t : htab K V) : option (htab K V) :=
  if decide ((default_bucket_count < ht_size t)%nat ∧
             (N.of_nat (ht_size t) < approx_40_percent (N.of_nat n))%N)
  then ht_reserve t (N.to_nat (N.shiftr (N.of_nat n) 1))
  else Some t.

(** detail/hash_table.hpp:687-739. *)
Definition ht_erase (t : htab K V) (k : K) : option (htab K V) :=
  let n := length (ht_slots t) in
  f ← erase_find (S n) (ht_slots t) (H k) k (ht_idx (H k) n) 0;
  match f with
  | None => Some t
  | Some i =>
      sl ← shift_loop (S (psum (ht_slots t))) (ht_slots t) i;
      ht_shrink n (HTab sl (pred (ht_size t)))
  end.

(** detail/hash_table.hpp:483-493. *)
Definition ht_clear (t : htab K V) : htab K V := HTab (replicate (length (ht_slots t)) None) 0.

End hash_table.
