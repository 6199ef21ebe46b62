(** The iterators and the range constructor of detail/hash_table.hpp, with _info and _buckets as the two arrays they
    are.  [None] stands for undefined behaviour (an access out of bounds or to a bucket without an object, a
    failed assertion) and for a loop that does not end. *)
From Verif Require Import Base Bits HashTable.

Section range.
Context {K V : Type} `{EqDecision K}.
Variable H : K → N.

(** detail/hash_table.hpp:53-57, 157-161 and 898-902: the info of an occupied bucket is its hash and psl; a bucket
    is the object living there, if any.  Simplification: the moved-from object erase leaves is not followed here
    (HashLife.v does), so erase is not part of this file. *)
Record rtab := RTab { rt_info : list (option (N * nat)); rt_vals : list (option (K * V)); rt_size : nat }.

(** detail/hash_table.hpp:282-288: [ni] infos and [nb] buckets; the assertion of lines 287 and 332. *)
Definition rt_make (ni nb : nat) : option rtab :=
  if decide (Nat.even nb = true) then Some (RTab (replicate ni None) (replicate nb None) 0) else None.

(** detail/hash_table.hpp:249-254 (fast_forward), from the positions [p] of _ptr and [i] of _info. *)
Fixpoint r_fast_forward (fuel : nat) (t : rtab) (p i : nat) : option (nat * nat) :=
  match fuel with
  | 0 => None
  | S fuel =>
      if decide (p = length (rt_vals t)) then Some (p, i)
      else
        o ← rt_info t !! i;
        match o with
        | Some _ => Some (p, i)
        | None => r_fast_forward fuel t (S p) (S i)
        end
  end.

(** detail/hash_table.hpp:203-210 and 631-640: the constructor forwards to the first occupied bucket. *)
Definition r_begin (t : rtab) : option (nat * nat) := r_fast_forward (S (length (rt_vals t))) t 0 0.
Definition r_end (t : rtab) : nat * nat := (length (rt_vals t), length (rt_info t)).
(** detail/hash_table.hpp:220-225: operator++; a pointer beyond the end of the buckets is undefined. *)
Definition r_next (t : rtab) (it : nat * nat) : option (nat * nat) :=
  if decide (it.1 < length (rt_vals t) ∧ it.2 < length (rt_info t))
  then r_fast_forward (S (length (rt_vals t))) t (S it.1) (S it.2) else None.
(** detail/hash_table.hpp:231-240. *)
Definition r_deref (t : rtab) (it : nat * nat) : option (K * V) := o ← rt_vals t !! it.1; o.

(** The loop for (auto& value : *this), as in the destructor (270-274), clear (485-487) and reserve (617-619): the
    elements it visits.  Comparison of iterators (246) compares _ptr, _end and _info. *)
Fixpoint r_loop (fuel : nat) (t : rtab) (it : nat * nat) : option (list (K * V)) :=
  match fuel with
  | 0 => None
  | S fuel =>
      if decide (it = r_end t) then Some []
      else x ← r_deref t it; it' ← r_next t it; l ← r_loop fuel t it'; Some (x :: l)
  end.
Definition rt_iter (t : rtab) : option (list (K * V)) := it ← r_begin t; r_loop (S (length (rt_vals t))) t it.

(** detail/hash_table.hpp:776-805 and 820-848, as [insert_loop]. *)
Fixpoint r_insert_loop (asg : bool) (fuel : nat) (info : list (option (N * nat))) (vals : list (option (K * V)))
    (h : N) (nh : N) (psl : nat) (temp : K * V) (i : nat) :
    option (list (option (N * nat)) * list (option (K * V)) * bool) :=
  match fuel with
  | 0 => None
  | S fuel =>
      o ← info !! i;
      q ← vals !! i;
      match o with
      | None => Some (<[i := Some (nh, psl)]> info, <[i := Some temp]> vals, true)
      | Some (h', psl') =>
          x ← (q : option (K * V));
          if bool_decide (h' = h) && bool_decide (x.1 = temp.1) then
            Some (info, if asg then <[i := Some (x.1, temp.2)]> vals else vals, false)
          else if decide (psl' < psl) then
            r_insert_loop asg fuel (<[i := Some (nh, psl)]> info) (<[i := Some temp]> vals) h h' (S psl') x (ht_next i (length vals))
          else r_insert_loop asg fuel info vals h nh (S psl) temp (ht_next i (length vals))
      end
  end.
(** detail/hash_table.hpp:765-849; the returned iterator is not part of this file. *)
Definition rt_insert_raw (asg : bool) (t : rtab) (x : K * V) : option rtab :=
  let n := length (rt_vals t) in
  r ← r_insert_loop asg (S n) (rt_info t) (rt_vals t) (H x.1) (H x.1) 0 x (ht_idx (H x.1) n);
  Some (RTab r.1.1 r.1.2 (if (r.2 : bool) then S (rt_size t) else rt_size t)).
Fixpoint rt_insert_all (asg : bool) (t : rtab) (l : list (K * V)) : option rtab :=
  match l with
  | [] => Some t
  | x :: l => t' ← rt_insert_raw asg t x; rt_insert_all asg t' l
  end.

(** detail/hash_table.hpp:610-626; the old buckets are iterated again by the destructor of the local table. *)
Definition rt_reserve (t : rtab) (new_size : nat) : option rtab :=
  if decide (new_size < rt_size t) then Some t
  else
    t0 ← rt_make new_size new_size; l ← rt_iter t; t' ← rt_insert_all false t0 l; _ ← rt_iter t; Some t'.
(** detail/hash_table.hpp:754-762. *)
Definition rt_grow (t : rtab) : option rtab :=
  let n := N.of_nat (length (rt_vals t)) in
  if decide (approx_85_percent n < N.of_nat (rt_size t))%N then rt_reserve t (N.to_nat (N.shiftl n 1)) else Some t.
Definition rt_insert_or_assign (t : rtab) (x : K * V) : option rtab := t1 ← rt_grow t; rt_insert_raw true t1 x.

(** detail/hash_table.hpp:323-336 (and 374-380 for an initializer list): [bucket_count] buckets, but always
    default_bucket_count infos. *)
Definition rt_range (bucket_count : nat) (l : list (K * V)) : option rtab :=
  t ← rt_make default_bucket_count bucket_count;
  (fix go (t : rtab) (l : list (K * V)) : option rtab :=
     match l with
     | [] => Some t
     | x :: l => t' ← rt_insert_or_assign t x; go t' l
     end) t l.
(** The destructor (270-274) returns. *)
Definition rt_destructs (t : rtab) : bool := match rt_iter t with Some _ => true | None => false end.
End range.
Arguments rtab : clear implicits.
