(** The range returned by each() (view.hpp:89-101, 173-188) as an object that is kept and looped over again.  It is made of
    std::views::values, filter, transform and join (detail/views.hpp).  filter_view is over a forward range
    (detail/hash_table.hpp:176-260), so its begin() keeps the iterator to the first match ([range.filter.view] p3-5), and
    returns that iterator when it is called again. *)
From Verif Require Import Base Bits Layout HandlePool SparseMap HashTable Bitset ComponentSet Chunk Archetype Registry View.

(** The kept iterator: the number of buckets that the table had, and the bucket.  The table is only ever replaced by one of
    another size (detail/hash_table.hpp:610-626, 743-760), so with another number of buckets the iterator points into freed
    memory. *)
Notation kept := (option (nat * nat)).

Section range.
Variable U : universe.

(** ranges::find_if over the occupied buckets from bucket [i] on; the end is the number of buckets. *)
Fixpoint rn_find (rq : list vreq) (i : nat) (sl : list (option (hent bitset (option nat)))) : M registry nat :=
  match sl with
  | [] => ret i
  | None :: sl => rn_find rq (S i) sl
  | Some e :: sl =>
      let! ar := rg_arch (he_val e) in
      if forallb (vw_match U ar) (vr_cid <$> rq) then ret i else rn_find rq (S i) sl
  end.

(** filter_view::begin. *)
Definition rn_begin (rq : list vreq) (k : kept) : M registry nat :=
  let! r := get in
  let sl := ht_slots (rg_table r) in
  match k with
  | Some (n, i) => if decide (n = length sl) then ret i else ub
  | None => rn_find rq 0 sl
  end.

(** The loop from bucket [i] on: the first archetype is not tested again.  An empty bucket has no pointer to follow. *)
Definition rn_from (rq : list vreq) (f : callback) (i : nat) : M registry vlog :=
  let! r := get in
  match drop i (ht_slots (rg_table r)) with
  | [] => ret []
  | None :: _ => ub
  | Some e :: sl =>
      let! ar := rg_arch (he_val e) in
      let! log := vw_chunks U (he_val e) (ar_blocks ar) rq f (seq 0 (length (ar_chunks ar))) [] in
      vw_archs U rq f ((λ e, (he_key e, he_val e)) <$> omap id sl) log
  end.

(** for (auto [...] : range) with the callback as body, for a range that holds [k]; the calls, and what the range holds
    afterwards. *)
Definition rn_each (rq : list vreq) (f : callback) (k : kept) : M registry (vlog * kept) :=
  let! r := get in
  let! i := rn_begin rq k in
  let! log := rn_from rq f i in
  ret (log, Some (length (ht_slots (rg_table r)), i)).
End range.
