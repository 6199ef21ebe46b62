(** Object lifetimes in detail/hash_table.hpp: which buckets hold an object. *)
From Verif Require Import Base Bits HashTable.

Section life.
Context {K V : Type} `{EqDecision K}.
Variable H : K → N.

(** A table together with the raw memory behind it (detail/hash_table.hpp:59-162): [lt_obj] says for every bucket
    whether an object lives there, which is not the same as info.occupied.  [lt_lost] is a ghost counter of
    objects whose storage was reused or released without running their destructor.  Undefined behaviour (also
    every use of a bucket without an object) and endless probing are [None].  Simplification: the temporaries
    and parameters of the functions, which C++ destroys, are not counted. *)
Record ltab := LTab { lt_tab : htab K V; lt_obj : list bool; lt_lost : nat }.

(** detail/hash_table.hpp:69-71, 265-266, 282-288: allocated buckets hold no objects. *)
Definition lt_make (n : nat) : ltab := LTab (ht_make n) (replicate n false) 0.
Definition lt_init : ltab := lt_make default_bucket_count.

(** Bucket [i] when the code is about to use the object of an occupied bucket.  Simplification: a bucket whose hash
    differs is not read by the code; here an occupied bucket without an object is undefined in any case. *)
Definition lt_at (sl : list (option (hent K V))) (lv : list bool) (i : nat) : option (option (hent K V)) :=
  o ← sl !! i; b ← lv !! i;
  match o with
  | Some e => if (b : bool) then Some (Some e) else None
  | None => Some None
  end.

(** std::construct on bucket [i]: an object already there is lost. *)
Definition lt_construct (lv : list bool) (lost i : nat) : list bool * nat :=
  (<[i := true]> lv, match lv !! i with Some true => S lost | _ => lost end).

(** detail/hash_table.hpp:851-872. *)
Fixpoint l_find_loop (fuel : nat) (sl : list (option (hent K V))) (lv : list bool) (h : N) (k : K)
    (i probes : nat) : option (option nat) :=
  match fuel with
  | 0 => None
  | S fuel =>
      o ← lt_at sl lv i;
      match o with
      | Some e =>
          if e_match e h k then Some (Some i)
          else if decide (he_psl e < probes) then Some None
          else l_find_loop fuel sl lv h k (ht_next i (length sl)) (S probes)
      | None => Some None
      end
  end.
Definition lt_find (t : ltab) (k : K) : option (option nat) :=
  let n := length (ht_slots (lt_tab t)) in
  if decide (n = 0) then Some None
  else l_find_loop (S n) (ht_slots (lt_tab t)) (lt_obj t) (H k) k (ht_idx (H k) n) 0.

(** detail/hash_table.hpp:765-849: std::swap and assignment need an object (781, 786, 829), lines 797 and 840
    construct one. *)
Fixpoint l_insert_loop (asg : bool) (fuel : nat) (sl : list (option (hent K V))) (lv : list bool) (lost : nat)
    (h : N) (t : hent K V) (i : nat) (r : option nat) :
    option (list (option (hent K V)) * (list bool * nat) * (nat * bool)) :=
  match fuel with
  | 0 => None
  | S fuel =>
      o ← lt_at sl lv i;
      match o with
      | None => Some (<[i := Some t]> sl, lt_construct lv lost i, (default i r, true))
      | Some e =>
          if e_match e h (he_key t) then
            Some (if asg then <[i := Some (e_setval e (he_val t))]> sl else sl, (lv, lost), (i, false))
          else if decide (he_psl e < he_psl t) then
            l_insert_loop asg fuel (<[i := Some t]> sl) lv lost h (e_inc e) (ht_next i (length sl)) (Some (default i r))
          else l_insert_loop asg fuel sl lv lost h (e_inc t) (ht_next i (length sl)) r
      end
  end.
Definition lt_insert_raw (asg : bool) (t : ltab) (k : K) (v : V) : option (ltab * (nat * bool)) :=
  let sl := ht_slots (lt_tab t) in
  let n := length sl in
  r ← l_insert_loop asg (S n) sl (lt_obj t) (lt_lost t) (H k) (HEnt (H k) 0 k v) (ht_idx (H k) n) None;
  Some (LTab (HTab r.1.1 (if (r.2.2 : bool) then S (ht_size (lt_tab t)) else ht_size (lt_tab t))) r.1.2.1 r.1.2.2, r.2).

Fixpoint lt_insert_all (t : ltab) (l : list (K * V)) : option ltab :=
  match l with
  | [] => Some t
  | (k, v) :: l => r ← lt_insert_raw false t k v; lt_insert_all r.1 l
  end.

(** detail/hash_table.hpp:270-274 and 485-487: the destructor calls for the occupied buckets; destroying in a
    bucket without an object is undefined. *)
Fixpoint lt_destroy (sl : list (option (hent K V))) (lv : list bool) : option (list bool) :=
  match sl, lv with
  | [], [] => Some []
  | o :: sl, b :: lv =>
      r ← lt_destroy sl lv;
      match o with
      | Some _ => if (b : bool) then Some (false :: r) else None
      | None => Some (b :: r)
      end
  | _, _ => None
  end.
Definition objs (lv : list bool) : nat := length (filter (λ b, b = true) lv).

(** detail/hash_table.hpp:270-274 and 102-104: the destructor; what still lives in a bucket when the buckets are
    released is lost.  The result counts the objects never destroyed. *)
Definition lt_destruct (t : ltab) : option nat :=
  lv ← lt_destroy (ht_slots (lt_tab t)) (lt_obj t); Some (lt_lost t + objs lv).

(** detail/hash_table.hpp:610-626: the elements are moved to the new buckets, and the old buckets with the
    moved-from elements are destroyed at the end. *)
Definition lt_reserve (t : ltab) (new_size : nat) : option ltab :=
  if decide (new_size < ht_size (lt_tab t)) then Some t
  else
    t' ← lt_insert_all (lt_make new_size) (ht_iter (lt_tab t));
    n ← lt_destruct t;
    Some (LTab (lt_tab t') (lt_obj t') (n + lt_lost t')).

(** detail/hash_table.hpp:742-762. *)
Definition lt_grow (t : ltab) : option ltab :=
  let n := N.of_nat (length (ht_slots (lt_tab t))) in
  if decide (approx_85_percent n < N.of_nat (ht_size (lt_tab t)))%N
  then lt_reserve t (N.to_nat (N.shiftl n 1))
  else Some t.
Definition lt_insert (asg : bool) (t : ltab) (k : K) (v : V) : option (ltab * (nat * bool)) :=
  t1 ← lt_grow t; lt_insert_raw asg t1 k v.

(** detail/hash_table.hpp:442-450. *)
Definition lt_index (dflt : V) (t : ltab) (k : K) : option (ltab * nat) :=
  f ← lt_find t k;
  match f with
  | Some i => Some (t, i)
  | None => r ← lt_insert false t k dflt; Some (r.1, r.2.1)
  end.
(** Reading and assigning through a reference or iterator. *)
Definition lt_deref (t : ltab) (i : nat) : option V :=
  o ← lt_at (ht_slots (lt_tab t)) (lt_obj t) i; e ← (o : option (hent K V)); Some (he_val e).
Definition lt_store (t : ltab) (i : nat) (v : V) : option ltab :=
  _ ← lt_deref t i; t' ← ht_store (lt_tab t) i v; Some (LTab t' (lt_obj t) (lt_lost t)).

(** detail/hash_table.hpp:696-711. *)
Fixpoint l_erase_find (fuel : nat) (sl : list (option (hent K V))) (lv : list bool) (h : N) (k : K)
    (i psl : nat) : option (option nat) :=
  match fuel with
  | 0 => None
  | S fuel =>
      o ← lt_at sl lv i;
      match o with
      | None => Some None
      | Some e =>
          if decide (he_psl e < psl) then Some None
          else if e_match e h k then Some (Some i)
          else l_erase_find fuel sl lv h k (ht_next i (length sl)) (S psl)
      end
  end.
(** detail/hash_table.hpp:716-732: move assignments between objects (728); no destructor is called. *)
Fixpoint l_shift_loop (fuel : nat) (sl : list (option (hent K V))) (lv : list bool) (i : nat) :
    option (list (option (hent K V))) :=
  match fuel with
  | 0 => None
  | S fuel =>
      let sl1 := <[i := None]> sl in
      let j := ht_next i (length sl) in
      o ← lt_at sl1 lv j;
      match o with
      | None => Some sl1
      | Some e =>
          if decide (he_psl e = 0) then Some sl1
          else match lv !! i with
               | Some true => l_shift_loop fuel (<[i := Some (e_dec e)]> sl1) lv j
               | _ => None
               end
      end
  end.
(** detail/hash_table.hpp:687-739. *)
Definition lt_shrink (n : nat) (t : ltab) : option ltab :=
  if decide ((default_bucket_count < ht_size (lt_tab t))%nat ∧
             (N.of_nat (ht_size (lt_tab t)) < approx_40_percent (N.of_nat n))%N)
  then lt_reserve t (N.to_nat (N.shiftr (N.of_nat n) 1))
  else Some t.
Definition lt_erase (t : ltab) (k : K) : option ltab :=
  let sl := ht_slots (lt_tab t) in
  let n := length sl in
  f ← l_erase_find (S n) sl (lt_obj t) (H k) k (ht_idx (H k) n) 0;
  match f with
  | None => Some t
  | Some i =>
      sl' ← l_shift_loop (S (psum sl)) sl (lt_obj t) i;
      lt_shrink n (LTab (HTab sl' (pred (ht_size (lt_tab t)))) (lt_obj t) (lt_lost t))
  end.

(** detail/hash_table.hpp:483-493. *)
Definition lt_clear (t : ltab) : option ltab :=
  lv ← lt_destroy (ht_slots (lt_tab t)) (lt_obj t); Some (LTab (ht_clear (lt_tab t)) lv (lt_lost t)).

(** detail/hash_table.hpp:385-394: the copy constructor constructs the elements in the buckets of the original. *)
Definition lt_copy (t : ltab) : option ltab :=
  _ ← lt_destroy (ht_slots (lt_tab t)) (lt_obj t);
  Some (LTab (lt_tab t) ((λ o, bool_decide (is_Some o)) <$> ht_slots (lt_tab t)) 0).
End life.
Arguments ltab : clear implicits.

(** Several tables: the objects a program still has, and the number of objects lost in tables already destroyed. *)
Record lworld (K V : Type) := LWorld { lw_tabs : list (option (ltab K V)); lw_gone : nat }.
Arguments LWorld {K V} _ _.
Arguments lw_tabs {K V} _.
Arguments lw_gone {K V} _.

Section world.
Context {K V : Type} `{EqDecision K}.
Notation world := (lworld K V).

Definition lw_get (w : world) (i : nat) : option (ltab K V) := o ← lw_tabs w !! i; o.
Definition lw_set (w : world) (i : nat) (t : ltab K V) : world := LWorld (<[i := Some t]> (lw_tabs w)) (lw_gone w).
Definition lw_add (w : world) (t : ltab K V) : world := LWorld (lw_tabs w ++ [Some t]) (lw_gone w).

(** detail/hash_table.hpp:265-266 and 385-394: a new table, and a copy of table [i]. *)
Definition lw_new (w : world) : world := lw_add w lt_init.
Definition lw_copy (w : world) (i : nat) : option world :=
  t ← lw_get w i; t' ← lt_copy t; Some (lw_add w t').
(** detail/hash_table.hpp:408-410: the members of table [i] are exchanged with those of a default-constructed table. *)
Definition lw_move (w : world) (i : nat) : option world :=
  t ← lw_get w i; Some (lw_add (lw_set w i lt_init) t).
(** detail/hash_table.hpp:415-418 and 423-429: tables [i] and [j] are exchanged. *)
Definition lw_move_assign (w : world) (i j : nat) : option world :=
  a ← lw_get w i; b ← lw_get w j; Some (lw_set (lw_set w i b) j a).
(** detail/hash_table.hpp:270-274. *)
Definition lw_destroy (w : world) (i : nat) : option world :=
  t ← lw_get w i; n ← lt_destruct t; Some (LWorld (<[i := None]> (lw_tabs w)) (lw_gone w + n)).
(** detail/hash_table.hpp:399-403: the local copy is exchanged with table [i] and destroyed. *)
Definition lw_copy_assign (w : world) (i j : nat) : option world :=
  t ← lw_get w i; b ← lw_get w j; c ← lt_copy b; n ← lt_destruct t;
  Some (LWorld (<[i := Some c]> (lw_tabs w)) (lw_gone w + n)).
End world.
