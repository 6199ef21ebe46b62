(** Model of detail/sparse_table.hpp (instantiated as sparse_map by detail/sparse_map.hpp).
    Undefined behaviour (out-of-range operator[]) is [None]. *)
From Verif Require Import Base.

(** detail/sparse_table.hpp:306-310.  [sm_size] has the key type, an unsigned integer with [kmod]
    values, and wraps; [sm_cap] is _sparse_capacity. *)
Record smap (V : Type) := SMap {
  sm_dense : list (N * V);
  sm_sparse : list N;
  sm_size : N;
  sm_cap : N }.
Arguments SMap {V} _ _ _ _.
Arguments sm_dense {V} _.
Arguments sm_sparse {V} _.
Arguments sm_size {V} _.
Arguments sm_cap {V} _.

Section sparse_map.
Context {V : Type}.
(** Number of values of the key type: 2^32 for entity ids and component ids. *)
Variable kmod : N.

Definition sm_init : smap V := SMap [] [] 0 0.

(** detail/sparse_table.hpp:282-288 (find_impl): dense index of the key, if present. *)
Definition sm_find (m : smap V) (k : N) : option (option N) :=
  if decide (k < sm_cap m)%N then
    s ← sm_sparse m !! N.to_nat k;
    if decide (s < sm_size m)%N then
      e ← sm_dense m !! N.to_nat s;
      Some (if decide (e.1 = k) then Some s else None)
    else Some None
  else Some None.

(** detail/sparse_table.hpp:181-183. *)
Definition sm_contains (m : smap V) (k : N) : option bool :=
  f ← sm_find m k; Some (bool_decide (is_Some f)).

(** detail/sparse_table.hpp:150-155: resize fills with zeros. *)
Definition sm_reserve_sparse (m : smap V) (c : N) : smap V :=
  if decide (sm_cap m < c)%N then
    SMap (sm_dense m) (resize (N.to_nat c) 0%N (sm_sparse m)) (sm_size m) c
  else m.

(** detail/sparse_table.hpp:204-221: dense index of the entry and whether it was inserted. *)
Definition sm_emplace (m : smap V) (k : N) (v : V) : option (smap V * (N * bool)) :=
  c ← sm_contains m k;
  if (c : bool) then
    s ← sm_sparse m !! N.to_nat k; Some (m, (s, false))
  else
    let m1 := sm_reserve_sparse m (k + 1) in
    let d := sm_dense m1 ++ [(k, v)] in
    _ ← sm_sparse m1 !! N.to_nat k;
    let sp := <[N.to_nat k := sm_size m1]> (sm_sparse m1) in
    Some (SMap d sp ((sm_size m1 + 1) mod kmod)%N (sm_cap m1), (sm_size m1, true)).

(** detail/sparse_table.hpp:229-251: [Some None] is the thrown std::out_of_range. *)
Definition sm_at (m : smap V) (k : N) : option (option V) :=
  c ← sm_contains m k;
  if (c : bool) then
    s ← sm_sparse m !! N.to_nat k;
    e ← sm_dense m !! N.to_nat s; Some (Some e.2)
  else Some None.

(** detail/sparse_table.hpp:258-264 followed by an assignment through the returned reference,
    [map[k] = v]; [dflt] is the value-initialised element. *)
Definition sm_assign (dflt : V) (m : smap V) (k : N) (v : V) : option (smap V) :=
  r ← sm_emplace m k dflt;
  let '(m1, (s, _)) := r in
  e ← sm_dense m1 !! N.to_nat s;
  Some (SMap (<[N.to_nat s := (e.1, v)]> (sm_dense m1)) (sm_sparse m1) (sm_size m1) (sm_cap m1)).

(** detail/sparse_table.hpp:270-279: number of erased elements. *)
Definition sm_erase (m : smap V) (k : N) : option (smap V * N) :=
  c ← sm_contains m k;
  if (c : bool) then
    s ← sm_sparse m !! N.to_nat k;
    b ← last (sm_dense m);
    _ ← sm_dense m !! N.to_nat s;
    let d1 := <[N.to_nat s := b]> (sm_dense m) in
    e ← d1 !! N.to_nat ((sm_size m + kmod - 1) mod kmod)%N;
    _ ← sm_sparse m !! N.to_nat e.1;
    let sp := <[N.to_nat e.1 := s]> (sm_sparse m) in
    Some (SMap (pop_back d1) sp ((sm_size m + kmod - 1) mod kmod)%N (sm_cap m), 1%N)
  else Some (m, 0%N).

(** detail/sparse_table.hpp:135-138: the sparse vector keeps its stale entries. *)
Definition sm_clear (m : smap V) : smap V := SMap [] (sm_sparse m) 0 (sm_cap m).

End sparse_map.

(** The public operations, for statements about histories. *)
Inductive sm_op (V : Type) :=
| SmEmplace (k : N) (v : V)
| SmAssign (k : N) (v : V)
| SmAt (k : N)
| SmContains (k : N)
| SmErase (k : N)
| SmClear
| SmSize
| SmIterate.
Arguments SmEmplace {V} _ _.
Arguments SmAssign {V} _ _.
Arguments SmAt {V} _.
Arguments SmContains {V} _.
Arguments SmErase {V} _.
Arguments SmClear {V}.
Arguments SmSize {V}.
Arguments SmIterate {V}.

Inductive sm_out (V : Type) :=
| SmUnit
| SmBool (b : bool)
| SmVal (o : option V)
| SmNum (n : N)
| SmList (l : list (N * V)).
Arguments SmUnit {V}.
Arguments SmBool {V} _.
Arguments SmVal {V} _.
Arguments SmNum {V} _.
Arguments SmList {V} _.

Section sm_run.
Context {V : Type}.
Variable kmod : N.
Variable dflt : V.

(** One public operation; iteration (begin/end, detail/sparse_table.hpp:73-113) walks _dense. *)
Definition sm_step (m : smap V) (o : sm_op V) : option (smap V * sm_out V) :=
  match o with
  | SmEmplace k v => r ← sm_emplace kmod m k v; Some (r.1, SmBool r.2.2)
  | SmAssign k v => r ← sm_assign kmod dflt m k v; Some (r, SmUnit)
  | SmAt k => r ← sm_at m k; Some (m, SmVal r)
  | SmContains k => r ← sm_contains m k; Some (m, SmBool r)
  | SmErase k => r ← sm_erase kmod m k; Some (r.1, SmNum r.2)
  | SmClear => Some (sm_clear m, SmUnit)
  | SmSize => Some (m, SmNum (sm_size m))
  | SmIterate => Some (m, SmList (sm_dense m))
  end.

Fixpoint sm_run (m : smap V) (os : list (sm_op V)) : option (smap V * list (sm_out V)) :=
  match os with
  | [] => Some (m, [])
  | o :: os =>
      r ← sm_step m o;
      q ← sm_run r.1 os;
      Some (q.1, r.2 :: q.2)
  end.
End sm_run.
