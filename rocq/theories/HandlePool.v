(** Model of detail/handle.hpp: handles and the handle pool. *)
From Verif Require Import Base.
Local Open Scope N_scope.

(** detail/handle.hpp:12-65.  Both fields are uint32. *)
Record handle := Handle { h_id : N; h_gen : N }.

Global Instance handle_eq_dec : EqDecision handle.
Proof. solve_decision. Defined.
Global Instance handle_countable : Countable handle.
Proof.
  refine (inj_countable' (λ h, (h_id h, h_gen h)) (λ p, Handle p.1 p.2) _).
  by intros [].
Defined.

(** uint32 arithmetic. *)
Definition w32 : N := 2 ^ 32.
Definition inc32 (x : N) : N := (x + 1) mod w32.

(** detail/handle.hpp:19-28 and 41-43. *)
Definition invalid_handle : handle := Handle (w32 - 1) (w32 - 1).
Definition handle_valid (h : handle) : bool := bool_decide (h ≠ invalid_handle).

(** detail/handle.hpp:137-140: _next_id (uint32), _free_cursor (int64), _generations, _free_ids.
    Vectors are lists in index order.  Simplification: the int64 cursor is unbounded (reaching 2^63
    would need as many reservations). *)
Record pool := Pool {
  next_id : N;
  cursor : Z;
  gens : list N;
  free_ids : list N }.

Definition pool_init : pool := Pool 0 0 [] [].

(** detail/handle.hpp:74-84 (create). *)
Definition pool_create : M pool handle := λ p,
  match last p.(free_ids) with
  | Some id =>
      let fr := pop_back p.(free_ids) in
      let p' := Pool p.(next_id) (Z.of_nat (length fr)) p.(gens) fr in
      match p.(gens) !! N.to_nat id with
      | Some g => (p', Ok (Handle id g))
      | None => (p', UB)
      end
  | None =>
      (Pool (inc32 p.(next_id)) p.(cursor) (p.(gens) ++ [0]) p.(free_ids),
       Ok (Handle p.(next_id) 0))
  end.

(** detail/handle.hpp:89-94 (alive). *)
Definition pool_alive (p : pool) (h : handle) : bool :=
  match p.(gens) !! N.to_nat (h_id h) with
  | Some g => bool_decide (g = h_gen h)
  | None => false
  end.

(** detail/handle.hpp:98-105 (recycle). *)
Definition pool_recycle (p : pool) (h : handle) : pool :=
  if pool_alive p h then
    Pool p.(next_id) (p.(cursor) + 1)
      (alter inc32 (N.to_nat (h_id h)) p.(gens))
      (p.(free_ids) ++ [h_id h])
  else p.

(** detail/handle.hpp:111: first atomic step of reserve, returns the ticket n. *)
Definition reserve_ticket (p : pool) : Z * pool :=
  (p.(cursor), Pool p.(next_id) (p.(cursor) - 1) p.(gens) p.(free_ids)).

(** detail/handle.hpp:112-117: the rest of reserve for ticket n; one more atomic step when n <= 0. *)
Definition reserve_finish (n : Z) : M pool handle := λ p,
  if decide (0 < n)%Z then
    match p.(free_ids) !! Z.to_nat (n - 1) with
    | Some id =>
        match p.(gens) !! N.to_nat id with
        | Some g => (p, Ok (Handle id g))
        | None => (p, UB)
        end
    | None => (p, UB)
    end
  else
    (Pool (inc32 p.(next_id)) p.(cursor) p.(gens) p.(free_ids), Ok (Handle p.(next_id) 0)).

(** detail/handle.hpp:110-118 (reserve) executed without interference. *)
Definition pool_reserve : M pool handle := λ p,
  let '(n, p') := reserve_ticket p in reserve_finish n p'.

(** detail/handle.hpp:121-134 (flush).  The first loop appends one zero generation per missing cursor
    unit, the second pops _free_ids down to the cursor (which is then non-negative). *)
Definition pool_flush (p : pool) : pool :=
  let c := p.(cursor) in
  let g := p.(gens) ++ replicate (Z.to_nat (- c)) 0 in
  let c' := Z.max 0 c in
  Pool p.(next_id) c' g (take (Z.to_nat c') p.(free_ids)).
