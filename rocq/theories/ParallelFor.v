(** thread_pool/parallel_for.hpp: splitting a range into batches.  Iterators are positions in the
    range, which is a list; the user function is abstracted to the order in which elements reach it. *)
From Verif Require Import Base.

(** parallel_for.hpp 31–37: the loop that prepares the batches as pairs of positions, with [b] the
    begin iterator and [i] the loop counter. *)
Fixpoint pf_loop (n i num_workers batch_size work_size b : nat) : list (nat * nat) :=
  match n with
  | 0 => []
  | S n =>
    let e := if bool_decide (i < num_workers - 1) then b + batch_size else work_size in
    (b, e) :: pf_loop n (S i) num_workers batch_size work_size e
  end.

(** parallel_for.hpp 14–38; [None] is the sequential fast path (lines 19–21), otherwise the batches. *)
Definition pf_batches (num_workers work_size : nat) : option (list (nat * nat)) :=
  let batch_size := work_size / num_workers in
  if bool_decide (batch_size < 1) then None
  else Some (pf_loop num_workers 0 num_workers batch_size work_size 0).

(** The elements of a subrange (line 35: [std::ranges::subrange(b, e)]). *)
Definition subrange {A} (l : list A) (r : nat * nat) : list A := take (r.2 - r.1) (drop r.1 l).

(** parallel_for.hpp 42–48: the first task is the parent of the others. *)
Definition pf_parents (n : nat) : list (option nat) :=
  imap (λ i _, match i with 0 => None | S _ => Some 0 end) (replicate n tt).

(** Any order in which the steps of tasks running in parallel can happen. *)
Inductive interleave {A} : list (list A) → list A → Prop :=
  | interleave_nil ls : Forall (λ l, l = []) ls → interleave ls []
  | interleave_cons ls i x l tr :
      ls !! i = Some (x :: l) → interleave (<[i := l]> ls) tr → interleave ls (x :: tr).

(** The orders in which the elements of a range can reach the user function
    (line 21: one [for_each]; line 44: one [for_each] per task). *)
Definition pf_exec {A} (num_workers : nat) (range : list A) (tr : list A) : Prop :=
  match pf_batches num_workers (length range) with
  | None => tr = range
  | Some bs => interleave (subrange range <$> bs) tr
  end.
