(** How deep the calls of tasks nest on the stacks of the workers. *)
From Verif Require Import Base Task ThreadPool PoolTrace.
Local Open Scope nat_scope.

(** * Specification *)

(** The code nests at most [d] deep: it submits only functions that nest less deep. *)
Inductive nests : nat → prog → Prop :=
  | nests_done d : nests d PDone
  | nests_submit d c o k : nests d c → (∀ t, nests (S d) (k t)) → nests (S d) (PSubmit c o k)
  | nests_wait d t k : nests d k → nests d (PWait t k)
  | nests_stop d k : nests d k → nests d (PStop k)
  | nests_act d a k : nests d k → nests d (PAct a k).

(** How deep code as a user writes it nests: the pieces of a fork are one level deeper, main thread systems are not. *)
Fixpoint code_depth (c : code) : nat :=
  match c with
  | CDone => 0
  | CAct _ k => code_depth k
  | CFork cs ms k =>
      let deepest := foldr (λ c, Nat.max (code_depth c)) 0 in
      Nat.max (Nat.max (match cs with [] => 0 | _ => S (deepest cs) end) (deepest ms)) (code_depth k)
  end.
