(** Every recorded command once: what several frames of commands should do. *)
From Verif Require Import Base Bits Layout HandlePool HandleSpec SparseMap HashTable Bitset ComponentSet Chunk Archetype Registry View
  RegSpec Command CommandSpec.

(** * Specification *)

(** An execution of a command: the thread that recorded it, the frame in which it was recorded (the number of calls of
    flush before), the frame at the end of which it is executed, the call with the handle it returned, what happened. *)
Record ran := Ran { r_buf : nat; r_at : nat; r_in : nat; r_call : crec * handle; r_out : outcome unit }.

(** The commands of one thread. *)
Definition ran_on (b : nat) (tr : list ran) : list (nat * (crec * handle)) :=
  (λ r, (r_at r, r_call r)) <$> filter (λ r, r_buf r = b) tr.
(** The exceptions thrown by commands. *)
Definition thrown (tr : list ran) : list exn := omap (λ r, match r_out r with Throw e => Some e | _ => None end) tr.

(** The calls of thread [b] that returned, with their frames, in a history that starts in frame [t]. *)
Fixpoint recorded (b t : nat) (ops : list cop) (os : list (outcome (option handle))) : list (nat * (crec * handle)) :=
  match ops, os with
  | CRec b' k :: ops, Ok (Some g) :: os => if decide (b' = b) then (t, (k, g)) :: recorded b t ops os else recorded b t ops os
  | CRec _ _ :: ops, _ :: os => recorded b t ops os
  | CFlush :: ops, _ :: os => recorded b (S t) ops os
  | _, _ => []
  end.
(** The exceptions thrown by calls of flush, and whether all calls of flush returned. *)
Fixpoint failures (ops : list cop) (os : list (outcome (option handle))) : list exn :=
  match ops, os with
  | CFlush :: ops, Throw e :: os => e :: failures ops os
  | _ :: ops, _ :: os => failures ops os
  | _, _ => []
  end.
(** The number of commands recorded. *)
Definition accepted (os : list (outcome (option handle))) : nat :=
  sum_list_with (λ o, match o with Ok (Some _) => 1 | _ => 0 end) os.

Section spec.
Variable U : universe.
(** The commands change the entities as direct calls would, one after the other. *)
Inductive executes : world → list ran → world → Prop :=
| Executes0 w : executes w [] w
| ExecutesS w r w1 tr w' : direct U w (r_call r).1 (r_call r).2 (r_out r) w1 → executes w1 tr w' → executes w (r :: tr) w'.
End spec.
