(** Copies and moves of sparse maps (detail/sparse_table.hpp:39-59, all defaulted). *)
From Verif Require Import Base SparseMap.

(** The objects of a program: sparse maps numbered in order of construction; [None]: destroyed. *)
Notation sm_world V := (list (option (smap V))).

(** Operations on several maps. *)
Inductive sw_op (V : Type) :=
| SwNew
| SwOn (i : nat) (o : sm_op V)
| SwCopy (i : nat)
| SwMove (i : nat)
| SwCopyAssign (i j : nat)
| SwMoveAssign (i j : nat)
| SwDestroy (i : nat).
Arguments SwNew {V}.
Arguments SwOn {V} _ _.
Arguments SwCopy {V} _.
Arguments SwMove {V} _.
Arguments SwCopyAssign {V} _ _.
Arguments SwMoveAssign {V} _ _.
Arguments SwDestroy {V} _.

Section world.
Context {V : Type}.
Variable kmod : N.
Variable dflt : V.

(** detail/sparse_table.hpp:39 and 306-310: a defaulted move empties the two vectors and copies the two integers. *)
Definition sm_moved (m : smap V) : smap V := SMap [] [] (sm_size m) (sm_cap m).

Definition sw_get (w : sm_world V) (i : nat) : option (smap V) := o ← w !! i; o.

(** One operation; [None] is undefined behaviour.  Simplification: move assignment of a map to itself is undefined
    here (the standard leaves the vectors unspecified). *)
Definition sw_step (w : sm_world V) (o : sw_op V) : option (sm_world V * sm_out V) :=
  match o with
  | SwNew => Some (w ++ [Some sm_init], SmUnit)
  | SwOn i o => m ← sw_get w i; r ← sm_step kmod dflt m o; Some (<[i := Some r.1]> w, r.2)
  | SwCopy i => m ← sw_get w i; Some (w ++ [Some m], SmUnit)
  | SwMove i => m ← sw_get w i; Some (<[i := Some (sm_moved m)]> w ++ [Some m], SmUnit)
  | SwCopyAssign i j => _ ← sw_get w i; m ← sw_get w j; Some (<[i := Some m]> w, SmUnit)
  | SwMoveAssign i j =>
      if decide (i = j) then None
      else _ ← sw_get w i; m ← sw_get w j; Some (<[j := Some (sm_moved m)]> (<[i := Some m]> w), SmUnit)
  | SwDestroy i => _ ← sw_get w i; Some (<[i := None]> w, SmUnit)
  end.
Fixpoint sw_run (w : sm_world V) (os : list (sw_op V)) : option (sm_world V * list (sm_out V)) :=
  match os with
  | [] => Some (w, [])
  | o :: os => r ← sw_step w o; q ← sw_run r.1 os; Some (q.1, r.2 :: q.2)
  end.
End world.
