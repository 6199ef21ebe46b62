(** Building a schedule: the objects that begin_stage, add_system, end_stage and add_init_system refer to
    (system/schedule.hpp:15-62, system/stage.hpp:28-66, 127-132). *)
From Verif Require Import Base Access ParallelFor Stage.

(** stage.hpp:127-132: the reference _schedule, and the systems.  The name has no effect on what runs. *)
Record sobj (A : Type) := SObj { so_owner : nat; so_stage : stage A }.
Global Arguments SObj {A} _ _. Global Arguments so_owner {A} _. Global Arguments so_stage {A} _.

(** Schedules by address: _init_stage and the array of the vector _stages (schedule.hpp:60-61).  Arrays by address: the
    capacity and the stages.  Addresses are never reused, so that an access through a stale reference is seen. *)
Record bworld (A : Type) := BWorld { bw_scheds : gmap nat (sobj A * nat); bw_arrays : gmap nat (nat * list (sobj A)); bw_next : nat }.
Global Arguments BWorld {A} _ _ _. Global Arguments bw_scheds {A} _. Global Arguments bw_arrays {A} _. Global Arguments bw_next {A} _.

(** A stage& : an array and a position in it. *)
Notation sref := (nat * nat)%type.

Section build.
Context {A : Type}.
(** The capacity that a vector of this capacity grows to; the standard leaves it open. *)
Variable grow : nat → nat.

Definition bw_init : bworld A := BWorld ∅ ∅ 0.

(** stage.hpp:52-66: emplace_back on _systems or _main_thread_systems. *)
Definition st_add (main : bool) (y : A) (s : sobj A) : sobj A :=
  SObj (so_owner s) (if main then Stage (st_systems (so_stage s)) (st_main (so_stage s) ++ [y])
                     else Stage (st_systems (so_stage s) ++ [y]) (st_main (so_stage s))).
Definition empty_stage (a : nat) : sobj A := SObj a (Stage [] []).

(** A new schedule object: schedule.hpp:60-61, the array of the empty vector has capacity 0. *)
Definition sb_new : M (bworld A) nat := λ w,
  let a := bw_next w in
  (BWorld (<[a := (empty_stage a, S a)]> (bw_scheds w)) (<[S a := (0, [])]> (bw_arrays w)) (S (S a)), Ok a).

(** schedule.hpp:37-39: without room the stages are moved to a new array, and the old one is freed. *)
Definition sb_begin (a : nat) : M (bworld A) sref := λ w,
  match bw_scheds w !! a with
  | None => (w, UB)
  | Some (i, b) =>
      match bw_arrays w !! b with
      | None => (w, UB)
      | Some (cap, l) =>
          if decide (length l < cap)
          then (BWorld (bw_scheds w) (<[b := (cap, l ++ [empty_stage a])]> (bw_arrays w)) (bw_next w), Ok (b, length l))
          else
            let b' := bw_next w in
            (BWorld (<[a := (i, b')]> (bw_scheds w)) (<[b' := (grow cap, l ++ [empty_stage a])]> (delete b (bw_arrays w))) (S b'), Ok (b', length l))
      end
  end.

(** Using a stage&. *)
Definition sb_deref (r : sref) (w : bworld A) : option (sobj A) := x ← bw_arrays w !! r.1; x.2 !! r.2.
Definition sb_add (main : bool) (r : sref) (y : A) : M (bworld A) unit := λ w,
  match bw_arrays w !! r.1 with
  | Some (cap, l) =>
      match l !! r.2 with
      | Some s => (BWorld (bw_scheds w) (<[r.1 := (cap, <[r.2 := st_add main y s]> l)]> (bw_arrays w)) (bw_next w), Ok tt)
      | None => (w, UB)
      end
  | None => (w, UB)
  end.
(** stage.hpp:44-46. *)
Definition sb_end (r : sref) : M (bworld A) nat := λ w, match sb_deref r w with Some s => (w, Ok (so_owner s)) | None => (w, UB) end.

(** schedule.hpp:25-28. *)
Definition sb_add_init (main : bool) (a : nat) (y : A) : M (bworld A) unit := λ w,
  match bw_scheds w !! a with
  | Some (i, b) => (BWorld (<[a := (st_add main y i, b)]> (bw_scheds w)) (bw_arrays w) (bw_next w), Ok tt)
  | None => (w, UB)
  end.

(** The implicit move constructor of schedule: every member is moved; the stages keep their references _schedule, the array
    changes its owner, and what is left is empty. *)
Definition sb_move (a : nat) : M (bworld A) nat := λ w,
  match bw_scheds w !! a with
  | Some (i, b) =>
      let c := bw_next w in
      (BWorld (<[c := (i, b)]> (<[a := (SObj (so_owner i) (Stage [] []), S c)]> (bw_scheds w))) (<[S c := (0, [])]> (bw_arrays w)) (S (S c)), Ok c)
  | None => (w, UB)
  end.

(** The destructor of schedule. *)
Definition sb_drop (a : nat) : M (bworld A) unit := λ w,
  match bw_scheds w !! a with
  | Some (i, b) => (BWorld (delete a (bw_scheds w)) (delete b (bw_arrays w)) (bw_next w), Ok tt)
  | None => (w, UB)
  end.

(** * The intended use *)

(** schedule.add_init_system(...).begin_stage(...).add_system(...).add_system(...).end_stage()... : every call is made on
    the reference that the call before returned. *)
Inductive link := LInit (main : bool) (y : A) | LStage (ys : list (bool * A)).
Fixpoint sb_chain (l : list link) (a : nat) : M (bworld A) nat :=
  match l with
  | [] => ret a
  | LInit main y :: l => sb_add_init main a y ;;! sb_chain l a
  | LStage ys :: l =>
      let! r := sb_begin a in
      forM ys (λ my, sb_add my.1 r my.2) ;;!
      let! a' := sb_end r in sb_chain l a'
  end.

(** The schedule that is written down: the systems of the main thread and the others, in this order. *)
Definition systems_of (ys : list (bool * A)) : stage A := Stage (filter (λ x, x.1 = false) ys).*2 (filter (λ x, x.1 = true) ys).*2.
Definition init_of (l : list link) : list (bool * A) := omap (λ x, match x with LInit m y => Some (m, y) | _ => None end) l.
Definition stages_of (l : list link) : list (stage A) := omap (λ x, match x with LStage ys => Some (systems_of ys) | _ => None end) l.
Definition stage_app (s t : stage A) : stage A := Stage (st_systems s ++ st_systems t) (st_main s ++ st_main t).
Definition sched_app (s : schedule A) (l : list link) : schedule A :=
  Schedule (stage_app (sc_init s) (systems_of (init_of l))) (sc_stages s ++ stages_of l).

(** The schedule at address [a], as create_executor (schedule.hpp:49-57) reads it. *)
Definition sb_sched (w : bworld A) (a : nat) : option (schedule A) :=
  ib ← bw_scheds w !! a; x ← bw_arrays w !! ib.2; Some (Schedule (so_stage ib.1) (so_stage <$> x.2)).

(** Calls of begin_stage on [a]. *)
Fixpoint sb_begins (n : nat) (a : nat) : M (bworld A) unit :=
  match n with 0 => ret tt | S n => sb_begin a ;;! sb_begins n a end.

(** The states that calls lead to: any calls that are defined. *)
Inductive bcall := KNew | KBegin (a : nat) | KAdd (m : bool) (r : sref) (y : A) | KInit (m : bool) (a : nat) (y : A) | KMove (a : nat) | KDrop (a : nat).
Definition bc_run (k : bcall) : M (bworld A) unit :=
  match k with
  | KNew => sb_new ;;! ret tt
  | KBegin a => sb_begin a ;;! ret tt
  | KAdd m r y => sb_add m r y
  | KInit m a y => sb_add_init m a y
  | KMove a => sb_move a ;;! ret tt
  | KDrop a => sb_drop a
  end.
Inductive breach : bworld A → Prop :=
| BR0 : breach bw_init
| BRS w k w' : breach w → bc_run k w = (w', Ok tt) → breach w'.
End build.
Global Arguments link : clear implicits.
Global Arguments bcall : clear implicits.
