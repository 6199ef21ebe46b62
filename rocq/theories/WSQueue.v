(** detail/work_stealing_queue.hpp under sequentially consistent interleaving: one owner and any number
    of thieves; every access to a shared variable ([_top], [_bottom], [_array], an array cell) is one step.
    Loads by the owner of variables that only the owner writes ([_bottom], [_array]) are merged with the
    step before or after.  Simplifications: indices are unbounded integers (the code uses [int64_t]);
    memory orderings are all sequentially consistent; an uninitialised cell reads as [None]. *)
From Verif Require Import Base.
Local Open Scope Z_scope.

Section queue.
Context {A : Type}.

(** work_stealing_queue.hpp 134–137. *)
Record arr := Arr { a_cap : Z; a_data : gmap Z A }.

(** work_stealing_queue.hpp 154–156. *)
Definition arr_push (a : arr) (i : Z) (x : A) : arr :=
  Arr (a_cap a) (<[Z.land i (a_cap a - 1) := x]> (a_data a)).

(** work_stealing_queue.hpp 158–160. *)
Definition arr_pop (a : arr) (i : Z) : option A := a_data a !! Z.land i (a_cap a - 1).

(** work_stealing_queue.hpp 162–170: [n] iterations from [i]; nobody else writes either array
    meanwhile, so the copy is one step. *)
Fixpoint copy_loop (n : nat) (i : Z) (old new : arr) : arr :=
  match n with
  | O => new
  | S n =>
    copy_loop n (i + 1) old (match arr_pop old i with Some x => arr_push new i x | None => new end)
  end.
Definition arr_grow (a : arr) (bottom top : Z) : arr :=
  copy_loop (Z.to_nat (bottom - top)) top a (Arr (2 * a_cap a) ∅).

(** work_stealing_queue.hpp 173–176; the arrays ever allocated are kept until the destructor runs
    ([_garbage]), so pointers to them are positions in a list; [q_cur] is [_array]. *)
Record wsq := Wsq { q_top : Z; q_bot : Z; q_arrs : list arr; q_cur : nat }.

(** work_stealing_queue.hpp 19–25. *)
Definition wsq_init (capacity : Z) : wsq := Wsq 0 0 [Arr capacity ∅] 0.

Definition set_top (q : wsq) (t : Z) : wsq := Wsq t (q_bot q) (q_arrs q) (q_cur q).
Definition set_bot (q : wsq) (b : Z) : wsq := Wsq (q_top q) b (q_arrs q) (q_cur q).

(** The owner's position in an operation, with its local variables. *)
Inductive opc :=
  | OIdle
  | OPushA (x : A) (bottom : Z)            (* line 62 done *)
  | OPushB (x : A) (bottom top : Z)        (* line 63 done *)
  | OPushC (x : A) (bottom : Z) (a : nat)  (* lines 64–71 done *)
  | OPushD (x : A) (bottom : Z)            (* line 73 done *)
  | OPopA (bottom : Z) (a : nat)           (* lines 101, 102 done *)
  | OPopB (bottom : Z) (a : nat)           (* line 103 done *)
  | OPopC (bottom top : Z) (a : nat)       (* line 105 done *)
  | OPopD (bottom top : Z) (item : option A)  (* line 110 done *)
  | OPopE (bottom : Z) (item : option A).  (* lines 112–116 done, or the else branch at 120 *)

(** A thief's position in [steal], with its local variables. *)
Inductive tpc :=
  | TIdle
  | TA (top : Z)                   (* line 81 done *)
  | TB (top : Z)                   (* line 83 done, [top < bottom] *)
  | TC (top : Z) (a : nat)         (* line 88 done *)
  | TD (top : Z) (item : option A). (* line 89 done *)

(** Completed operations with their results; [EPop None], [ESteal None] are [std::nullopt]. *)
Inductive event := EPush (x : A) | EPop (r : option A) | ESteal (r : option A).

(** Starting an operation of the owner. *)
Definition push_start (q : wsq) (x : A) : opc := OPushA x (q_bot q).
Definition pop_start (q : wsq) : opc := OPopA (q_bot q - 1) (q_cur q).

(** One step of the owner. *)
Definition owner_step (q : wsq) (o : opc) : option (wsq * opc * option event) :=
  match o with
  | OIdle => None
  | OPushA x b => Some (q, OPushB x b (q_top q), None)                          (* 63 *)
  | OPushB x b t =>                                                             (* 64–71 *)
    a ← q_arrs q !! q_cur q;
    if bool_decide (a_cap a - 1 < b - t) then
      Some (Wsq (q_top q) (q_bot q) (q_arrs q ++ [arr_grow a b t]) (length (q_arrs q)),
            OPushC x b (length (q_arrs q)), None)
    else Some (q, OPushC x b (q_cur q), None)
  | OPushC x b a =>                                                             (* 73 *)
    Some (Wsq (q_top q) (q_bot q) (alter (λ a, arr_push a b x) a (q_arrs q)) (q_cur q), OPushD x b, None)
  | OPushD x b => Some (set_bot q (b + 1), OIdle, Some (EPush x))               (* 75 *)
  | OPopA b a => Some (set_bot q b, OPopB b a, None)                            (* 103 *)
  | OPopB b a => Some (q, OPopC b (q_top q) a, None)                            (* 105 *)
  | OPopC b t a =>                                                              (* 109–110, 121 *)
    if bool_decide (t <= b) then
      ar ← q_arrs q !! a; Some (q, OPopD b t (arr_pop ar b), None)
    else Some (q, OPopE b None, None)
  | OPopD b t item =>                                                           (* 112–118 *)
    if bool_decide (t = b) then
      if bool_decide (q_top q = t) then Some (set_top q (t + 1), OPopE b item, None)
      else Some (q, OPopE b None, None)
    else Some (q, OIdle, Some (EPop item))
  | OPopE b item => Some (set_bot q (b + 1), OIdle, Some (EPop item))           (* 118, 121 *)
  end.

(** One step of a thief (the first step starts [steal]). *)
Definition thief_step (q : wsq) (p : tpc) : option (wsq * tpc * option event) :=
  match p with
  | TIdle => Some (q, TA (q_top q), None)                                       (* 81 *)
  | TA t =>                                                                     (* 83, 87, 95 *)
    if bool_decide (t < q_bot q) then Some (q, TB t, None) else Some (q, TIdle, Some (ESteal None))
  | TB t => Some (q, TC t (q_cur q), None)                                      (* 88 *)
  | TC t a => ar ← q_arrs q !! a; Some (q, TD t (arr_pop ar t), None)           (* 89 *)
  | TD t item =>                                                                (* 90–92, 95 *)
    if bool_decide (q_top q = t) then Some (set_top q (t + 1), TIdle, Some (ESteal item))
    else Some (q, TIdle, Some (ESteal None))
  end.

(** The queue with its threads and the operations completed so far, oldest first. *)
Record system := Sys { s_q : wsq; s_owner : opc; s_thieves : list tpc; s_log : list event }.

Definition add_event (log : list event) (e : option event) : list event :=
  match e with Some e => log ++ [e] | None => log end.

Inductive sys_step : system → system → Prop :=
  | st_push q ts log x : sys_step (Sys q OIdle ts log) (Sys q (push_start q x) ts log)
  | st_pop q ts log : sys_step (Sys q OIdle ts log) (Sys q (pop_start q) ts log)
  | st_owner q o ts log q' o' e :
      owner_step q o = Some (q', o', e) → sys_step (Sys q o ts log) (Sys q' o' ts (add_event log e))
  | st_thief q o ts log i p q' p' e :
      ts !! i = Some p → thief_step q p = Some (q', p', e) →
      sys_step (Sys q o ts log) (Sys q' o (<[i := p']> ts) (add_event log e)).

(** Executions with an initial capacity and a number of thieves. *)
Inductive sys_reach (capacity : Z) (thieves : nat) : system → Prop :=
  | sr_init : sys_reach capacity thieves (Sys (wsq_init capacity) OIdle (replicate thieves TIdle) [])
  | sr_step s s' : sys_reach capacity thieves s → sys_step s s' → sys_reach capacity thieves s'.

(** work_stealing_queue.hpp 45–49 and 53–57. *)
Definition wsq_empty (q : wsq) : bool := bool_decide (q_bot q <= q_top q).
Definition wsq_size (q : wsq) : Z := if bool_decide (q_top q <= q_bot q) then q_bot q - q_top q else 0.
End queue.
Arguments arr : clear implicits.
Arguments wsq : clear implicits.
Arguments opc : clear implicits.
Arguments tpc : clear implicits.
Arguments event : clear implicits.
Arguments system : clear implicits.
