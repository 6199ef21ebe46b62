(** thread_pool/task.hpp 26–50 and thread_pool.hpp 81–93 with their memory orders (WeakMem.v): a task and
    the children created before the wait, each executed by a thread of its own, and the thread that waits.
    The orders of [fetch_sub] and of the load in [is_completed] are parameters; the code has relaxed twice.
    Simplifications: only the counter of the awaited task; the children are leaves, so each of them
    subtracts from it once, when it has finished. *)
From Verif Require Import Base WeakMem.

Definition code_sub : order := Relaxed.  (* task.hpp 45 *)
Definition code_read : order := Relaxed. (* task.hpp 34 *)

Notation cview := (view unit nat).
Notation ctview := (tview unit nat).
Notation cmsg := (msg unit nat).

Section task.
Variables sub_order read_order : order.

(** task.hpp 27–30: before [_func], before [finish], after. *)
Inductive epc := ENew | ERan | EDone.

(** The counter, the executing threads, and the waiting thread with whether [wait] has returned. *)
Record csys := CSys { c_hist : list (cmsg nat); c_ex : list (epc * ctview); c_done : bool; c_wait : ctview }.

Definition ctview0 : ctview := TView vempty vempty vempty.
(** task.hpp 19–22: the counter of a task with [n - 1] children. *)
Definition cinit (n : nat) : csys := CSys [Msg n vempty] (replicate n (ENew, ctview0)) false ctview0.

(** Execution [i] runs its function, which is event [i]; it finishes; the waiting thread reads message [n];
    one of two threads learns what the other knows, by synchronisation elsewhere ([None] is the waiting
    thread). *)
Inductive cact := CRun (i : nat) | CFinish (i : nat) | CWait (n : nat) | CSync (j k : option nat).

Definition cview_of (s : csys) (j : option nat) : option cview :=
  match j with None => Some (t_cur (c_wait s)) | Some j => (λ pt, t_cur pt.2) <$> c_ex s !! j end.

Definition cstep (a : cact) (s : csys) : option csys :=
  match a with
  | CRun i => (* task.hpp 28 *)
    pt ← c_ex s !! i;
    match pt.1 with
    | ENew => Some (CSys (c_hist s) (<[i := (ERan, learn (vev i) pt.2)]> (c_ex s)) (c_done s) (c_wait s))
    | _ => None
    end
  | CFinish i => (* task.hpp 45 *)
    pt ← c_ex s !! i;
    match pt.1 with
    | ERan =>
      '(_, h, t) ← rmw sub_order () pred (c_hist s) pt.2;
      Some (CSys h (<[i := (EDone, t)]> (c_ex s)) (c_done s) (c_wait s))
    | _ => None
    end
  | CWait n => (* thread_pool.hpp 82, task.hpp 34 *)
    if c_done s then None else
    r ← load read_order () n (c_hist s) (c_wait s);
    Some (CSys (c_hist s) (c_ex s) (bool_decide (r.1 = 0)) r.2)
  | CSync j k =>
    v ← cview_of s k;
    match j with
    | None => Some (CSys (c_hist s) (c_ex s) (c_done s) (learn v (c_wait s)))
    | Some j => Some (CSys (c_hist s) (alter (λ pt, (pt.1, learn v pt.2)) j (c_ex s)) (c_done s) (c_wait s))
    end
  end.

Inductive creach (n : nat) : csys → Prop :=
  | cr_init : creach n (cinit n)
  | cr_step s a s' : creach n s → cstep a s = Some s' → creach n s'.
End task.
