(** Atomic variables with their memory orders, by views (C++20 [intro.races], [atomics.order],
    [atomics.fences]).  Every variable has a list of messages, its modification order; a view gives for
    every variable the earliest message that may still be read, and the non-atomic events that happened
    before.  A load may read any message that is not too old for its thread.  Used for
    work_stealing_queue.hpp and task.hpp.
    Simplifications: a store goes to the end of the modification order, which is right for a variable
    that only one thread stores to or that is only changed by read-modify-writes; a load never reads a
    store that is executed later (no load buffering); an atomic operation with seq_cst is treated as one
    with acquire and release, which allows more executions; consume is treated as acquire, which is what
    compilers do. *)
From Verif Require Import Base.

Inductive order := Relaxed | Consume | Acquire | Release | SeqCst.
Definition acquires (o : order) : bool := match o with Consume | Acquire | SeqCst => true | _ => false end.
Definition releases (o : order) : bool := match o with Release | SeqCst => true | _ => false end.

Section weak.
Context {L : Type} `{Countable L} {E : Type} `{Countable E}.

Record view := View { v_ts : gmap L nat; v_ev : gset E }.
Definition ts (v : view) (l : L) : nat := default 0 (v_ts v !! l).
Definition vjoin (v w : view) : view :=
  View (union_with (λ m n, Some (m `max` n)) (v_ts v) (v_ts w)) (v_ev v ∪ v_ev w).
Definition vat (l : L) (n : nat) : view := View {[l := n]} ∅.
Definition vev (e : E) : view := View ∅ {[e]}.
Definition vempty : view := View ∅ ∅.

(** What a thread knows, what it knew at its last release fence, and what it would know after an acquire
    fence. *)
Record tview := TView { t_cur : view; t_rel : view; t_acq : view }.

(** A message: the value and what a thread learns by reading it with acquire. *)
Record msg (V : Type) := Msg { m_val : V; m_view : view }.
Arguments Msg {_}. Arguments m_val {_}. Arguments m_view {_}.

(** The thread learns [v]. *)
Definition learn (v : view) (t : tview) : tview := TView (vjoin (t_cur t) v) (t_rel t) (vjoin (t_acq t) v).

(** Reading message [n]. *)
Definition load {V} (o : order) (l : L) (n : nat) (h : list (msg V)) (t : tview) : option (V * tview) :=
  if bool_decide (n < ts (t_cur t) l) then None
  else
    m ← h !! n;
    Some (m_val m,
      TView (vjoin (vjoin (t_cur t) (vat l n)) (if acquires o then m_view m else vempty)) (t_rel t)
        (vjoin (vjoin (t_acq t) (vat l n)) (m_view m))).

Definition store {V} (o : order) (l : L) (x : V) (h : list (msg V)) (t : tview) : list (msg V) * tview :=
  let w := vat l (length h) in
  (h ++ [Msg x (vjoin (if releases o then t_cur t else t_rel t) w)], learn w t).

(** compare_exchange_strong with seq_cst, on failure relaxed, reading message [n].  It must fail if the
    message has another value; it can only succeed on the last message. *)
Definition cas {V} `{EqDecision V} (l : L) (expected desired : V) (n : nat) (h : list (msg V)) (t : tview) :
    option (bool * list (msg V) * tview) :=
  if bool_decide (n < ts (t_cur t) l) then None
  else
    m ← h !! n;
    if bool_decide (m_val m = expected) then
      if bool_decide (S n = length h) then
        let t1 := learn (vjoin (m_view m) (vat l (S n))) t in
        Some (true, h ++ [Msg desired (t_cur t1)], t1)
      else None
    else r ← load Relaxed l n h t; Some (false, h, r.2).

(** fetch_add and fetch_sub: the new message also carries what the old one did (release sequence). *)
Definition rmw {V} (o : order) (l : L) (f : V → V) (h : list (msg V)) (t : tview) :
    option (V * list (msg V) * tview) :=
  m ← last h;
  r ← load o l (pred (length h)) h t;
  let w := vat l (length h) in
  Some (m_val m, h ++ [Msg (f (m_val m)) (vjoin (vjoin (m_view m) (if releases o then t_cur r.2 else t_rel t)) w)],
    learn w r.2).

Definition fence_release (t : tview) : tview := TView (t_cur t) (t_cur t) (t_acq t).

(** The sequentially consistent fences are executed in one order: a later one knows the messages an earlier
    one knew (but not the events: a fence alone does not synchronise). *)
Definition fence_sc (sc : gmap L nat) (t : tview) : gmap L nat * tview :=
  let c := vjoin (t_acq t) (View sc ∅) in (v_ts c, TView c c c).
End weak.
Arguments view _ {_ _} _ {_ _}.
Arguments tview _ {_ _} _ {_ _}.
Arguments msg _ {_ _} _ {_ _} _.
Arguments Msg {_ _ _ _ _ _ _} _ _.
Arguments m_val {_ _ _ _ _ _ _} _.
Arguments m_view {_ _ _ _ _ _ _} _.
