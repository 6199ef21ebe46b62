(** command.hpp on several threads: which memory each operation touches, the mutex, and data races of the C++ memory model.
    Threads and registries are numbers; the buffer of a thread has the number of the thread.

    Simplifications: the members of a buffer (_commands, _staging; command.hpp:150-151) are one location, and so are the members
    of a registry that are not atomic.  Atomic accesses (the counters of handle_pool) cannot race and are left out; all of
    them are relaxed (handle.hpp:78-133), so they order nothing.  The static data of types (type_meta.hpp) are initialised
    once, in a thread-safe way, and are left out.  No operation throws, and no thread ends. *)
From Verif Require Import Base.

(** Memory: the buffer of a thread; the vector _command_buffers; a registry. *)
Inductive cloc := LBuf (thread : nat) | LList | LReg (registry : nat).
Global Instance cloc_eq_dec : EqDecision cloc. Proof. solve_decision. Defined.

(** The operations of a thread.
    - [OWriter]: the constructor of command_writer, which calls get (command.hpp:20-23, 239).
    - [ORecord r reads]: a command for registry [r] (165-198, 254-265): it writes the thread's own buffer; create and clone call
      reserve first, which reads the registry if there are free handles (handle.hpp:110-118); [reads] says whether it does.
    - [OFlush r w]: flush (27-34); [w] says whether sync writes the registry (handle.hpp:121-134: if handles were reserved).
    - [OSync u]: not of the library: the user orders what the thread did before what thread [u] does next. *)
Inductive cop := OWriter | ORecord (r : nat) (reads : bool) | OFlush (r : nat) (w : bool) | OSync (u : nat).

(** The parts of an operation; each is one step. *)
Inductive cact :=
  | CAcc (l : cloc) (write : bool)
  | CLock | CUnlock               (* of _mutex *)
  | CRegister                     (* 46: writes the vector *)
  | CPlay (r : nat)               (* 31: reads the vector *)
  | CSync (u : nat).

(** What the body of get does in a thread that has [none] yet (21, 44-47: the members are initialised before the mutex is locked),
    and the bodies of the others. *)
Definition op_acts (bufs : list nat) (t : nat) (o : cop) : list cact :=
  match o with
  | OWriter => if bool_decide (t ∈ bufs) then [] else [CAcc (LBuf t) true; CLock; CRegister; CUnlock]
  | ORecord r reads => (if reads then [CAcc (LReg r) false] else []) ++ [CAcc (LBuf t) true]
  | OFlush r w => [CAcc (LReg r) w; CLock; CPlay r; CUnlock]
  | OSync u => [CSync u]
  end.
(** play_commands (58-65) of the buffer of thread [b]: reads it; if it has commands, takes them and writes the registry. *)
Definition play_acts (r : nat) (some : nat → bool) (b : nat) : list cact :=
  CAcc (LBuf b) false :: (if some b then [CAcc (LBuf b) true; CAcc (LReg r) true] else []).

Record cevent := CEv { ev_thread : nat; ev_op : cop; ev_act : cact }.
(** The operation that each thread is in with what is left of it; the holder of the mutex; the vector; what has happened. *)
Record cstate := CSt { cs_prog : nat → cop * list cact; cs_lock : option nat; cs_bufs : list nat; cs_trace : list cevent }.
Definition cinit : cstate := CSt (λ _, (OWriter, [])) None [] [].

Definition upd (p : nat → cop * list cact) (t : nat) (x : cop * list cact) : nat → cop * list cact := λ u, if decide (u = t) then x else p u.

(** A thread that records has made a writer before, so its buffer is in the vector (239). *)
Definition may_start (bufs : list nat) (t : nat) (o : cop) : Prop := match o with ORecord _ _ => t ∈ bufs | _ => True end.

Inductive cstep : cstate → cstate → Prop :=
  | do_start p lk bufs tr t o' o : p t = (o', []) → may_start bufs t o →
      cstep (CSt p lk bufs tr) (CSt (upd p t (o, op_acts bufs t o)) lk bufs tr)
  | do_acc p lk bufs tr t o l w rest : p t = (o, CAcc l w :: rest) →
      cstep (CSt p lk bufs tr) (CSt (upd p t (o, rest)) lk bufs (tr ++ [CEv t o (CAcc l w)]))
  | do_lock p bufs tr t o rest : p t = (o, CLock :: rest) →
      cstep (CSt p None bufs tr) (CSt (upd p t (o, rest)) (Some t) bufs (tr ++ [CEv t o CLock]))
  | do_unlock p lk bufs tr t o rest : p t = (o, CUnlock :: rest) →
      cstep (CSt p lk bufs tr) (CSt (upd p t (o, rest)) None bufs (tr ++ [CEv t o CUnlock]))
  | do_register p lk bufs tr t o rest : p t = (o, CRegister :: rest) →
      cstep (CSt p lk bufs tr) (CSt (upd p t (o, rest)) lk (bufs ++ [t]) (tr ++ [CEv t o CRegister]))
  | do_play p lk bufs tr t o r rest some : p t = (o, CPlay r :: rest) →
      cstep (CSt p lk bufs tr) (CSt (upd p t (o, (bufs ≫= play_acts r some) ++ rest)) lk bufs (tr ++ [CEv t o (CPlay r)]))
  | do_sync p lk bufs tr t o u rest : p t = (o, CSync u :: rest) →
      cstep (CSt p lk bufs tr) (CSt (upd p t (o, rest)) lk bufs (tr ++ [CEv t o (CSync u)])).
Definition creach (s : cstate) : Prop := rtc cstep cinit s.

(** * The C++ memory model: happens-before and data races of a trace *)
Definition hb_edge (tr : list cevent) (i j : nat) : Prop :=
  i < j ∧ ∃ e f, tr !! i = Some e ∧ tr !! j = Some f ∧
    (ev_thread e = ev_thread f ∨ (ev_act e = CUnlock ∧ ev_act f = CLock) ∨ ev_act e = CSync (ev_thread f)).
Definition hb (tr : list cevent) : nat → nat → Prop := tc (hb_edge tr).
Definition touches (a : cact) : option (cloc * bool) :=
  match a with CAcc l w => Some (l, w) | CRegister => Some (LList, true) | CPlay _ => Some (LList, false) | _ => None end.
Definition data_race (tr : list cevent) : Prop :=
  ∃ i j e f l w1 w2, i < j ∧ tr !! i = Some e ∧ tr !! j = Some f ∧ ev_thread e ≠ ev_thread f ∧
    touches (ev_act e) = Some (l, w1) ∧ touches (ev_act f) = Some (l, w2) ∧ (w1 || w2 = true) ∧ ¬ hb tr i j.

(** The user has ordered every flush and every command of another thread, and every two flushes of one registry. *)
Definition needs_order (a b : cop) : Prop :=
  match a, b with
  | OFlush _ _, ORecord _ _ | ORecord _ _, OFlush _ _ => True
  | OFlush r _, OFlush r' _ => r = r'
  | _, _ => False
  end.
Definition user_orders (tr : list cevent) : Prop :=
  ∀ i j e f, i < j → tr !! i = Some e → tr !! j = Some f → ev_thread e ≠ ev_thread f → needs_order (ev_op e) (ev_op f) → hb tr i j.
