(** Systems with a command_writer parameter (system/system.hpp:262-295): what they record while they run beside each
    other, and the flush behind them (system/schedule.hpp:79-97). *)
From Verif Require Import Base Bits Layout HandlePool HandleSpec SparseMap HashTable Bitset ComponentSet Chunk Archetype Registry View
  RegSpec Command CommandSpec.

(** The entity of a call: one that the system knew before, or the one returned by its own n-th call that made one. *)
Inductive href := RKnown (h : handle) | ROwn (n : nat).
(** The calls of a body on its command_writer and on the references that it returns (command.hpp:160-200, 244-266). *)
Inductive scmd :=
| SCreate (args : list (cid * val))
| SClone (x : href)
| SSet (x : href) (c : cid) (v : val)
| SRemove (x : href) (c : cid)
| SDestroy (x : href).

(** A running system: the calls that it has yet to make, and those that it made with the handles that it got.
    Simplification: the calls do not depend on the handles that are returned, except as their entities. *)
Record stask := STask { st_todo : list scmd; st_done : list (crec * handle) }.

Definition resolve (own : list handle) (x : href) : option handle :=
  match x with RKnown h => Some h | ROwn n => own !! n end.
Definition inst (own : list handle) (c : scmd) : option crec :=
  match c with
  | SCreate args => Some (KCreate args)
  | SClone x => option_map KClone (resolve own x)
  | SSet x c v => option_map (λ h, KSet h c v) (resolve own x)
  | SRemove x c => option_map (λ h, KRemove h c) (resolve own x)
  | SDestroy x => option_map KDestroy (resolve own x)
  end.

Section run.
Variable U : universe.

(** The systems that run between two flushes of registry [i]; any of them may make the next call.  System [j] runs on
    the thread with buffer [bf j]: its command_writer is made when it runs, by the thread that runs it
    (system.hpp:274-276, command.hpp:239, 37-39; stage.hpp:171).  Simplification: a call is one step (the handle is
    reserved atomically, C03; the staging registry and the queue belong to the thread). *)
Record sconf := SConf { sc_tasks : list stask; sc_state : cstate }.
Inductive rec_step (i : nat) (bf : nat → nat) : sconf → sconf → Prop :=
| RecStep c (j : nat) a todo dn k cs' g :
    sc_tasks c !! j = Some (STask (a :: todo) dn) → inst (made dn) a = Some k →
    record1 U i (bf j) k (sc_state c) = (cs', Ok g) →
    rec_step i bf c (SConf (<[j := STask todo (dn ++ [(k, g)])]> (sc_tasks c)) cs').
Definition rec_start (scripts : list (list scmd)) (cs : cstate) : sconf := SConf ((λ l, STask l []) <$> scripts) cs.
Definition rec_done (c : sconf) : Prop := Forall (λ t, st_todo t = []) (sc_tasks c).

(** All systems run, then the flush (schedule.hpp:79-97). *)
Definition recorded (i : nat) (bf : nat → nat) (scripts : list (list scmd)) (cs : cstate) (c : sconf) (cs' : cstate) (o : outcome unit) : Prop :=
  rtc (rec_step i bf) (rec_start scripts cs) c ∧ rec_done c ∧ flush U i (sc_state c) = (cs', o).
End run.
