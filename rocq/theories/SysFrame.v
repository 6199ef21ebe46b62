(** One run of a schedule (system/schedule.hpp:90-97, and the constructor with the initial stage, 76-85): the batches of its stages one after another, the systems of a
    batch beside each other, their bodies going over views of the registry and calling command_writers; behind them
    the flush. *)
From Verif Require Import Base Bits Layout HandlePool HandleSpec SparseMap HashTable Bitset ComponentSet Chunk Archetype Registry View
  RegSpec Command CommandSpec SysCommand ParEach SystemRun.

(** A running task and the calls of the command_writer that it made, with the handles that it got. *)
Record jtask := JTask { jt_th : sthread; jt_done : list (crec * handle) }.
(** The tasks of a batch and the program state. *)
Record jconf := JConf { jc_tasks : list jtask; jc_state : cstate }.
Definition at_cmd (x : sthread) : bool := match x with TAt (PCmd _ _) _ => true | _ => false end.

Section run.
Variable U : universe.

(** Any task may make the next step: one on the views of registry [i] (SystemRun.v), or a call of its command_writer,
    whose buffer is that of the thread the task runs on (SysCommand.v; system.hpp:274-276).  Simplification: the
    threads have registered their buffers before (command.hpp:37-47). *)
Inductive j_step (i : nat) (bf : nat → nat) : jconf → jconf → Prop :=
| JView c (j a : nat) x dn m r r' x' :
    jc_tasks c !! j = Some (JTask x dn) → at_cmd x = false → th_step U a x = Some m →
    cs_regs (jc_state c) !! i = Some r → m r = (r', Ok x') →
    j_step i bf c (JConf (<[j := JTask x' dn]> (jc_tasks c)) (CState (<[i := r']> (cs_regs (jc_state c))) (cs_bufs (jc_state c))))
| JCmd c (j : nat) a p out dn k cs' g :
    jc_tasks c !! j = Some (JTask (TAt (PCmd a p) out) dn) → inst (made dn) a = Some k →
    record1 U i (bf j) k (jc_state c) = (cs', Ok g) →
    j_step i bf c (JConf (<[j := JTask (TAt p (out ++ [a])) (dn ++ [(k, g)])]> (jc_tasks c)) cs').
Definition j_start (ps : list sprog) (cs : cstate) : jconf := JConf ((λ p, JTask (TAt p []) []) <$> ps) cs.
Definition j_done (c : jconf) : Prop := Forall (λ t, ∃ out, jt_th t = TAt PRet out) (jc_tasks c).

(** schedule.hpp:91-93 (and 81) with stage.hpp:153-157, without main-thread systems: the batches one after another, on any of
    the threads with a buffer, each ending in any of its final states; with the final tasks of all systems. *)
Inductive batches_run (i : nat) : list (list sprog) → cstate → list jtask → cstate → Prop :=
| BRnil cs : batches_run i [] cs [] cs
| BRcons bf ps pss cs c ts cs' :
    (∀ j, j < length ps → bf j < length (cs_bufs cs)) → rtc (j_step i bf) (j_start ps cs) c → j_done c →
    batches_run i pss (jc_state c) ts cs' → batches_run i (ps :: pss) cs (jc_tasks c ++ ts) cs'.

(** schedule.hpp:90-97: run_once; lines 76-85: the constructor, with the batches of the initial stage. *)
Definition frame_run (i : nat) (pss : list (list sprog)) (cs : cstate) (ts : list jtask) (cs' : cstate) (o : outcome unit) : Prop :=
  ∃ cs1, batches_run i pss cs ts cs1 ∧ flush U i cs1 = (cs', o).
End run.
