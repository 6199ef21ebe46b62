(** command.hpp:27-34 and 58-65 when the components that a command destroys, copies or moves use command_writers
    themselves (command.hpp:231-271), on the thread that flushes. *)
From Verif Require Import Base Bits Layout HandlePool SparseMap HashTable Bitset ComponentSet Chunk Archetype Registry View RegSpec Command CommandSpec.

(** Inside the loop of lines 31-33: the position in _command_buffers; the executed commands with the positions of their
    buffers; and the commands recorded meanwhile, with the position of the buffer that was being played. *)
Record hconf := HConf { hf_at : nat; hf_state : cstate; hf_run : list (nat * command); hf_rec : list (nat * command) }.
Definition queue_of (cs : cstate) (b : nat) : list command := default [] (cb_queue <$> cs_bufs cs !! b).
(** command.hpp:60-61. *)
Definition pop_cmd (b : nat) (cs : cstate) : cstate :=
  CState (cs_regs cs) (alter (λ x, Buffer (cb_staging x) (tail (cb_queue x)) (cb_live x)) b (cs_bufs cs)).

Section hook.
Variable U : universe.

Fixpoint record_all (i b : nat) (ks : list crec) : M cstate unit :=
  match ks with [] => ret tt | k :: ks => record1 U i b k ;;! record_all i b ks end.

(** What the components' functions do: [hook c] are the calls of command_writers that they make when command [c] is
    executed.  [me] is the buffer of the thread that flushes.  If it has none yet, the constructor of the buffer locks the
    mutex that flush holds (lines 30 and 45): undefined behaviour.  Simplification: the calls are made before the rest of
    the command; in the destruction of an entity the components go first as well (base_registry.hpp:59, 66: the entity's row is
    erased before its handle is recycled). *)
Definition run_hook (i : nat) (me : option nat) (ks : list crec) : M cstate unit :=
  match ks, me with
  | [], _ => ret tt
  | _, None => ub
  | _, Some b => record_all i b ks
  end.
(** One round of the loops; [Ok None] when the outer loop has ended. *)
Definition hook_step (i : nat) (me : option nat) (hook : command → list crec) (h : hconf) : outcome (option hconf) :=
  match cs_bufs (hf_state h) !! hf_at h with
  | None => Ok None
  | Some x =>
    if cb_live x then
      match cb_queue x with
      | [] => Ok (Some (HConf (S (hf_at h)) (hf_state h) (hf_run h) (hf_rec h)))
      | c :: _ =>
        let cs1 := pop_cmd (hf_at h) (hf_state h) in
        match run_hook i me (hook c) cs1 with
        | (cs2, Ok _) =>
          let new := match me with Some b => drop (length (queue_of cs1 b)) (queue_of cs2 b) | None => [] end in
          match exec_cmd U (cb_staging x) i c (cs_regs cs2) with
          | (rs, Ok _) => Ok (Some (HConf (hf_at h) (CState rs (cs_bufs cs2)) (hf_run h ++ [(hf_at h, c)]) (hf_rec h ++ (pair (hf_at h) <$> new))))
          | (_, Throw e) => Throw e
          | (_, UB) => UB
          end
        | (_, Throw e) => Throw e
        | (_, UB) => UB
        end
      end
    else UB
  end.
(** command.hpp:28: the flush begins with sync. *)
Definition hook_start (i : nat) (cs : cstate) : hconf := HConf 0 (on_regs_of (call_unit U (At i OSync)) cs).1 [] [].
Inductive hook_reach (i : nat) (me : option nat) (hook : command → list crec) (cs : cstate) : hconf → Prop :=
| HRstart : hook_reach i me hook cs (hook_start i cs)
| HRstep h h' : hook_reach i me hook cs h → hook_step i me hook h = Ok (Some h') → hook_reach i me hook cs h'.
End hook.
