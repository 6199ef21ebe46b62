(** Model of command.hpp: command buffers. *)
From Verif Require Import Base Bits Layout HandlePool SparseMap HashTable Bitset ComponentSet Chunk Archetype Registry View RegSpec.

(** command.hpp:67-147: the variant of commands.  The function objects of command_set and command_remove are
    given by the component type they were made for. *)
Inductive command :=
| CmdCreate (staged reserved : handle)
| CmdClone (h reserved : handle)
| CmdSet (staged h : handle) (c : cid)
| CmdRemove (h : handle) (c : cid)
| CmdDestroy (h : handle).

(** command.hpp:150-151: a thread's buffer; references to registries are positions in [cs_regs].  [cs_bufs] is the
    static _command_buffers (command.hpp:20-23, 37-39, 44-47), in registration order.  The buffer is thread_local: its
    thread's exit destroys it ([cb_live] becomes false, the staging registry is left aside), but its address stays in
    _command_buffers, since there is no destructor that removes it. *)
Record buffer := Buffer { cb_staging : nat; cb_queue : list command; cb_live : bool }.
Record cstate := CState { cs_regs : list registry; cs_bufs : list buffer }.

(** A call on a registry. *)
Definition on_regs_of {X} (m : M (list registry) X) : M cstate X := λ s,
  let '(rs, o) := m (cs_regs s) in (CState rs (cs_bufs s), o).
(** A reference to a buffer: undefined behaviour once the buffer is destroyed. *)
Definition cb_at (s : cstate) (b : nat) : option buffer :=
  match cs_bufs s !! b with Some x => if cb_live x then Some x else None | None => None end.
(** command.hpp:49-52. *)
Definition cb_push (b : nat) (c : command) : M cstate unit := λ s,
  match cb_at s b with
  | None => (s, UB)
  | Some x => (CState (cs_regs s) (<[b := Buffer (cb_staging x) (cb_queue x ++ [c]) true]> (cs_bufs s)), Ok tt)
  end.
(** command.hpp:54-56. *)
Definition cb_stage (b : nat) : M cstate nat := λ s, (s, match cb_at s b with Some x => Ok (cb_staging x) | None => UB end).
(** command.hpp:20-23: the end of the thread with buffer [b]. *)
Definition cb_exit (b : nat) : M cstate unit := λ s,
  match cb_at s b with
  | None => (s, UB)
  | Some x => (CState (cs_regs s) (<[b := Buffer (cb_staging x) [] false]> (cs_bufs s)), Ok tt)
  end.

Section command.
Variable U : universe.

Definition call (op : sop) : M (list registry) rres := run_sop U op.
Definition call_handle (op : sop) : M (list registry) handle :=
  let! x := call op in match x with RHandle h => ret h | _ => ub end.
Definition call_unit (op : sop) : M (list registry) unit := let! _ := call op in ret tt.

(** command.hpp:72-74, 86-88, 103-105 with 170-173, 120-122 with 183, 134-136.  Simplification: assigning from the
    rvalue of the staged component reads it, and marks it moved-from after set returned. *)
Definition exec_cmd (stg dst : nat) (c : command) : M (list registry) unit :=
  match c with
  | CmdCreate st rsv => call_unit (MoveInto stg st dst rsv)
  | CmdClone h rsv => call_unit (At dst (OCloneInto h rsv))
  | CmdSet st h c =>
      let! x := call (At stg (OGet st c)) in
      match x with
      | RCell (CVal v) =>
          call_unit (At dst (OSet h c (CtorOk v))) ;;!
          call_unit (At stg (OSet st c (CtorOk Moved)))
      | _ => ub
      end
  | CmdRemove h c => call_unit (At dst (ORemove h c))
  | CmdDestroy h => call_unit (At dst (ODestroy h))
  end.

(** command.hpp:58-65: the command leaves the queue before it is run.  The result is the registries, the rest of the
    queue and the outcome. *)
Fixpoint play (stg dst : nat) (q : list command) (rs : list registry) : list registry * list command * outcome unit :=
  match q with
  | [] => (rs, [], Ok tt)
  | c :: q =>
      match exec_cmd stg dst c rs with
      | (rs', Ok _) => play stg dst q rs'
      | (rs', o) => (rs', q, o)
      end
  end.

(** command.hpp:31-33. *)
Fixpoint play_all (dst : nat) (bs : list buffer) (rs : list registry) : list registry * list buffer * outcome unit :=
  match bs with
  | [] => (rs, [], Ok tt)
  | b :: bs =>
      if cb_live b then
        match play (cb_staging b) dst (cb_queue b) rs with
        | (rs', q, Ok _) =>
            let '(rs2, bs', o) := play_all dst bs rs' in (rs2, Buffer (cb_staging b) q true :: bs', o)
        | (rs', q, o) => (rs', Buffer (cb_staging b) q true :: bs, o)
        end
      else (rs, b :: bs, UB)
  end.

(** command.hpp:27-34. *)
Definition flush (dst : nat) : M cstate unit :=
  on_regs_of (call_unit (At dst OSync)) ;;!
  (λ s, let '(rs, bs, o) := play_all dst (cs_bufs s) (cs_regs s) in (CState rs bs, o)).

(** command.hpp:253-259: create on the thread with buffer [b], for registry [i]; the result is the entity of the
    returned reference. *)
Definition cw_create (b i : nat) (args : list (cid * val)) : M cstate handle :=
  let! g := on_regs_of (call_handle (At i OReserve)) in
  let! stg := cb_stage b in
  let! st := on_regs_of (call_handle (At stg (OCreate args))) in
  cb_push b (CmdCreate st g) ;;!
  ret g.

(** command.hpp:165-175; the component was built by the caller. *)
Definition ce_set (b : nat) (h : handle) (c : cid) (v : val) : M cstate unit :=
  let! stg := cb_stage b in
  let! st := on_regs_of (call_handle (At stg (OCreate [(c, v)]))) in
  cb_push b (CmdSet st h c).

(** command.hpp:180-185, 188-190 (and 263-265), 194-198. *)
Definition ce_remove (b : nat) (h : handle) (c : cid) : M cstate unit := cb_push b (CmdRemove h c).
Definition ce_destroy (b : nat) (h : handle) : M cstate unit := cb_push b (CmdDestroy h).
Definition ce_clone (b i : nat) (h : handle) : M cstate handle :=
  let! g := on_regs_of (call_handle (At i OReserve)) in
  cb_push b (CmdClone h g) ;;!
  ret g.
End command.
