(** Model of system/access.hpp and of the access patterns of systems in system/system.hpp. *)
From Verif Require Import Base HandlePool SparseMap.

(** access.hpp:10-14; the enumerators are ordered none < read < write. *)
Inductive access := ANone | ARead | AWrite.
Global Instance access_eq_dec : EqDecision access.
Proof. solve_decision. Defined.

(** std::max on the enumeration. *)
Definition access_max (a b : access) : access :=
  match a, b with
  | AWrite, _ | _, AWrite => AWrite
  | ARead, _ | _, ARead => ARead
  | ANone, ANone => ANone
  end.

(** access.hpp:132-134.  The sparse map has 32-bit keys (component_id_t). *)
Record pattern := Pat { ap_reg : access; ap_comp : smap access }.

(** access.hpp:24, 29 and 36-38. *)
Definition ap_empty : pattern := Pat ANone sm_init.
Definition ap_registry (a : access) : pattern := Pat a sm_init.
Definition ap_component (a : access) (c : N) : option pattern :=
  r ← sm_emplace w32 sm_init c a; Some (Pat ANone r.1).

(** access.hpp:61-63 and 69-71. *)
Definition writes_all (p : pattern) : bool := bool_decide (ap_reg p = AWrite).
Definition reads_all (p : pattern) : bool := bool_decide (ap_reg p ≠ ANone).

(** access.hpp:77-90. *)
Definition ap_writes (p : pattern) (c : N) : option bool :=
  if writes_all p then Some true
  else
    f ← sm_find (ap_comp p) c;
    match f with
    | Some s => e ← sm_dense (ap_comp p) !! N.to_nat s; Some (bool_decide (e.2 = AWrite))
    | None => Some false
    end.

(** access.hpp:96-106. *)
Definition ap_reads (p : pattern) (c : N) : option bool :=
  if reads_all p then Some true
  else f ← sm_find (ap_comp p) c; Some (bool_decide (is_Some f)).

(** access.hpp:49-53: the loop over the components of this pattern. *)
Fixpoint allows_loop (other : pattern) (l : list (N * access)) : option bool :=
  match l with
  | [] => Some true
  | (c, a) :: l =>
    r ← (if bool_decide (a = AWrite) then ap_reads other c else Some false);
    if (r : bool) then Some false
    else w ← ap_writes other c; if (w : bool) then Some false else allows_loop other l
  end.

(** access.hpp:44-56. *)
Definition ap_allows (p other : pattern) : option bool :=
  if (writes_all p && reads_all other) || (reads_all p && negb (reads_all other)) then Some false
  else allows_loop other (sm_dense (ap_comp p)).

(** access.hpp:125-127.  operator[] inserts [none] before the maximum is taken. *)
Fixpoint and_loop (m : smap access) (l : list (N * access)) : option (smap access) :=
  match l with
  | [] => Some m
  | (c, a) :: l =>
    r ← sm_emplace w32 m c ANone;
    e ← sm_dense r.1 !! N.to_nat r.2.1;
    m' ← sm_assign w32 ANone r.1 c (access_max a e.2);
    and_loop m' l
  end.

(** access.hpp:122-130 (and 112-116). *)
Definition ap_and (p q : pattern) : option pattern :=
  m ← and_loop (ap_comp p) (sm_dense (ap_comp q));
  Some (Pat (access_max (ap_reg p) (ap_reg q)) m).

(** Unary right fold [(x & ...)] over a non-empty pack: x1 & (x2 & (... & xn)). *)
Fixpoint ap_fold (l : list pattern) : option pattern :=
  match l with
  | [] => None
  | [p] => Some p
  | p :: l => q ← ap_fold l; ap_and p q
  end.

(** System parameters with a [system_argument_state_trait] (system.hpp:216-222, 252-259, 290-296,
    346-352); a view lists its components with their constness. *)
Inductive sysarg := ArgRegistry | ArgConstRegistry | ArgCommands | ArgView (cs : list (bool * N)).

(** system.hpp:208-210, 244-246 (unused, see below), 281-283 and 324-338.  A const registry& parameter
    uses the state class of registry& (system.hpp:257). *)
Definition arg_pattern (a : sysarg) : option pattern :=
  match a with
  | ArgRegistry | ArgConstRegistry => Some (ap_registry AWrite)
  | ArgCommands => Some ap_empty
  | ArgView cs =>
    ps ← mapM (λ x : bool * N, ap_component (if x.1 then ARead else AWrite) x.2) cs; ap_fold ps
  end.

(** system.hpp:84-90: the access pattern of a system with the given parameters. *)
Definition args_pattern (args : list sysarg) : option pattern :=
  match args with
  | [] => Some ap_empty
  | _ => ps ← mapM arg_pattern args; q ← ap_fold ps; ap_and ap_empty q
  end.
