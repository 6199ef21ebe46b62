(** What recording commands and flushing them should do. *)
From Verif Require Import Base Bits Layout HandlePool HandleSpec SparseMap HashTable Bitset ComponentSet Chunk Archetype Registry View
  RegSpec Command.

(** Calls of the command writer, for one registry. *)
Inductive crec :=
| KCreate (args : list (cid * val))
| KClone (h : handle)
| KSet (h : handle) (c : cid) (v : val)
| KRemove (h : handle) (c : cid)
| KDestroy (h : handle).

Section spec.
Variable U : universe.

(** The modelled code: the call [k] for registry [i] on the thread with buffer [b]. *)
Definition record1 (i b : nat) (k : crec) : M cstate handle :=
  match k with
  | KCreate args => cw_create U b i args
  | KClone h => ce_clone U b i h
  | KSet h c v => ce_set U b h c v ;;! ret h
  | KRemove h c => ce_remove b h c ;;! ret h
  | KDestroy h => ce_destroy b h ;;! ret h
  end.

(** Histories: calls of the writers of the threads, and flushes of registry [i]. *)
Inductive cop :=
| CRec (b : nat) (k : crec)
| CFlush.
Definition run_cop (i : nat) (op : cop) : M cstate (option handle) :=
  match op with
  | CRec b k => let! g := record1 i b k in ret (Some g)
  | CFlush => flush U i ;;! ret None
  end.
(** An exception ends one call and the program goes on; undefined behaviour ends the program. *)
Fixpoint run_cops (i : nat) (ops : list cop) (cs : cstate) : cstate * list (outcome (option handle)) :=
  match ops with
  | [] => (cs, [])
  | op :: ops =>
      let '(cs1, o) := run_cop i op cs in
      match o with
      | UB => (cs1, [UB])
      | _ => let '(cs2, os) := run_cops i ops cs1 in (cs2, o :: os)
      end
  end.

(** A call may use any handles. *)
Definition usable (k : crec) : Prop :=
  match k with
  | KCreate args => NoDup args.*1 ∧ u_ent U ∉ args.*1
  | KClone _ | KDestroy _ => True
  | KSet _ c _ | KRemove _ c => c ≠ u_ent U
  end.
(** The entity a call is about. *)
Definition targets (k : crec) : option handle :=
  match k with KCreate _ => None | KClone h | KSet h _ _ | KRemove h _ | KDestroy h => Some h end.
(** Calls that make a new entity. *)
Definition makes (k : crec) : bool := match k with KCreate _ | KClone _ => true | _ => false end.
Definition made (l : list (crec * handle)) : list handle := (filter (λ x, makes x.1 = true) l).*2.

(** The operation executed at once on a map of entities; [g] is the handle of the new entity. *)
Definition absent (o : outcome unit) : Prop := o = Throw EntityNotFound ∨ o = Throw OutOfRange.
Definition direct (w : world) (k : crec) (g : handle) (o : outcome unit) (w' : world) : Prop :=
  let on (h : handle) (p : gmap cid val → Prop) := match w !! h with Some m => p m | None => absent o ∧ w' = w end in
  match k with
  | KCreate args => o = Ok tt ∧ w' = <[g := list_to_map args]> w
  | KClone h => on h (λ m, copyable U m ∧ o = Ok tt ∧ w' = <[g := m]> w ∨ ¬ copyable U m ∧ o = Throw InvalidArgument ∧ w' = w)
  | KSet h c v => on h (λ m, o = Ok tt ∧ w' = <[h := <[c := v]> m]> w ∨
      o = Throw InsufficientChunkSize ∧ m !! c = None ∧ refused U (<[c := v]> m) ∧ w' = w)
  | KRemove h c => on h (λ m, o = Ok tt ∧ w' = <[h := delete c m]> w ∨
      o = Throw InsufficientChunkSize ∧ is_Some (m !! c) ∧ refused U (delete c m) ∧ w' = w)
  | KDestroy h => on h (λ _, o = Ok tt ∧ w' = delete h w)
  end.

(** One after the other, until one throws; [rest] are the operations not reached. *)
Inductive directs : world → list (crec * handle) → list (crec * handle) → outcome unit → world → Prop :=
| Directs0 w : directs w [] [] (Ok tt) w
| DirectsOk w k g w1 l rest o w' : direct w k g (Ok tt) w1 → directs w1 l rest o w' → directs w ((k, g) :: l) rest o w'
| DirectsThrow w k g l e w' : direct w k g (Throw e) w' → directs w ((k, g) :: l) l (Throw e) w'.

(** Queue after queue, until an operation throws. *)
Inductive drained : world → list (list (crec * handle)) → list (list (crec * handle)) → outcome unit → world → Prop :=
| Drained0 w : drained w [] [] (Ok tt) w
| DrainedOk w q w1 qs qs' o w' : directs w q [] (Ok tt) w1 → drained w1 qs qs' o w' → drained w (q :: qs) ([] :: qs') o w'
| DrainedThrow w q rest e w' qs : directs w q rest (Throw e) w' → drained w (q :: qs) (rest :: qs) (Throw e) w'.

(** The abstract program: the entities of the registry, the handles it handed out, the calls queued for each thread
    with the handle each returned, and the number of leftover entities in the staging storage of each thread. *)
Record aprog := AProg {
  ap_world : world;
  ap_known : list handle;
  ap_queues : list (list (crec * handle));
  ap_left : list nat }.

Definition is_kset (k : crec) : bool := match k with KSet _ _ _ => true | _ => false end.
Definition is_kcreate (k : crec) : bool := match k with KCreate _ => true | _ => false end.

Definition cpermitted (a : aprog) (op : cop) : Prop :=
  match op with CRec b k => b < length (ap_queues a) ∧ usable k | CFlush => True end.
Definition cnext (a : aprog) (op : cop) (o : outcome (option handle)) (a' : aprog) : Prop :=
  match op with
  | CRec b k =>
      (∃ g, o = Ok (Some g) ∧ (if makes k then g ∉ ap_known a else targets k = Some g) ∧
         a' = AProg (ap_world a) (if makes k then g :: ap_known a else ap_known a) (alter (.++ [(k, g)]) b (ap_queues a))
                (if is_kset k then alter S b (ap_left a) else ap_left a)) ∨
      (∃ cs, o = Throw InsufficientChunkSize ∧ a' = a ∧ get_max_size (u_type U <$> cs) = None ∧
         match k with KCreate args => cs = args.*1 | KSet _ c _ => cs = [c] | _ => False end)
  | CFlush => ∃ o1 w' qs', drained (ap_world a) (ap_queues a) qs' o1 w' ∧ o = omap_out (λ _, None) o1 ∧
      a' = AProg w' (ap_known a) qs' (ap_left a)
  end.
Inductive cnexts : aprog → list cop → list (outcome (option handle)) → aprog → Prop :=
| CNexts0 a : cnexts a [] [] a
| CNexts1 a op o a1 ops os a' : cnext a op o a1 → cnexts a1 ops os a' → cnexts a (op :: ops) (o :: os) a'.

(** Every call of the history is permitted; there are [nb] threads. *)
Definition all_permitted (nb : nat) (ops : list cop) : Prop :=
  Forall (λ op, match op with CRec b k => b < nb ∧ usable k | CFlush => True end) ops.
(** Every call is about an entity whose handle was handed out before. *)
Fixpoint informed (known : list handle) (ops : list cop) (os : list (outcome (option handle))) : Prop :=
  match ops, os with
  | op :: ops, o :: os =>
      match op with CRec _ k => ∀ h, targets k = Some h → h ∈ known | CFlush => True end ∧
      informed (match o with Ok (Some g) => g :: known | _ => known end) ops os
  | _, _ => True
  end.

(** A program state and its abstraction; [n] bounds the number of registry operations so far. *)
Record ready (n i : nat) (cs : cstate) (ss : list sreg) (s : sreg) : Prop := {
  rd_reach : reach U n (cs_regs cs) ss;
  rd_rec : ss !! i = Some s;
  rd_bufs : ∀ (b : nat) x, cs_bufs cs !! b = Some x → cb_queue x = [] ∧ cb_live x = true ∧ cb_staging x ≠ i ∧
    ∃ t, ss !! cb_staging x = Some t ∧ sr_pending t = [];
  rd_nodup : NoDup (cb_staging <$> cs_bufs cs) }.
(** The entities in the staging registry of a buffer. *)
Definition staging_size (ss : list sreg) (x : buffer) : nat := default 0 ((size ∘ sr_world) <$> ss !! cb_staging x).
Definition aprog_of (cs : cstate) (ss : list sreg) (s : sreg) : aprog :=
  AProg (sr_world s) (sr_issued s) ((λ _, []) <$> cs_bufs cs) (staging_size ss <$> cs_bufs cs).
(** The program state [cs] after at most [n] registry operations is described by [a]: the registry holds the entities
    of [ap_world a]; every queue has the length given by [a]; every staging registry holds the leftover entities and
    one for each queued create. *)
Definition shows (n i : nat) (cs : cstate) (a : aprog) : Prop :=
  ∃ k ss s, k ≤ n ∧ reach U k (cs_regs cs) ss ∧ ss !! i = Some s ∧ sr_world s = ap_world a ∧ (∀ h, h ∈ ap_known a → h ∈ sr_issued s) ∧
    length (ap_queues a) = length (cs_bufs cs) ∧
    ∀ (b : nat) x, cs_bufs cs !! b = Some x → ∃ Q m, ap_queues a !! b = Some Q ∧ ap_left a !! b = Some m ∧
      length (cb_queue x) = length Q ∧ staging_size ss x = m + length (filter (λ y, is_kcreate y.1 = true) Q).
(** The registries [rs'] were left by a call with undefined behaviour, made in a reachable state of the kind described
    by [hazard] (C17, C18). *)
Definition stuck (rs' : list registry) : Prop :=
  ∃ m rs ss op, reach U m rs ss ∧ spermitted U ss op ∧ hazard rs ss op ∧ run_sop U op rs = (rs', UB).
End spec.
