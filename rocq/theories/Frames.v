(** Several runs of a schedule's executor (system/schedule.hpp:90-97), and what it takes for their result not to depend on the
    threads: bodies to which neither the order of a view's rows nor the choice of handles makes a difference. *)
From Verif Require Import Base Bits Layout HandlePool HandleSpec SparseMap HashTable Bitset ComponentSet Chunk Archetype Registry View
  RegSpec Command CommandSpec SysCommand SysCommandProofs ParEach SystemRun SysFrame PropSysFrame.
Local Open Scope nat_scope.

(** Calls of run_once one after another, none of which throws (schedule.hpp:90-97), with the tasks of each;
    [k] counts, for bodies that run one after another, the calls on views and five for every call of a command_writer
    and every flush. *)
Inductive frames_run (U : universe) (i : nat) (pss : list (list sprog)) : cstate → list (list jtask) → nat → cstate → Prop :=
| FR0 cs : frames_run U i pss cs [] 0 cs
| FRS cs r v r' ts cs1 tss k cs' :
    cs_regs cs !! i = Some r → progs_calls U (concat pss) r = (r', Ok v) →
    frame_run U i pss cs ts cs1 (Ok tt) → frames_run U i pss cs1 tss k cs' →
    frames_run U i pss cs (ts :: tss) (v + 5 * S (sum_list ((λ t, length (out_of (jt_th t))) <$> ts)) + k) cs'.
(** The calls of their command_writers that the tasks made. *)
Definition scripts_of (ts : list jtask) : list (list scmd) := (λ t, out_of (jt_th t)) <$> ts.

(** * Bodies *)

(** The handles that a body is given, renamed. *)
Definition cell_ren (f : handle → handle) (x : cell) : cell := match x with CEnt h => CEnt (f h) | CVal v => CVal v end.
Definition href_ren (f : handle → handle) (x : href) : href := match x with RKnown h => RKnown (f h) | ROwn m => ROwn m end.
Definition scmd_ren (f : handle → handle) (c : scmd) : scmd :=
  match c with
  | SCreate args => SCreate args
  | SClone x => SClone (href_ren f x)
  | SSet x c v => SSet (href_ren f x) c v
  | SRemove x c => SRemove (href_ren f x) c
  | SDestroy x => SDestroy (href_ren f x)
  end.

Definition script_ren (f : handle → handle) (b : list scmd) : list scmd := scmd_ren f <$> b.
Definition row_ren (f : handle → handle) (x : list cell) : list cell := cell_ren f <$> x.

(** Groups of calls one after another; a group refers to the entities that it made itself by their number in the group. *)
Definition href_shift (k : nat) (x : href) : href := match x with RKnown h => RKnown h | ROwn m => ROwn (k + m) end.
Definition scmd_shift (k : nat) (c : scmd) : scmd :=
  match c with
  | SCreate args => SCreate args
  | SClone x => SClone (href_shift k x)
  | SSet x c v => SSet (href_shift k x) c v
  | SRemove x c => SRemove (href_shift k x) c
  | SDestroy x => SDestroy (href_shift k x)
  end.
Definition scmd_makes (c : scmd) : bool := match c with SCreate _ | SClone _ => true | _ => false end.
Definition nmakes (l : list scmd) : nat := length (filter (λ c, scmd_makes c = true) l).
Fixpoint assemble_from (k : nat) (bs : list (list scmd)) : list scmd :=
  match bs with
  | [] => []
  | b :: bs => (scmd_shift k <$> b) ++ assemble_from (k + nmakes b) bs
  end.
Definition assemble (bs : list (list scmd)) : list scmd := assemble_from 0 bs.

(** The known entities that a call uses, and those that it changes. *)
Definition refers (c : scmd) (h : handle) : Prop :=
  match c with SCreate _ => False | SClone x | SSet x _ _ | SRemove x _ | SDestroy x => x = RKnown h end.
Definition changes (c : scmd) (h : handle) : Prop :=
  match c with SCreate _ | SClone _ => False | SSet x _ _ | SRemove x _ | SDestroy x => x = RKnown h end.
(** No group changes an entity, known before, that another one uses. *)
Definition separate (bs : list (list scmd)) : Prop :=
  ∀ (j j' : nat) b b' c c' h, j ≠ j' → bs !! j = Some b → bs !! j' = Some b' → c ∈ b → c' ∈ b' → changes c h → ¬ refers c' h.
(** The same calls: they are made of parts, one behind another, and every part of separate groups of calls, which may
    be in any order. *)
Definition script_sim (f : handle → handle) (l1 l2 : list scmd) : Prop :=
  ∃ Ls1 Ls2 : list (list (list scmd)), l1 = assemble (concat Ls1) ∧ l2 = assemble (concat Ls2) ∧ Forall separate Ls1 ∧
    Forall2 (λ bs1 bs2 : list (list scmd), bs2 ≡ₚ (script_ren f <$> bs1)) Ls1 Ls2.

(** No handle occurs in two rows. *)
Definition rows_distinct (log : vlog) : Prop :=
  ∀ (j j' : nat) x x' h, j ≠ j' → log !! j = Some x → log !! j' = Some x' → CEnt h ∈ x → CEnt h ∉ x'.

Definition rows_in (A : list handle) (log : vlog) : Prop := ∀ x h, x ∈ log → CEnt h ∈ x → h ∈ A.

(** Two bodies that do the same up to the renaming [f] of the handles [A], whatever order the rows of views have;
    [out1] and [out2] are their calls of the command_writer so far.  Callbacks have no memory; of what single()
    returns only its existence matters. *)
Inductive body_sim (A : list handle) (f : handle → handle) : sprog → list scmd → sprog → list scmd → Prop :=
| SimRet out1 out2 : script_sim f out1 out2 → body_sim A f PRet out1 PRet out2
| SimEach rq g1 g2 k1 k2 out1 out2 :
    (∀ l1 l2 x c, rows_in A [x] → g2 l2 (row_ren f x) c = g1 l1 x c) →
    (∀ log1 log2 : vlog, rows_in A log1 → rows_distinct log1 → log2 ≡ₚ (row_ren f <$> log1) → body_sim A f (k1 log1) out1 (k2 log2) out2) →
    body_sim A f (PEach rq g1 k1) out1 (PEach rq g2 k2) out2
| SimSingle rq k1 k2 out1 out2 :
    (∀ x1 x2, is_Some x1 ↔ is_Some x2 → body_sim A f (k1 x1) out1 (k2 x2) out2) →
    body_sim A f (PSingle rq k1) out1 (PSingle rq k2) out2
| SimPar nw1 nw2 rq g1 g2 k1 k2 out1 out2 :
    (∀ x c, rows_in A [x] → g2 (row_ren f x) c = g1 x c) → body_sim A f k1 out1 k2 out2 →
    body_sim A f (PPar nw1 rq g1 k1) out1 (PPar nw2 rq g2 k2) out2
| SimCmd1 c k1 out1 p2 out2 : body_sim A f k1 (out1 ++ [c]) p2 out2 → body_sim A f (PCmd c k1) out1 p2 out2
| SimCmd2 p1 out1 c k2 out2 : body_sim A f p1 out1 k2 (out2 ++ [c]) → body_sim A f p1 out1 (PCmd c k2) out2.

(** The body, which may know the handles [known], does the same for every order of the rows and every choice of the other handles. *)
Definition blind (known : list handle) (p : sprog) : Prop :=
  ∀ A f, known ⊆ A → inj_on A f → (∀ h, h ∈ known → f h = h) → body_sim A f p [] p [].

(** The static requirements on create, set and remove. *)
Definition scmd_typed (U : universe) (c : scmd) : Prop :=
  match c with SCreate args => NoDup args.*1 ∧ u_ent U ∉ args.*1 | SSet _ c _ | SRemove _ c => c ≠ u_ent U | _ => True end.
Fixpoint typed (U : universe) (p : sprog) : Prop :=
  match p with
  | PRet => True
  | PEach _ _ k => ∀ log, typed U (k log)
  | PSingle _ k => ∀ x, typed U (k x)
  | PPar _ _ _ k => typed U k
  | PCmd c k => scmd_typed U c ∧ typed U k
  end.

(** What a body may do with the rows of a view that it went over: the calls [b x] for every row [x]. *)
Fixpoint prog_of (l : list scmd) (p : sprog) : sprog := match l with [] => p | c :: l => PCmd c (prog_of l p) end.
