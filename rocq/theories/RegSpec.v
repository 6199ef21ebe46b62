(** Histories of registry operations, and the abstract machine they are compared with: a finite map from
    handles to component maps per registry. *)
From Verif Require Import Base Bits Layout HandlePool HandleSpec SparseMap HashTable Bitset ComponentSet Chunk Archetype Registry View.

Notation world := (gmap handle (gmap cid val)).

(** Operations of one registry.  [OClone] is base_registry::clone(ent), [OCloneInto] clone(ent, placeholder);
    [OGetOrInsert] also reads the returned reference. *)
Inductive rop :=
| OCreate (args : list (cid * val))
| ODestroy (h : handle)
| OSet (h : handle) (c : cid) (x : ctor)
| OGetOrInsert (h : handle) (c : cid) (x : ctor)
| ORemove (h : handle) (c : cid)
| OGet (h : handle) (c : cid)
| OHas (h : handle) (cs : list cid)
| OVisit (h : handle)
| OAlive (h : handle)
| OSize
| OClone (h : handle)
| OCloneInto (h ph : handle)
| OReserve
| OSync
| OEach (rq : list vreq) (f : callback)
| OSingle (rq : list vreq).

(** Operations of a program with several registries: on registry [i], or from registry [i] to registry [j]. *)
Inductive sop :=
| At (i : nat) (op : rop)
| Copy (i : nat) (h : handle) (j : nat)
| CopyInto (i : nat) (h : handle) (j : nat) (ph : handle)
| Move (i : nat) (h : handle) (j : nat)
| MoveInto (i : nat) (h : handle) (j : nat) (ph : handle).

Inductive rres :=
| RUnit
| RHandle (h : handle)
| RCell (x : cell)
| RBool (b : bool)
| RNum (n : N)
| RVisited (l : list (cid * cell))
| RCalls (l : vlog)
| RFound (x : option (list cell)).

Definition omap_out {A B} (f : A → B) (o : outcome A) : outcome B :=
  match o with Ok x => Ok (f x) | Throw e => Throw e | UB => UB end.
Definition mapM {S A B} (f : A → B) (m : M S A) : M S B := λ s, let '(s', o) := m s in (s', omap_out f o).

Section spec.
Variable U : universe.

(** The modelled code. *)
Definition run_rop (op : rop) : M registry rres :=
  match op with
  | OCreate args => mapM RHandle (rg_create U args)
  | ODestroy h => mapM (λ _, RUnit) (rg_destroy U h)
  | OSet h c x => mapM (λ _, RUnit) (rg_set U h c x)
  | OGetOrInsert h c x => mapM RCell (rg_get_or_insert U h c x)
  | ORemove h c => mapM (λ _, RUnit) (rg_remove U h c)
  | OGet h c => mapM RCell (rg_get h c)
  | OHas h cs => mapM RBool (rg_has h cs)
  | OVisit h => mapM RVisited (rg_visit h)
  | OAlive h => λ r, (r, Ok (RBool (rg_alive r h)))
  | OSize => λ r, (r, Ok (RNum (rg_size r)))
  | OClone h => mapM RHandle (rg_clone U h)
  | OCloneInto h ph => mapM RHandle (rg_clone_into U h ph)
  | OReserve => mapM RHandle rg_reserve
  | OSync => mapM (λ _, RUnit) rg_sync
  | OEach rq f => mapM RCalls (rg_each U rq f)
  | OSingle rq => mapM RFound (rg_single U rq)
  end.

Definition on_reg (i : nat) (m : M registry rres) : M (list registry) rres := λ rs,
  match rs !! i with
  | Some r => let '(r', o) := m r in (<[i := r']> rs, o)
  | None => (rs, UB)
  end.
Definition on_regs (i j : nat) (m : M (registry * registry) rres) : M (list registry) rres := λ rs,
  match rs !! i, rs !! j with
  | Some a, Some b => let '((a', b'), o) := m (a, b) in (<[j := b']> (<[i := a']> rs), o)
  | _, _ => (rs, UB)
  end.

Definition run_sop (op : sop) : M (list registry) rres :=
  match op with
  | At i op => on_reg i (run_rop op)
  | Copy i h j => on_regs i j (λ ab, let '(b', o) := mapM RHandle (rg_copy U ab.1 h) ab.2 in ((ab.1, b'), o))
  | CopyInto i h j ph => on_regs i j (λ ab, let '(b', o) := mapM RHandle (rg_copy_into U ab.1 h ph) ab.2 in ((ab.1, b'), o))
  | Move i h j => on_regs i j (mapM RHandle (rg_move U h))
  | MoveInto i h j ph => on_regs i j (mapM RHandle (rg_move_into U h ph))
  end.

(** * The abstract machine *)

(** The entities with their components; the handles returned to callers, destroyed, and reserved since the last sync;
    whether an operation threw insufficient_chunk_size, and whether one threw invalid_argument. *)
Record sreg := SReg {
  sr_world : world;
  sr_issued : list handle;
  sr_dead : list handle;
  sr_pending : list handle;
  sr_failed : bool;
  sr_leaky : bool }.

Definition sreg_init : sreg := SReg ∅ [] [] [] false false.

Definition with_world (s : sreg) (w : world) : sreg :=
  SReg w (sr_issued s) (sr_dead s) (sr_pending s) (sr_failed s) (sr_leaky s).
Definition issue (s : sreg) (h : handle) : sreg :=
  SReg (sr_world s) (h :: sr_issued s) (sr_dead s) (sr_pending s) (sr_failed s) (sr_leaky s).
Definition kill (s : sreg) (h : handle) : sreg :=
  SReg (delete h (sr_world s)) (sr_issued s) (h :: sr_dead s) (sr_pending s) (sr_failed s) (sr_leaky s).
Definition fail (s : sreg) : sreg :=
  SReg (sr_world s) (sr_issued s) (sr_dead s) (sr_pending s) true (sr_leaky s).
Definition leak (s : sreg) : sreg :=
  SReg (sr_world s) (sr_issued s) (sr_dead s) (sr_pending s) (sr_failed s) true.

(** Handed out and synced, and not destroyed. *)
Definition live (s : sreg) (h : handle) : Prop := h ∈ sr_issued s ∧ h ∉ sr_dead s ∧ h ∉ sr_pending s.
(** Live, but no entity was placed there. *)
Definition vacant (s : sreg) (h : handle) : Prop := live s h ∧ sr_world s !! h = None.

(** A component set whose types get no chunk layout, when listed in some order. *)
Definition refused (m : gmap cid val) : Prop :=
  ∃ cs, NoDup cs ∧ (∀ c, c ∈ cs ↔ is_Some (m !! c)) ∧ get_max_size (u_type U <$> cs) = None.

Definition copyable (m : gmap cid val) : Prop := ∀ c, is_Some (m !! c) → u_copyable U c = true.

(** An operation on a handle without an entity. *)
Definition missing (s : sreg) (h : handle) (o : outcome rres) : Prop :=
  ∃ e, o = Throw e ∧ (h ∈ sr_dead s → e = EntityNotFound) ∧ (live s h → e = OutOfRange) ∧
    (e = EntityNotFound ∨ e = OutOfRange).

(** What a callback is given for an entity, and what it leaves. *)
Definition arg_of (h : handle) (m : gmap cid val) (q : vreq) : option cell :=
  if decide (vr_cid q = u_ent U) then Some (CEnt h) else CVal <$> m !! vr_cid q.
Definition args_of (rq : list vreq) (e : handle * gmap cid val) : list cell := omap (arg_of e.1 e.2) rq.
Definition matches (rq : list vreq) (e : handle * gmap cid val) : Prop :=
  Forall (λ q, is_Some (arg_of e.1 e.2 q)) rq.
Definition assigned (rq : list vreq) (g : cid → option val) (m m' : gmap cid val) : Prop :=
  ∀ c, m' !! c = match m !! c, g c with
                 | Some v, Some v' => Some (if decide (VReq c true ∈ rq) then v' else v)
                 | x, _ => x
                 end.

(** [es] enumerates the matching entities of [w]. *)
Definition enumerates (rq : list vreq) (w : world) (es : list (handle * gmap cid val)) : Prop :=
  NoDup es.*1 ∧ ∀ h m, (h, m) ∈ es ↔ w !! h = Some m ∧ matches rq (h, m).

(** The callback [f] was run on the entities [es] of [w] in this order. *)
Definition called (rq : list vreq) (f : callback) (es : list (handle * gmap cid val)) (w w' : world) : Prop :=
  (∀ (k : nat) h m, es !! k = Some (h, m) →
     ∃ m', w' !! h = Some m' ∧ assigned rq (f (args_of rq <$> take k es) (args_of rq (h, m))) m m') ∧
  (∀ h, h ∉ es.*1 → w' !! h = w !! h).

Definition rnext (s : sreg) (op : rop) (o : outcome rres) (s' : sreg) : Prop :=
  let w := sr_world s in
  let at_entity (h : handle) (k : gmap cid val → Prop) :=
    match w !! h with Some m => k m | None => missing s h o ∧ s' = s end in
  match op with
  | OCreate args =>
      (∃ h, h ∉ sr_issued s ∧ o = Ok (RHandle h) ∧ s' = with_world (issue s h) (<[h := list_to_map args]> w)) ∨
      o = Throw InsufficientChunkSize ∧ get_max_size (u_type U <$> args.*1) = None ∧ s' = fail s
  | ODestroy h => at_entity h (λ _, o = Ok RUnit ∧ s' = kill s h)
  | OSet h c x => at_entity h (λ m,
      match x with
      | CtorOk v => o = Ok RUnit ∧ s' = with_world s (<[h := <[c := v]> m]> w) ∨
          o = Throw InsufficientChunkSize ∧ m !! c = None ∧ refused (<[c := v]> m) ∧ s' = fail s
      | CtorThrows => o = Throw CtorThrew ∧ s' = s
      end)
  | OGetOrInsert h c x => at_entity h (λ m,
      match m !! c, x with
      | Some v, _ => o = Ok (RCell (CVal v)) ∧ s' = s
      | None, CtorOk v => o = Ok (RCell (CVal v)) ∧ s' = with_world s (<[h := <[c := v]> m]> w) ∨
          o = Throw InsufficientChunkSize ∧ refused (<[c := v]> m) ∧ s' = fail s
      | None, CtorThrows => False
      end)
  | ORemove h c => at_entity h (λ m,
      o = Ok RUnit ∧ s' = with_world s (<[h := delete c m]> w) ∨
      o = Throw InsufficientChunkSize ∧ is_Some (m !! c) ∧ refused (delete c m) ∧ s' = fail s)
  | OGet h c => at_entity h (λ m,
      o = match m !! c with Some v => Ok (RCell (CVal v)) | None => Throw ComponentNotFound end ∧ s' = s)
  | OHas h cs => at_entity h (λ m, ∃ b, o = Ok (RBool b) ∧ (b = true ↔ ∀ c, c ∈ cs → is_Some (m !! c)) ∧ s' = s)
  | OVisit h => at_entity h (λ m,
      ∃ l, o = Ok (RVisited l) ∧ NoDup l ∧ (∀ c x, (c, x) ∈ l ↔ ∃ v, m !! c = Some v ∧ x = CVal v) ∧ s' = s)
  | OAlive h => ∃ b, o = Ok (RBool b) ∧ (h ∈ sr_dead s → b = false) ∧ (live s h → b = true) ∧ s' = s
  | OSize => o = Ok (RNum (N.of_nat (size w))) ∧ s' = s
  | OClone h => at_entity h (λ m,
      copyable m ∧ (∃ ph, ph ∉ sr_issued s ∧ o = Ok (RHandle ph) ∧ s' = with_world (issue s ph) (<[ph := m]> w)) ∨
      ¬ copyable m ∧ o = Throw InvalidArgument ∧ s' = leak s)
  | OCloneInto h ph => at_entity h (λ m,
      copyable m ∧ o = Ok (RHandle ph) ∧ s' = with_world s (<[ph := m]> w) ∨
      ¬ copyable m ∧ o = Throw InvalidArgument ∧ s' = leak s)
  | OReserve => ∃ h, h ∉ sr_issued s ∧ o = Ok (RHandle h) ∧
      s' = SReg w (h :: sr_issued s) (sr_dead s) (h :: sr_pending s) (sr_failed s) (sr_leaky s)
  | OSync => o = Ok RUnit ∧ s' = SReg w (sr_issued s) (sr_dead s) [] (sr_failed s) (sr_leaky s)
  | OEach rq f => ∃ es w', enumerates rq w es ∧ o = Ok (RCalls (args_of rq <$> es)) ∧ called rq f es w w' ∧ s' = with_world s w'
  | OSingle rq => s' = s ∧
      (o = Ok (RFound None) ∧ (∀ h m, w !! h = Some m → ¬ matches rq (h, m)) ∨
       ∃ h m, w !! h = Some m ∧ matches rq (h, m) ∧ o = Ok (RFound (Some (args_of rq (h, m)))))
  end.

Definition snext (ss : list sreg) (op : sop) (o : outcome rres) (ss' : list sreg) : Prop :=
  match op with
  | At i op => ∃ s s', ss !! i = Some s ∧ rnext s op o s' ∧ ss' = <[i := s']> ss
  | Copy i h j => ∃ a b, ss !! i = Some a ∧ ss !! j = Some b ∧
      match sr_world a !! h with
      | None => missing a h o ∧ ss' = ss
      | Some m =>
          copyable m ∧ (∃ ph, ph ∉ sr_issued b ∧ o = Ok (RHandle ph) ∧
            ss' = <[j := with_world (issue b ph) (<[ph := m]> (sr_world b))]> ss) ∨
          ¬ copyable m ∧ o = Throw InvalidArgument ∧ ss' = <[j := leak b]> ss
      end
  | CopyInto i h j ph => ∃ a b, ss !! i = Some a ∧ ss !! j = Some b ∧
      match sr_world a !! h with
      | None => missing a h o ∧ ss' = ss
      | Some m => copyable m ∧ o = Ok (RHandle ph) ∧ ss' = <[j := with_world b (<[ph := m]> (sr_world b))]> ss ∨
          ¬ copyable m ∧ o = Throw InvalidArgument ∧ ss' = <[j := leak b]> ss
      end
  | Move i h j => ∃ a b, ss !! i = Some a ∧ ss !! j = Some b ∧
      match sr_world a !! h with
      | None => missing a h o ∧ ss' = ss
      | Some m => ∃ ph, ph ∉ sr_issued b ∧ o = Ok (RHandle ph) ∧
          ss' = <[j := with_world (issue b ph) (<[ph := m]> (sr_world b))]> (<[i := kill a h]> ss)
      end
  | MoveInto i h j ph => ∃ a b, ss !! i = Some a ∧ ss !! j = Some b ∧
      match sr_world a !! h with
      | None => missing a h o ∧ ss' = ss
      | Some m => o = Ok (RHandle ph) ∧
          ss' = <[j := with_world b (<[ph := m]> (sr_world b))]> (<[i := kill a h]> ss)
      end
  end.

(** * Permitted calls *)

(** Any handle value may be given.  Component types of one call are distinct and
    none is [entity] (static_asserts of the library); creations and destructions do not overlap a
    reservation; placeholders are vacant.  A component constructor that throws may be used only where the
    component exists. *)
Definition permitted (s : sreg) (op : rop) : Prop :=
  match op with
  | OCreate args => sr_pending s = [] ∧ NoDup args.*1 ∧ u_ent U ∉ args.*1
  | ODestroy _ | OClone _ => sr_pending s = []
  | OSet h c x | OGetOrInsert h c x => c ≠ u_ent U ∧
      (x = CtorThrows → ∀ m, sr_world s !! h = Some m → is_Some (m !! c))
  | ORemove _ c | OGet _ c => c ≠ u_ent U
  | OHas _ _ | OVisit _ | OAlive _ | OSize | OReserve | OSync => True
  | OCloneInto _ ph => vacant s ph
  | OEach rq _ | OSingle rq => rq ≠ [] ∧ VReq (u_ent U) true ∉ rq
  end.
Definition spermitted (ss : list sreg) (op : sop) : Prop :=
  match op with
  | At i op => ∃ s, ss !! i = Some s ∧ permitted s op
  | Copy i h j => i ≠ j ∧ ∃ a b, ss !! i = Some a ∧ ss !! j = Some b ∧ sr_pending b = []
  | CopyInto i h j ph => i ≠ j ∧ ∃ a b, ss !! i = Some a ∧ ss !! j = Some b ∧ vacant b ph
  | Move i h j => i ≠ j ∧ ∃ a b, ss !! i = Some a ∧ ss !! j = Some b ∧ sr_pending a = [] ∧ sr_pending b = []
  | MoveInto i h j ph => i ≠ j ∧ ∃ a b, ss !! i = Some a ∧ ss !! j = Some b ∧ sr_pending a = [] ∧ vacant b ph
  end.

(** get reports the abstract components. *)
Definition agrees (r : registry) (s : sreg) : Prop := ∀ h m c, sr_world s !! h = Some m → c ≠ u_ent U →
  (rg_get h c r).2 = match m !! c with Some v => Ok (CVal v) | None => Throw ComponentNotFound end.

(** [reach n rs ss]: [n] permitted operations, none with undefined behaviour, lead from empty registries to
    [rs]; [ss] is a record of these operations by the abstract machine.  (The order in which a view
    visits entities is not determined by the abstract machine; the values stored by a callback that counts its
    calls depend on it.  Hence the record is required to agree with get.) *)
Inductive reach : nat → list registry → list sreg → Prop :=
| Reach0 k : reach 0 (replicate k rg_init) (replicate k sreg_init)
| ReachS n rs ss op rs' o ss' : reach n rs ss → spermitted ss op → run_sop op rs = (rs', o) → snext ss op o ss' →
    Forall2 agrees rs' ss' → reach (S n) rs' ss'.

(** A program going on from [rs] and [ss] with the calls and outcomes [l]. *)
Inductive steps : list registry → list sreg → list (sop * outcome rres) → list registry → list sreg → Prop :=
| Steps0 rs ss : steps rs ss [] rs ss
| StepsS rs ss op rs1 o ss1 l rs' ss' : spermitted ss op → run_sop op rs = (rs1, o) → snext ss op o ss1 →
    Forall2 agrees rs1 ss1 → steps rs1 ss1 l rs' ss' → steps rs ss ((op, o) :: l) rs' ss'.

(** Calls and outcomes, of the code and of the abstract machine. *)
Inductive executes : list registry → list (sop * outcome rres) → list registry → Prop :=
| Exec0 rs : executes rs [] rs
| ExecS rs l rs1 op rs' o : executes rs l rs1 → run_sop op rs1 = (rs', o) → executes rs (l ++ [(op, o)]) rs'.
Inductive accepts : list sreg → list (sop * outcome rres) → list sreg → Prop :=
| Accept0 ss : accepts ss [] ss
| AcceptS ss l ss1 op ss' o : accepts ss l ss1 → snext ss1 op o ss' → accepts ss (l ++ [(op, o)]) ss'.

(** Calls that may change component [c] of entity [h] of registry [i]. *)
Definition writes (i : nat) (h : handle) (c : cid) (op : sop) : Prop :=
  match op with
  | At i' op => i' = i ∧
      match op with
      | ODestroy h' => h' = h
      | OSet h' c' _ | ORemove h' c' => h' = h ∧ c' = c
      | OEach rq _ => VReq c true ∈ rq
      | _ => False
      end
  | Move i' h' _ | MoveInto i' h' _ _ => i' = i ∧ h' = h
  | _ => False
  end.

(** Calls that put an entity into registry [i], and calls that took one out. *)
Definition placed (i : nat) (x : sop * outcome rres) : bool :=
  match x with
  | (At j (OCreate _ | OClone _ | OCloneInto _ _), Ok _) => bool_decide (j = i)
  | ((Copy _ _ j | CopyInto _ _ j _ | Move _ _ j | MoveInto _ _ j _), Ok _) => bool_decide (j = i)
  | _ => false
  end.
Definition taken (i : nat) (x : sop * outcome rres) : bool :=
  match x with
  | (At j (ODestroy _), Ok _) | ((Move j _ _ | MoveInto j _ _ _), Ok _) => bool_decide (j = i)
  | _ => false
  end.

(** Registry [r] is one of the registries of a program, and [s] its record. *)
Definition reached (n : nat) (r : registry) (s : sreg) : Prop :=
  ∃ rs ss (i : nat), reach n rs ss ∧ rs !! i = Some r ∧ ss !! i = Some s.

(** alive, get and has give the same answers about [g] in both registries. *)
Definition same_obs (r r' : registry) (g : handle) : Prop :=
  rg_alive r' g = rg_alive r g ∧ (∀ c, c ≠ u_ent U → (rg_get g c r').2 = (rg_get g c r).2) ∧
  (∀ cs, (rg_has g cs r').2 = (rg_has g cs r).2).

(** All answers about handles handed out by [r], recorded in [s], are the same in [r']. *)
Definition all_same (s : sreg) (r r' : registry) : Prop :=
  (∀ g, g ∈ sr_issued s → g ∉ sr_pending s → same_obs r r' g) ∧ rg_size r' = rg_size r.
(** All answers but those about [h]. *)
Definition others_same (s : sreg) (h : handle) (r r' : registry) : Prop :=
  ∀ g, g ∈ sr_issued s → g ∉ sr_pending s → g ≠ h → same_obs r r' g.

(** * Where undefined behaviour may occur *)

(** Holes: an archetype with several chunks whose last chunk is empty. *)
Definition hole_free (r : registry) : Prop := ∀ (a : nat) ar k, rg_heap r !! a = Some ar →
  last (ar_chunks ar) = Some k → ck_size k = 0 → length (ar_chunks ar) ≤ 1.
Definition small (r : registry) : Prop := ∀ (a : nat) ar, rg_heap r !! a = Some ar → length (ar_chunks ar) ≤ 2.

(** The entity's row is not the last one of its chunk, and the last chunk of its archetype is empty. *)
Definition trapped (r : registry) (h : handle) : Prop := ∃ (a c i : nat) ar k l,
  (rg_location h r).2 = Ok (Loc (Some a) c i) ∧ rg_heap r !! a = Some ar ∧ ar_chunks ar !! c = Some k ∧ S i < ck_size k ∧
  last (ar_chunks ar) = Some l ∧ ck_size l = 0.
(** A null pointer in the table of archetypes. *)
Definition has_null (r : registry) : Prop := ∃ key, (key, None) ∈ ht_iter (rg_table r).

(** Taking such a row out of its archetype is dangerous; a view is dangerous with a null pointer, which needs an
    earlier insufficient_chunk_size. *)
Definition rhazard (r : registry) (s : sreg) (op : rop) : Prop :=
  match op with
  | ODestroy h => trapped r h ∧ ∃ m, sr_world s !! h = Some m
  | OSet h c _ | OGetOrInsert h c _ => trapped r h ∧ ∃ m, sr_world s !! h = Some m ∧ m !! c = None
  | ORemove h c => trapped r h ∧ ∃ m, sr_world s !! h = Some m ∧ is_Some (m !! c)
  | OEach _ _ | OSingle _ => has_null r ∧ sr_failed s = true
  | _ => False
  end.
Definition hazard (rs : list registry) (ss : list sreg) (op : sop) : Prop :=
  match op with
  | At i op => ∃ r s, rs !! i = Some r ∧ ss !! i = Some s ∧ rhazard r s op
  | Move i h _ | MoveInto i h _ _ => ∃ r s, rs !! i = Some r ∧ ss !! i = Some s ∧ trapped r h ∧ ∃ m, sr_world s !! h = Some m
  | _ => False
  end.
End spec.
