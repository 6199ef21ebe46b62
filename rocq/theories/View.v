(** Model of view.hpp:38-190 and of chunk_view (chunk.hpp:344-464). *)
From Verif Require Import Base Bits Layout HandlePool SparseMap HashTable Bitset ComponentSet Chunk Archetype Registry.

(** A requested reference C& or const C&. *)
Record vreq := VReq { vr_cid : cid; vr_mut : bool }.

Global Instance vreq_eq_dec : EqDecision vreq.
Proof. solve_decision. Defined.

(** The arguments of all calls of the callback so far. *)
Notation vlog := (list (list cell)).

(** A callback: from the earlier calls and the arguments of this call, the value assigned to every requested
    mutable component (None: it is not assigned).  Simplifications: a callback reads all its arguments
    before it assigns any, does not throw, and does not use the registry. *)
Notation callback := (vlog → list cell → cid → option val).

Section view.
Variable U : universe.

(** chunk.hpp:376-378: the pointers of an iterator at row [i]. *)
Fixpoint it_new (bl : blocks) (rq : list vreq) (i : nat) : M chunk (list N) :=
  match rq with
  | [] => ret []
  | q :: rq =>
      let! p := fetch_pointer bl (vr_cid q) i in
      let! ps := it_new bl rq i in
      ret (p :: ps)
  end.

(** chunk.hpp:397-400: every pointer advances by the size of its type. *)
Definition it_incr (rq : list vreq) (ps : list N) : list N :=
  zip_with (λ q p, (p + ct_size (u_type U (vr_cid q)))%N) rq ps.

(** chunk.hpp:424-426: equality looks at the first pointers only. *)
Definition it_eqb (ps qs : list N) : bool := bool_decide (head ps = head qs).

(** chunk.hpp:416-418 and the reads of the callback. *)
Fixpoint it_deref (ps : list N) : M chunk (list cell) :=
  match ps with
  | [] => ret []
  | p :: ps =>
      let! x := read_obj p in
      let! xs := it_deref ps in
      ret (x :: xs)
  end.

(** std::apply(func, entry). *)
Definition vw_call (rq : list vreq) (f : callback) (log : vlog) (ps : list N) : M chunk vlog :=
  let! xs := it_deref ps in
  forM (zip rq ps) (λ qp,
    if vr_mut qp.1 then
      match f log xs (vr_cid qp.1) with
      | Some v => assign_obj qp.2 (CVal v)
      | None => ret tt
      end
    else ret tt) ;;!
  ret (log ++ [xs]).

(** The loop over one chunk (view.hpp:110-112, 124-126); running out of fuel is an endless loop. *)
Fixpoint vw_rows (fuel : nat) (rq : list vreq) (f : callback) (ps e : list N) (log : vlog) : M chunk vlog :=
  match fuel with
  | 0 => ub
  | S n =>
      if it_eqb ps e then ret log
      else
        let! log' := vw_call rq f log ps in
        vw_rows n rq f (it_incr rq ps) e log'
  end.

(** chunk.hpp:449-458: begin and end. *)
Definition vw_chunk (bl : blocks) (rq : list vreq) (f : callback) (log : vlog) : M chunk vlog :=
  let! k := get in
  let! b := it_new bl rq 0 in
  let! e := it_new bl rq (ck_size k) in
  vw_rows (S (ck_size k)) rq f b e log.

(** The first entry of a chunk (view.hpp:66-69). *)
Definition vw_first (bl : blocks) (rq : list vreq) : M chunk (option (list cell)) :=
  let! k := get in
  let! b := it_new bl rq 0 in
  let! e := it_new bl rq (ck_size k) in
  if it_eqb b e then ret None else let! xs := it_deref b in ret (Some xs).

(** view.hpp:164-171. *)
Definition vw_match (ar : archetype) (c : cid) : bool := bool_decide (c = u_ent U) || ar_contains ar c.

(** view.hpp:173-188 and the outer loop: the archetypes in table order, their chunks in order.  A null
    pointer in the table is dereferenced by the filter or by chunks(). *)
Fixpoint vw_chunks (p : option nat) (bl : blocks) (rq : list vreq) (f : callback) (js : list nat) (log : vlog) : M registry vlog :=
  match js with
  | [] => ret log
  | j :: js =>
      let! log' := on_arch p (on_chunk j (vw_chunk bl rq f log)) in
      vw_chunks p bl rq f js log'
  end.
Fixpoint vw_archs (rq : list vreq) (f : callback) (l : list (bitset * option nat)) (log : vlog) : M registry vlog :=
  match l with
  | [] => ret log
  | e :: l =>
      let! ar := rg_arch e.2 in
      let! log' := (if forallb (vw_match ar) (vr_cid <$> rq)
                    then vw_chunks e.2 (ar_blocks ar) rq f (seq 0 (length (ar_chunks ar))) log
                    else ret log) in
      vw_archs rq f l log'
  end.

(** view.hpp:106-113 (and 119-127): each(func).  The range returned by each() (view.hpp:89-101) visits the
    same entries in the same order, so a range-based for over it with the callback as body is this loop, too.
    registry::each (registry.hpp:152-170) calls it. The result is the list of all calls. *)
Definition rg_each (rq : list vreq) (f : callback) : M registry vlog :=
  let! r := get in vw_archs rq f (ht_iter (rg_table r)) [].

(** view.hpp:63-86 and registry.hpp:107-125: single(). *)
Fixpoint vs_chunks (p : option nat) (bl : blocks) (rq : list vreq) (js : list nat) : M registry (option (list cell)) :=
  match js with
  | [] => ret None
  | j :: js =>
      let! x := on_arch p (on_chunk j (vw_first bl rq)) in
      match x with Some xs => ret (Some xs) | None => vs_chunks p bl rq js end
  end.
Fixpoint vs_archs (rq : list vreq) (l : list (bitset * option nat)) : M registry (option (list cell)) :=
  match l with
  | [] => ret None
  | e :: l =>
      let! ar := rg_arch e.2 in
      let! x := (if forallb (vw_match ar) (vr_cid <$> rq)
                 then vs_chunks e.2 (ar_blocks ar) rq (seq 0 (length (ar_chunks ar)))
                 else ret None) in
      match x with Some xs => ret (Some xs) | None => vs_archs rq l end
  end.
Definition rg_single (rq : list vreq) : M registry (option (list cell)) :=
  let! r := get in vs_archs rq (ht_iter (rg_table r)).
End view.
