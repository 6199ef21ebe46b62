(** Model of archetypes (archetype.hpp:291-435), base_registry.hpp, registry.hpp and entity_ref.hpp. *)
From Verif Require Import Base Bits Layout HandlePool SparseMap HashTable Bitset ComponentSet Chunk Archetype.

(** base_registry.hpp:293-295 and archetype.hpp:432-434.  Archetypes live on the heap; a unique_ptr in the
    table is a position of [rg_heap] or null. *)
Record registry := Registry {
  rg_pool : pool;
  rg_heap : list archetype;
  rg_table : htab bitset (option nat);
  rg_search : bitset;
  rg_locs : smap loc }.

Definition rg_init : registry := Registry pool_init [] ht_init bs_init sm_init.

(** The value-initialised entity_location. *)
Definition null_loc : loc := Loc None 0 0.

Definition rg_set_heap (r : registry) (x : list archetype) : registry :=
  Registry (rg_pool r) x (rg_table r) (rg_search r) (rg_locs r).
Definition rg_set_table (r : registry) (x : htab bitset (option nat)) : registry :=
  Registry (rg_pool r) (rg_heap r) x (rg_search r) (rg_locs r).
Definition rg_set_search (r : registry) (x : bitset) : registry :=
  Registry (rg_pool r) (rg_heap r) (rg_table r) x (rg_locs r).
Definition rg_set_locs (r : registry) (x : smap loc) : registry :=
  Registry (rg_pool r) (rg_heap r) (rg_table r) (rg_search r) x.
Definition rg_set_pool (r : registry) (x : pool) : registry :=
  Registry x (rg_heap r) (rg_table r) (rg_search r) (rg_locs r).

(** Dereferencing an archetype pointer. *)
Definition on_arch {X} (p : option nat) (m : M archetype X) : M registry X := λ r,
  match p with
  | None => (r, UB)
  | Some a =>
      match rg_heap r !! a with
      | None => (r, UB)
      | Some ar => let '(ar', o) := m ar in (rg_set_heap r (<[a := ar']> (rg_heap r)), o)
      end
  end.

(** Two different archetypes at once; one archetype twice is outside the model. *)
Definition on_arch2 {X} (p : option nat) (q : option nat) (m : M (archetype * archetype) X) : M registry X := λ r,
  match p, q with
  | Some a, Some b =>
      if decide (a = b) then (r, UB)
      else
        match rg_heap r !! a, rg_heap r !! b with
        | Some x, Some y =>
            let '((x', y'), o) := m (x, y) in
            (rg_set_heap r (<[b := y']> (<[a := x']> (rg_heap r))), o)
        | _, _ => (r, UB)
        end
  | _, _ => (r, UB)
  end.

(** base_registry.hpp:45-47, 205-207, 98-100, 104-106 and handle_pool::recycle. *)
Definition rg_alive (r : registry) (h : handle) : bool := pool_alive (rg_pool r) h.
Definition rg_allocate : M registry handle := λ r,
  let '(p, o) := pool_create (rg_pool r) in (rg_set_pool r p, o).
Definition rg_reserve : M registry handle := λ r,
  let '(p, o) := pool_reserve (rg_pool r) in (rg_set_pool r p, o).
Definition rg_sync : M registry unit := λ r, (rg_set_pool r (pool_flush (rg_pool r)), Ok tt).
Definition rg_recycle (h : handle) : M registry unit := λ r,
  (rg_set_pool r (pool_recycle (rg_pool r) h), Ok tt).

(** base_registry.hpp:268-282: entity_not_found for a dead handle, std::out_of_range when the map has no
    entry.  Simplification: the location is returned by value. *)
Definition rg_location (h : handle) : M registry loc := λ r,
  if rg_alive r h then
    match sm_at (rg_locs r) (h_id h) with
    | None => (r, UB)
    | Some None => (r, Throw OutOfRange)
    | Some (Some l) => (r, Ok l)
    end
  else (r, Throw EntityNotFound).

(** base_registry.hpp:284-290. *)
Definition rg_set_location (id : N) (l : loc) : M registry unit := λ r,
  match sm_assign w32 null_loc (rg_locs r) id l with
  | None => (r, UB)
  | Some m => (rg_set_locs r m, Ok tt)
  end.
Definition rg_remove_location (id : N) : M registry unit := λ r,
  match sm_erase w32 (rg_locs r) id with
  | None => (r, UB)
  | Some (m, _) => (rg_set_locs r m, Ok tt)
  end.

Section registry.
Variable U : universe.

(** archetype.hpp:307-313, 325-331, 344-350, 363-369: find or create the entry for [key]; operator[] inserts
    a null pointer first, and a failed construction leaves it there. *)
Definition rg_ensure_key (key : bitset) (mk : meta_set) : M registry nat := λ r,
  match ht_index bs_hash None (rg_table r) key with
  | None => (r, UB)
  | Some (t, i) =>
      match ht_deref t i with
      | None => (r, UB)
      | Some (Some a) =>
          let r' := rg_set_table r t in
          match rg_heap r !! a with
          | None => (r', UB)
          | Some ar => if bs_eqb (ms_ids (ar_comps ar)) key then (r', Ok a) else (r', UB)
          end
      | Some None =>
          match ar_new U mk with
          | Throw e => (rg_set_table r t, Throw e)
          | UB => (rg_set_table r t, UB)
          | Ok ar =>
              match ht_store t i (Some (length (rg_heap r))) with
              | None => (rg_set_table r t, UB)
              | Some t' =>
                  let r' := rg_set_heap (rg_set_table r t') (rg_heap r ++ [ar]) in
                  if bs_eqb (ms_ids (ar_comps ar)) key then (r', Ok (length (rg_heap r))) else (r', UB)
              end
          end
      end
  end.

(** The member _search_component_set is the key of the lookups below. *)
Definition rg_with_search (f : bitset → bitset) (mk : meta_set) : M registry nat :=
  let! r := get in
  put (rg_set_search r (f (rg_search r))) ;;!
  rg_ensure_key (f (rg_search r)) mk.

(** archetype.hpp:306-314. *)
Definition rg_ensure (s : meta_set) : M registry nat := rg_ensure_key (ms_ids s) s.

(** archetype.hpp:320-332. *)
Definition rg_ensure_list (cs : list cid) : M registry nat :=
  rg_with_search (λ s, fold_left (λ b c, bs_set b c true) cs (bs_clear s)) (ms_create cs).

(** archetype.hpp:339-351 and 412-417, for one component. *)
Definition rg_ensure_added (anchor : archetype) (c : cid) : M registry nat :=
  rg_with_search (λ _, bs_set (ms_ids (ar_comps anchor)) c true) (ms_insert (ar_comps anchor) c).

(** archetype.hpp:358-370 and 419-424, for one component. *)
Definition rg_ensure_removed (anchor : archetype) (c : cid) : M registry nat :=
  rg_with_search (λ _, bs_set (ms_ids (ar_comps anchor)) c false) (ms_erase (ar_comps anchor) c).

(** base_registry.hpp:140-150; registry.hpp:39-41 wraps the handle in an entity_ref. *)
Definition rg_create (args : list (cid * val)) : M registry handle :=
  let! h := rg_allocate in
  let! a := rg_ensure_list args.*1 in
  let! p := on_arch (Some a) (ar_emplace U h args) in
  rg_set_location (h_id h) (Loc (Some a) p.1 p.2) ;;!
  ret h.

(** base_registry.hpp:55-67. *)
Definition rg_destroy (h : handle) : M registry unit :=
  let! l := rg_location h in
  let! moved := on_arch (lc_arch l) (ar_swap_erase U (lc_chunk l) (lc_row l)) in
  rg_remove_location (h_id h) ;;!
  (match moved with Some g => rg_set_location (h_id g) l | None => ret tt end) ;;!
  rg_recycle h.

(** Reading a pointer to an archetype. *)
Definition rg_arch (p : option nat) : M registry archetype := on_arch p get.

(** base_registry.hpp:152-174: whether the component was added, and the place of the component.
    Simplifications: the reference [location] is a copy, which is the same because set_location of the moved
    entity, whose entry exists, does not touch the entry of [ent]; the store to location.archetype
    (line 169) is overwritten by the next line. *)
Definition rg_set_impl (h : handle) (c : cid) : M registry (bool * (nat * nat * N)) :=
  let! l := rg_location h in
  let! ar := rg_arch (lc_arch l) in
  if ar_contains ar c then
    let! off := on_arch (lc_arch l) (ar_ref c (lc_chunk l) (lc_row l)) in
    ret (false, (default 0 (lc_arch l), lc_chunk l, off))
  else
    let! b := rg_ensure_added ar c in
    let! r := on_arch2 (lc_arch l) (Some b) (ar_move U (lc_chunk l) (lc_row l)) in
    let! off := on_arch (Some b) (ar_ref c r.1.1 r.1.2) in
    (match r.2 with Some g => rg_set_location (h_id g) l | None => ret tt end) ;;!
    rg_set_location (h_id h) (Loc (Some b) r.1.1 r.1.2) ;;!
    ret (true, (b, r.1.1, off)).

(** Writing through the returned pointer. *)
Definition at_ptr {X} (p : nat * nat * N) (m : N → M chunk X) : M registry X :=
  on_arch (Some p.1.1) (on_chunk p.1.2 (m p.2)).

(** A constructor call C(args...): its value, or it throws. *)
Inductive ctor := CtorOk (v : val) | CtorThrows.

(** entity_ref.hpp:176-185.  A throwing constructor leaves the storage raw. *)
Definition rg_set (h : handle) (c : cid) (x : ctor) : M registry unit :=
  let! ip := rg_set_impl h c in
  match x with
  | CtorThrows => throw CtorThrew
  | CtorOk v =>
      at_ptr ip.2 (λ off, if ip.1 then construct_at off (CVal v) else assign_obj off (CVal v))
  end.

(** entity_ref.hpp:149-156, followed by a read of the returned reference. *)
Definition rg_get_or_insert (h : handle) (c : cid) (x : ctor) : M registry cell :=
  let! ip := rg_set_impl h c in
  (if (ip.1 : bool) then
     match x with
     | CtorThrows => throw CtorThrew
     | CtorOk v => at_ptr ip.2 (λ off, construct_at off (CVal v))
     end
   else ret tt) ;;!
  at_ptr ip.2 read_obj.

(** base_registry.hpp:176-192; simplifications as for [rg_set_impl]. *)
Definition rg_remove (h : handle) (c : cid) : M registry unit :=
  let! l := rg_location h in
  let! ar := rg_arch (lc_arch l) in
  if ar_contains ar c then
    let! b := rg_ensure_removed ar c in
    let! r := on_arch2 (lc_arch l) (Some b) (ar_move U (lc_chunk l) (lc_row l)) in
    (match r.2 with Some g => rg_set_location (h_id g) l | None => ret tt end) ;;!
    rg_set_location (h_id h) (Loc (Some b) r.1.1 r.1.2)
  else ret tt.

(** base_registry.hpp:194-203 and archetype.hpp:146-164: the object behind one reference. *)
Definition rg_get (h : handle) (c : cid) : M registry cell :=
  let! l := rg_location h in
  let! off := on_arch (lc_arch l) (ar_ref c (lc_chunk l) (lc_row l)) in
  on_arch (lc_arch l) (on_chunk (lc_chunk l) (read_obj off)).

(** base_registry.hpp:112-116. *)
Definition rg_has (h : handle) (cs : list cid) : M registry bool :=
  let! l := rg_location h in
  let! ar := rg_arch (lc_arch l) in
  ret (forallb (ar_contains ar) cs).

(** base_registry.hpp:121-134. *)
Definition rg_visit (h : handle) : M registry (list (cid * cell)) :=
  let! l := rg_location h in
  let! ar := rg_arch (lc_arch l) in
  λ r, (r, ar_visit ar (lc_chunk l) (lc_row l)).

(** registry.hpp:173-175. *)
Definition rg_size (r : registry) : N := sm_size (rg_locs r).

(** base_registry.hpp:232-235 and 249-252: overwriting the handle stored in a row. *)
Definition ar_put_entity (c i : nat) (h : handle) : M archetype unit :=
  let! a := get in
  let! b := blk_at (ar_blocks a) (u_ent U) in
  on_chunk c (assign_obj (addr b i) (CEnt h)).

(** base_registry.hpp:242-257: copy into the registry of the state; [src] is the source registry (the state
    itself for clone). *)
Definition rg_copy_into (src : registry) (h : handle) (ph : handle) : M registry handle :=
  let! l := (λ r, (r, (rg_location h src).2)) in
  let! ar := of_opt (a ← lc_arch l; rg_heap src !! a) in
  let! b := rg_ensure (ar_comps ar) in
  let! p := on_arch (Some b) (ar_copy U ar (lc_chunk l) (lc_row l)) in
  on_arch (Some b) (ar_put_entity p.1 p.2 ph) ;;!
  rg_set_location (h_id ph) (Loc (Some b) p.1 p.2) ;;!
  ret ph.

(** base_registry.hpp:214-216: the handle is allocated before the source is looked at. *)
Definition rg_copy (src : registry) (h : handle) : M registry handle :=
  let! ph := rg_allocate in rg_copy_into src h ph.

(** base_registry.hpp:259-265. *)
Definition rg_clone (h : handle) : M registry handle :=
  let! ph := rg_allocate in let! r := get in rg_copy_into r h ph.
Definition rg_clone_into (h ph : handle) : M registry handle :=
  let! r := get in rg_copy_into r h ph.

(** base_registry.hpp:218-240: the state is this registry and the destination, two different objects. *)
Definition rg_move_into (h ph : handle) : M (registry * registry) handle :=
  let! l := on_fst (rg_location h) in
  let! ar := on_fst (rg_arch (lc_arch l)) in
  let! b := on_snd (rg_ensure (ar_comps ar)) in
  let! r := (λ rs,
    match lc_arch l with
    | None => (rs, UB)
    | Some a =>
        match rg_heap rs.1 !! a, rg_heap rs.2 !! b with
        | Some x, Some y =>
            let '((x', y'), o) := ar_move U (lc_chunk l) (lc_row l) (x, y) in
            ((rg_set_heap rs.1 (<[a := x']> (rg_heap rs.1)),
              rg_set_heap rs.2 (<[b := y']> (rg_heap rs.2))), o)
        | _, _ => (rs, UB)
        end
    end) : M (registry * registry) (nat * nat * option handle) in
  on_fst (rg_remove_location (h_id h)) ;;!
  (match r.2 with
   | Some g => if decide (g = h) then ret tt else on_fst (rg_set_location (h_id g) l)
   | None => ret tt
   end) ;;!
  on_fst (rg_recycle h) ;;!
  on_snd (on_arch (Some b) (ar_put_entity r.1.1 r.1.2 ph)) ;;!
  on_snd (rg_set_location (h_id ph) (Loc (Some b) r.1.1 r.1.2)) ;;!
  ret ph.

(** base_registry.hpp:209-212. *)
Definition rg_move (h : handle) : M (registry * registry) handle :=
  let! ph := on_snd rg_allocate in rg_move_into h ph.

(** The destructor of the registry: archetypes are owned by the table, an archetype destroys its chunks
    (archetype.hpp:284-288, chunk.hpp:88-98). The result counts the objects never destroyed. *)
Fixpoint ks_destruct (bl : blocks) (ks : list chunk) : outcome nat :=
  match ks with
  | [] => Ok 0
  | k :: ks =>
      match ck_destruct bl k, ks_destruct bl ks with
      | (k', Ok _), Ok n => Ok (ck_leaked k' + n)
      | _, _ => UB
      end
  end.
Definition ar_destruct (a : archetype) : outcome nat :=
  match ks_destruct (ar_blocks a) (ar_chunks a) with Ok n => Ok (ar_lost a + n) | o => o end.
Fixpoint heap_destruct (heap : list archetype) (l : list (bitset * option nat)) : outcome nat :=
  match l with
  | [] => Ok 0
  | (_, None) :: l => heap_destruct heap l
  | (_, Some a) :: l =>
      match heap !! a with
      | None => UB
      | Some ar =>
          match ar_destruct ar, heap_destruct heap l with
          | Ok m, Ok n => Ok (m + n)
          | _, _ => UB
          end
      end
  end.
Definition rg_destruct (r : registry) : outcome nat := heap_destruct (rg_heap r) (ht_iter (rg_table r)).
End registry.
