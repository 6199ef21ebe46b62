(** Model of chunk.hpp: the typed memory of one chunk and the operations on its rows. *)
From Verif Require Import Base Bits Layout HandlePool SparseMap Bitset ComponentSet.

(** A component value.  Values are opaque codes: the library never looks inside them.  [Moved] is the
    valid but unspecified value left behind by a C++ move. *)
Inductive val := Val (n : N) | Moved.

(** An object stored in a chunk buffer: an entity handle or a component. *)
Inductive cell := CEnt (h : handle) | CVal (v : val).

Global Instance val_eq_dec : EqDecision val.
Proof. solve_decision. Defined.
Global Instance cell_eq_dec : EqDecision cell.
Proof. solve_decision. Defined.

(** The program's component types: size and alignment (type_meta.hpp:91-92), whether the type has a copy
    constructor (type_meta.hpp:35-42), and the id that type_registry gave to the entity type itself
    (archetype.hpp:179). *)
Record universe := Universe {
  u_type : cid → ctype;
  u_copyable : cid → bool;
  u_ent : cid }.

(** chunk.hpp:24-30: a block's offset and the id and type of its elements. *)
Record bmeta := BMeta { bm_id : cid; bm_block : block }.

(** chunk.hpp:32. *)
Notation blocks := (smap bmeta).

(** chunk.hpp:300-303.  The buffer is the map from byte offsets to the objects living there; an absent
    offset is raw memory.  Simplifications: an object is recorded at its first byte only (that objects do
    not overlap is claim C19, that they stay inside the buffer claim C20); _blocks is a parameter of the
    operations, because every chunk of an archetype points to the archetype's blocks.
    [ck_lost] is a ghost counter of objects whose storage was reused without running their destructor. *)
Record chunk := Chunk {
  ck_mem : gmap N cell;
  ck_size : nat;
  ck_max : nat;
  ck_lost : nat }.

(** chunk.hpp:54-56. *)
Definition ck_new (max : nat) : chunk := Chunk ∅ 0 max 0.

(** chunk.hpp:243-253. *)
Definition ck_full (k : chunk) : bool := bool_decide (ck_size k = ck_max k).
Definition ck_empty (k : chunk) : bool := bool_decide (ck_size k = 0).

Definition ck_set_size (n : nat) : M chunk unit := λ k,
  (Chunk (ck_mem k) n (ck_max k) (ck_lost k), Ok tt).

(** Address of row [i] of a block: chunk.hpp:94, 140, 161, 268, 287, 296. *)
Definition addr (b : bmeta) (i : nat) : N := cell_offset (bm_block b) (N.of_nat i).

(** std::construct_at.  Constructing over a live object is allowed by C++ but loses that object. *)
Definition construct_at (off : N) (c : cell) : M chunk unit := λ k,
  (Chunk (<[off := c]> (ck_mem k)) (ck_size k) (ck_max k)
     (match ck_mem k !! off with Some _ => S (ck_lost k) | None => ck_lost k end), Ok tt).

(** Destructor call; undefined on raw memory. *)
Definition destroy_obj (off : N) : M chunk unit := λ k,
  match ck_mem k !! off with
  | Some _ => (Chunk (delete off (ck_mem k)) (ck_size k) (ck_max k) (ck_lost k), Ok tt)
  | None => (k, UB)
  end.

(** Reading an object; undefined on raw memory. *)
Definition read_obj (off : N) : M chunk cell := λ k,
  match ck_mem k !! off with Some c => (k, Ok c) | None => (k, UB) end.

(** Assigning to an object; undefined on raw memory. *)
Definition assign_obj (off : N) (c : cell) : M chunk unit := λ k,
  match ck_mem k !! off with
  | Some _ => (Chunk (<[off := c]> (ck_mem k)) (ck_size k) (ck_max k) (ck_lost k), Ok tt)
  | None => (k, UB)
  end.

(** What a moved-from object holds; a handle is trivially copyable and keeps its value. *)
Definition moved_from (c : cell) : cell := match c with CEnt h => CEnt h | CVal _ => CVal Moved end.

(** std::move out of an object (the source half of type_meta.hpp:49-62). *)
Definition take_obj (off : N) : M chunk cell :=
  let! c := read_obj off in assign_obj off (moved_from c) ;;! ret c.

(** sparse_map::at on the blocks (chunk.hpp:290-292); throws std::out_of_range. *)
Definition blk_at {S} (bl : blocks) (c : cid) : M S bmeta :=
  match sm_at bl c with
  | None => ub
  | Some None => throw OutOfRange
  | Some (Some b) => ret b
  end.

(** sparse_map::find on the blocks and a dereference of the iterator (chunk.hpp:137). *)
Definition blk_find {S} (bl : blocks) (c : cid) : M S bmeta :=
  match sm_find bl c with
  | Some (Some i) => of_opt (snd <$> sm_dense bl !! N.to_nat i)
  | _ => ub
  end.

Section chunk.
Variable U : universe.

(** chunk.hpp:105-111. *)
Definition ck_emplace_back (bl : blocks) (h : handle) (args : list (cid * val)) : M chunk unit :=
  let! k := get in
  if ck_full k then ub
  else
    (let! b := blk_at bl (u_ent U) in construct_at (addr b (ck_size k)) (CEnt h)) ;;!
    forM args (λ cv,
      let! b := blk_at bl cv.1 in construct_at (addr b (ck_size k)) (CVal cv.2)) ;;!
    ck_set_size (S (ck_size k)).

(** chunk.hpp:294-298. *)
Definition ck_destroy_at (bl : blocks) (i : nat) : M chunk unit :=
  forM (sm_dense bl) (λ e, destroy_obj (addr e.2 i)).

(** chunk.hpp:114-118. *)
Definition ck_pop_back (bl : blocks) : M chunk unit :=
  let! k := get in
  if ck_empty k then ub
  else ck_set_size (ck_size k - 1) ;;! ck_destroy_at bl (ck_size k - 1).

(** chunk.hpp:88-98, the destructor (the buffer is not null: the chunk was not moved from). *)
Definition ck_destruct (bl : blocks) : M chunk unit :=
  let! k := get in
  forM (sm_dense bl) (λ e, forM (seq 0 (ck_size k)) (λ i, destroy_obj (addr e.2 i))).

(** Objects lost for good once the buffer is released. *)
Definition ck_leaked (k : chunk) : nat := ck_lost k + size (ck_mem k).

(** The lens from a pair of objects to its members. *)
Definition on_fst {A B X} (m : M A X) : M (A * B) X := λ s,
  let '(a, o) := m s.1 in ((a, s.2), o).
Definition on_snd {A B X} (m : M B X) : M (A * B) X := λ s,
  let '(b, o) := m s.2 in ((s.1, b), o).

(** chunk.hpp:151-165: the state is this chunk and the other one, two different objects. *)
Definition ck_move (sb db : blocks) (index : nat) : M (chunk * chunk) nat :=
  let! s := on_fst get in
  let! d := on_snd get in
  if decide (ck_size s ≤ index) then ub
  else if ck_full d then ub
  else
    forM (sm_dense sb) (λ e,
      match sm_contains db e.1 with
      | None => ub
      | Some false => ret tt
      | Some true =>
          let! b := blk_at db e.1 in
          let! x := on_fst (take_obj (addr e.2 index)) in
          on_snd (construct_at (b_offset (bm_block b) +
                    N.of_nat (ck_size d) * ct_size (b_type (bm_block e.2)))%N x)
      end) ;;!
    on_snd (ck_set_size (S (ck_size d))) ;;!
    ret (ck_size d).

(** type_meta.hpp:35-42: the copy constructor; copying a type without one throws. *)
Definition copy_value (c : cid) (x : cell) : M chunk cell :=
  if u_copyable U c then ret x else throw InvalidArgument.

(** chunk.hpp:172-188: the state is the other chunk.  Simplification: this chunk is read from a snapshot,
    also when both are the same object; the loop writes only row [_size] of the other chunk and reads only
    row [index], which is smaller than the size of this chunk. *)
Definition ck_copy (sb db : blocks) (s : chunk) (index : nat) : M chunk nat :=
  let! d := get in
  if decide (ck_size s ≤ index) then ub
  else if ck_full d then ub
  else
    forM (sm_dense sb) (λ e,
      match sm_contains db e.1 with
      | None => ub
      | Some false => ret tt
      | Some true =>
          let! b := blk_at db e.1 in
          let! x := of_opt (ck_mem s !! addr e.2 index) in
          let! y := copy_value e.1 x in
          construct_at (b_offset (bm_block b) +
            N.of_nat (ck_size d) * ct_size (b_type (bm_block e.2)))%N y
      end) ;;!
    ck_set_size (S (ck_size d)) ;;!
    ret (ck_size d).

(** chunk.hpp:258-271: the visitor is called with the id and the object of every block but the first.
    Simplification: the visitor reads the object and does not write it. *)
Definition ck_visit (bl : blocks) (k : chunk) (index : nat) : outcome (list (cid * cell)) :=
  if decide (ck_size k ≤ index) then UB
  else
    (fix go (l : list (N * bmeta)) : outcome (list (cid * cell)) :=
      match l with
      | [] => Ok []
      | e :: l =>
          match ck_mem k !! addr e.2 index with
          | None => UB
          | Some x => match go l with Ok r => Ok ((bm_id e.2, x) :: r) | o => o end
          end
      end) (drop 1 (sm_dense bl)).

(** chunk.hpp:284-292 and 306-338: the address of component [c] in row [i], or component_not_found. *)
Definition fetch_pointer {S} (bl : blocks) (c : cid) (i : nat) : M S N :=
  match sm_at bl c with
  | None => ub
  | Some None => throw ComponentNotFound
  | Some (Some b) => ret (addr b i)
  end.
End chunk.
