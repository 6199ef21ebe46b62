(** Model of component.hpp: component_set and component_meta_set. *)
From Verif Require Import Base Bitset.

(** component_id_t, component.hpp:73.  A component type is identified with its id: component_meta compares
    by id only (component.hpp:163-174) and the id determines the type (type_registry, see TypeRegistry.v). *)
Notation cid := N.

(** component.hpp:276-406.  [ms_metas] is _components_meta in insertion order. *)
Record meta_set := MetaSet { ms_ids : bitset; ms_metas : list cid }.

Definition ms_init : meta_set := MetaSet bs_init [].

(** component.hpp:348-350 and 241-243. *)
Definition ms_contains (s : meta_set) (c : cid) : bool := bs_test (ms_ids s) c.

(** component.hpp:324-330. *)
Definition ms_insert (s : meta_set) (c : cid) : meta_set :=
  if ms_contains s c then s
  else MetaSet (bs_set (ms_ids s) c true) (ms_metas s ++ [c]).

(** component.hpp:335-341. *)
Definition ms_erase (s : meta_set) (c : cid) : meta_set :=
  if ms_contains s c then
    MetaSet (bs_set (ms_ids s) c false) (filter (λ x, x ≠ c) (ms_metas s))
  else s.

(** component.hpp:288-293. *)
Definition ms_create (cs : list cid) : meta_set := fold_left ms_insert cs ms_init.

(** component.hpp:355-357. *)
Definition ms_size (s : meta_set) : nat := length (ms_metas s).

Inductive ms_op := MsInsert (c : cid) | MsErase (c : cid).
Definition ms_step (s : meta_set) (o : ms_op) : meta_set :=
  match o with MsInsert c => ms_insert s c | MsErase c => ms_erase s c end.
Definition ms_run (os : list ms_op) : meta_set := fold_left ms_step os ms_init.
