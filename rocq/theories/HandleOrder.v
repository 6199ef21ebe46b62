(** Comparison of handles. *)
From Verif Require Import Base HandlePool.

(** detail/handle.hpp:60: the defaulted operator<=> compares the members in the order of their declaration
    (handle.hpp:63-64), both as unsigned numbers. entity is an alias of handle (entity.hpp). *)
Definition handle_compare (a b : handle) : comparison :=
  match N.compare (h_id a) (h_id b) with
  | Eq => N.compare (h_gen a) (h_gen b)
  | c => c
  end.
(** a < b and a == b, which the language derives from it. *)
Definition handle_lt (a b : handle) : bool := match handle_compare a b with Lt => true | _ => false end.
Definition handle_eq (a b : handle) : bool := match handle_compare a b with Eq => true | _ => false end.
