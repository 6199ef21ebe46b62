(** Outcomes and the state/exception monad used by every model file. *)
From Coq Require Export ZArith Lia ZifyBool ZifyNat ZifyN.
From stdpp Require Export prelude gmap.
Ltac Zify.zify_post_hook ::= Z.div_mod_to_equations.

(** Exceptions thrown by the library.
    /repo/include/co_ecs/exceptions.hpp:13-82 (entity_not_found, component_not_found,
    insufficient_chunk_size); std::out_of_range is thrown by
    detail/sparse_table.hpp:229-251, std::invalid_argument by type_meta.hpp (copy of a
    non-copyable component); [CtorThrew] stands for any exception thrown by a constructor of a
    component type.  Simplification: exception messages are dropped. *)
Inductive exn :=
| EntityNotFound
| ComponentNotFound
| OutOfRange
| InsufficientChunkSize
| InvalidArgument
| CtorThrew.

Global Instance exn_eq_dec : EqDecision exn.
Proof. solve_decision. Defined.

(** Outcome of a call: normal return, a C++ exception, or undefined behaviour (failed assertion,
    out-of-bounds access, null dereference, use of a raw or dead object). *)
Inductive outcome (A : Type) :=
| Ok (a : A)
| Throw (e : exn)
| UB.
Arguments Ok {A} a.
Arguments Throw {A} e.
Arguments UB {A}.

(** A call reads and writes a state; the state changes made before a throw are kept. *)
Definition M (S A : Type) : Type := S → S * outcome A.

Definition ret {S A} (a : A) : M S A := λ s, (s, Ok a).
Definition throw {S A} (e : exn) : M S A := λ s, (s, Throw e).
Definition ub {S A} : M S A := λ s, (s, UB).
Definition bind {S A B} (m : M S A) (f : A → M S B) : M S B := λ s,
  match m s with
  | (s', Ok a) => f a s'
  | (s', Throw e) => (s', Throw e)
  | (s', UB) => (s', UB)
  end.
Definition get {S} : M S S := λ s, (s, Ok s).
Definition put {S} (s : S) : M S unit := λ _, (s, Ok tt).
(** Indexing with operator[]: out of bounds is undefined. *)
Definition of_opt {S A} (o : option A) : M S A :=
  match o with Some a => ret a | None => ub end.

Notation "'let!' x ':=' m 'in' k" := (bind m (λ x, k))
  (at level 200, x pattern, m at level 100, k at level 200, right associativity).
Notation "m ;;! k" := (bind m (λ _, k)) (at level 199, right associativity).

(** A loop over a list of iterations. *)
Fixpoint forM {S A} (l : list A) (f : A → M S unit) : M S unit :=
  match l with
  | [] => ret tt
  | x :: l => f x ;;! forM l f
  end.

(** vector::pop_back (undefined on an empty vector, callers check). *)
Definition pop_back {A} (l : list A) : list A := take (length l - 1) l.

Lemma pop_back_snoc {A} (l : list A) x : pop_back (l ++ [x]) = l.
Proof.
  unfold pop_back. rewrite app_length. simpl.
  replace (length l + 1 - 1) with (length l) by lia.
  apply take_app.
Qed.

Lemma last_snoc_inv {A} (l : list A) x : last l = Some x → l = pop_back l ++ [x].
Proof.
  intros H. apply last_Some in H as [l' ->]. by rewrite pop_back_snoc.
Qed.

Lemma bool_decide_eq_inv (P Q : Prop) `{!Decision P, !Decision Q} :
  bool_decide P = bool_decide Q → P ↔ Q.
Proof. case_bool_decide; case_bool_decide; done. Qed.
