(** C41: the sparse map behaves as a finite map. *)
From Verif Require Import Base SparseMap SparseMapProofs.
Ltac Zify.zify_post_hook ::= Z.div_mod_to_equations.

Section spec.
Context {V : Type}.

(** The finite map after an operation. *)
Definition map_after (s : gmap N V) (o : sm_op V) : gmap N V :=
  match o with
  | SmEmplace k v => match s !! k with Some _ => s | None => <[k := v]> s end
  | SmAssign k v => <[k := v]> s
  | SmErase k => delete k s
  | SmClear => ∅
  | _ => s
  end.

(** The answer a finite map gives. *)
Definition map_answer (s : gmap N V) (o : sm_op V) (a : sm_out V) : Prop :=
  match o with
  | SmEmplace k v => a = SmBool (bool_decide (s !! k = None))
  | SmAssign k v => a = SmUnit
  | SmAt k => a = SmVal (s !! k)
  | SmContains k => a = SmBool (bool_decide (is_Some (s !! k)))
  | SmErase k => a = SmNum (match s !! k with Some _ => 1%N | None => 0%N end)
  | SmClear => a = SmUnit
  | SmSize => a = SmNum (N.of_nat (size s))
  | SmIterate => ∃ l, a = SmList l ∧ l ≡ₚ map_to_list s
  end.

Fixpoint map_answers (s : gmap N V) (os : list (sm_op V)) (as_ : list (sm_out V)) : Prop :=
  match os, as_ with
  | [], [] => True
  | o :: os, a :: as_ => map_answer s o a ∧ map_answers (map_after s o) os as_
  | _, _ => False
  end.

(** At no point all values of the key type are in use as keys. *)
Fixpoint never_full (kmod : N) (s : gmap N V) (os : list (sm_op V)) : Prop :=
  match os with
  | [] => True
  | o :: os => (N.of_nat (size (map_after s o)) < kmod)%N ∧ never_full kmod (map_after s o) os
  end.

Context (kmod : N) (dflt : V).

Lemma sm_step_refines m o :
  sm_wf kmod m → (N.of_nat (size (map_after (sm_abs m) o)) < kmod)%N →
  ∃ m' a, sm_step kmod dflt m o = Some (m', a) ∧ sm_wf kmod m' ∧
    sm_abs m' = map_after (sm_abs m) o ∧ map_answer (sm_abs m) o a.
Proof.
  intros Hwf Hfull. pose proof (sm_size_spec _ _ Hwf) as Hsz.
  destruct o as [k v|k v|k|k|k| | | ]; simpl in *.
  - destruct (sm_abs m !! k) as [w|] eqn:E.
    + destruct (sm_emplace_present kmod m k w v Hwf E) as (i & -> & _). cbn.
      eexists _, _. split; [done|]. split; [done|]. split; [done|]. done.
    + rewrite map_size_insert_None in Hfull by done.
      destruct (sm_emplace_absent kmod m k v Hwf E) as (m' & -> & Hwf' & _ & Habs); [lia|]. cbn.
      eexists _, _. split; [done|]. split; [done|]. done.
  - destruct (sm_assign_spec kmod dflt m k v Hwf) as (m' & -> & Hwf' & Habs).
    { destruct (sm_abs m !! k) eqn:E; [left; eauto|right].
      rewrite map_size_insert_None in Hfull by done. lia. }
    cbn. eexists _, _. done.
  - rewrite (sm_at_spec _ _ _ Hwf). cbn. eexists _, _. done.
  - rewrite (sm_contains_spec _ _ _ Hwf). cbn. eexists _, _. done.
  - destruct (sm_abs m !! k) as [w|] eqn:E.
    + destruct (sm_erase_present kmod m k w Hwf E) as (m' & -> & Hwf' & Habs). cbn.
      eexists _, _. done.
    + rewrite (sm_erase_absent kmod m k Hwf E). cbn. eexists _, _. split; [done|]. split; [done|].
      split; [|done]. by rewrite delete_notin.
  - destruct (sm_clear_spec kmod m Hwf). eexists _, _. done.
  - eexists _, _. split; [done|]. split; [done|]. split; [done|]. by rewrite Hsz.
  - eexists _, _. split; [done|]. split; [done|]. split; [done|].
    eexists. split; [done|]. by eapply sm_dense_perm.
Qed.

Lemma sm_run_refines os m :
  sm_wf kmod m → never_full kmod (sm_abs m) os →
  ∃ m' as_, sm_run kmod dflt m os = Some (m', as_) ∧ map_answers (sm_abs m) os as_.
Proof.
  revert m. induction os as [|o os IH]; intros m Hwf Hf; simpl in *.
  - eexists _, _. done.
  - destruct Hf as [Hf1 Hf2].
    destruct (sm_step_refines m o Hwf Hf1) as (m1 & a & -> & Hwf1 & Habs & Ha). cbn.
    rewrite <- Habs in Hf2.
    destruct (IH m1 Hwf1 Hf2) as (m2 & as_ & -> & Has). cbn.
    eexists _, _. split; [done|]. rewrite <- Habs. done.
Qed.

Lemma sm_history os :
  (0 < kmod)%N → never_full kmod ∅ os →
  ∃ m' as_, sm_run kmod dflt sm_init os = Some (m', as_) ∧ map_answers ∅ os as_.
Proof. intros H0 Hf. apply (sm_run_refines os sm_init); [by apply sm_wf_init|done]. Qed.
End spec.

(** C41: every history of a sparse map runs without undefined behaviour and answers like a finite map. *)
Theorem C41_sparse_map_refines {V} (kmod : N) (dflt : V) os :
  (0 < kmod)%N → never_full kmod ∅ os →
  ∃ m as_, sm_run kmod dflt sm_init os = Some (m, as_) ∧ map_answers ∅ os as_.
Proof. exact (sm_history kmod dflt os). Qed.
Print Assumptions C41_sparse_map_refines.

(** The bound is needed: with every value of an 8-bit key type inserted the size wraps to zero and the
    map loses all its elements. *)
Theorem C41_full_key_type_refuted :
  ∃ os m as_, sm_run 256 0%N sm_init (os ++ [SmContains 7%N]) = Some (m, as_) ∧
    last as_ = Some (SmBool false) ∧ is_Some (foldl map_after (∅ : gmap N N) os !! 7%N).
Proof.
  exists (map (λ k, SmEmplace (N.of_nat k) 1%N) (seq 0 256)).
  eexists _, _. split; [vm_compute; reflexivity|]. split; [vm_compute; reflexivity|].
  vm_compute. eauto.
Qed.
Print Assumptions C41_full_key_type_refuted.

(** A history with erasure, a stale sparse slot and clear meets the hypotheses. *)
Example C41_example :
  let os := [SmEmplace 5%N 50%N; SmEmplace 2%N 20%N; SmAssign 9%N 90%N; SmErase 5%N; SmAt 9%N; SmIterate;
             SmClear; SmContains 9%N; SmAssign 2%N 21%N; SmAt 2%N] in
  never_full (2 ^ 32) ∅ os ∧
  option_map snd (sm_run (2 ^ 32) 0%N sm_init os) =
    Some [SmBool true; SmBool true; SmUnit; SmNum 1; SmVal (Some 90%N); SmList [(9, 90); (2, 20)]%N;
          SmUnit; SmBool false; SmUnit; SmVal (Some 21%N)].
Proof. split; [|reflexivity]. repeat split. Qed.
