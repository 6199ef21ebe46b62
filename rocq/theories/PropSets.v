(** C42: component sets compare by content. *)
From Verif Require Import Base Bitset BitsetProofs ComponentSet ComponentSetProofs.

(** The set a history of insertions and erasures denotes. *)
Definition content_step (s : gset N) (o : bs_op) : gset N :=
  match o with
  | BsInsert p => {[p]} ∪ s
  | BsErase p => s ∖ {[p]}
  | BsClear => ∅
  end.
Definition content (os : list bs_op) : gset N := fold_left content_step os ∅.

Lemma run_content_gen os s (t : gset N) :
  (∀ p, bs_test s p = bool_decide (p ∈ t)) →
  ∀ p, bs_test (fold_left bs_step os s) p =
       bool_decide (p ∈ fold_left content_step os t).
Proof.
  revert s t. induction os as [|o os IH]; intros s t H; simpl; [done|]. apply IH. intros p.
  destruct o as [q|q|]; simpl.
  - rewrite set_true_test, H. case_bool_decide; case_bool_decide; case_bool_decide; simpl; try done; set_solver.
  - rewrite set_false_test, H. case_bool_decide; case_bool_decide; case_bool_decide; simpl; try done; set_solver.
  - rewrite clear_test. symmetry. apply bool_decide_eq_false. set_solver.
Qed.

Lemma run_content os p : bs_test (bs_run os) p = bool_decide (p ∈ content os).
Proof.
  apply run_content_gen. intros q. rewrite init_test. symmetry. apply bool_decide_eq_false. set_solver.
Qed.

Lemma run_eq_iff os1 os2 : bs_eqb (bs_run os1) (bs_run os2) = true ↔ content os1 = content os2.
Proof.
  unfold bs_eqb. rewrite bool_decide_eq_true. split.
  - intros E. apply set_eq. intros p.
    pose proof (run_content os1 p) as H1. rewrite E, run_content in H1.
    apply bool_decide_eq_inv in H1. by rewrite H1.
  - intros E. apply canon_ext; [apply run_canon|apply run_canon|]. intros p.
    rewrite !run_content. by rewrite E.
Qed.

Lemma run_hash os1 os2 : content os1 = content os2 → bs_hash (bs_run os1) = bs_hash (bs_run os2).
Proof.
  intros E. apply run_eq_iff in E. unfold bs_eqb in E. apply bool_decide_eq_true in E. by rewrite E.
Qed.

(** The ordered content of a component_meta_set: first insertion order, no duplicates. *)
Definition ordered_step (l : list N) (o : ms_op) : list N :=
  match o with
  | MsInsert c => if decide (c ∈ l) then l else l ++ [c]
  | MsErase c => filter (λ x, x ≠ c) l
  end.
Definition ordered_content (os : list ms_op) : list N := fold_left ordered_step os [].

Lemma meta_run_content os : ms_metas (ms_run os) = ordered_content os.
Proof.
  unfold ms_run, ordered_content.
  cut (∀ l s, ms_wf s → ms_metas s = l → ms_metas (fold_left ms_step os s) = fold_left ordered_step os l).
  { intros H. apply H; [apply ms_wf_init|done]. }
  induction os as [|o os IH]; intros l s Hs E; simpl; [done|].
  destruct o; simpl.
  - apply IH; [by apply ms_insert_wf|]. rewrite ms_insert_metas by done. by rewrite E.
  - apply IH; [by apply ms_erase_wf|]. rewrite ms_erase_metas by done. by rewrite E.
Qed.

Lemma meta_contains os c : ms_contains (ms_run os) c = bool_decide (c ∈ ordered_content os).
Proof. rewrite <- meta_run_content. apply ms_contains_spec, ms_run_wf. Qed.

Lemma meta_ids os1 os2 :
  ms_ids (ms_run os1) = ms_ids (ms_run os2) ↔ (∀ c, c ∈ ordered_content os1 ↔ c ∈ ordered_content os2).
Proof. rewrite <- !meta_run_content. symmetry. apply ms_eq_iff; apply ms_run_wf. Qed.

(** C42: equality of component sets is equality of their content, membership is content, equal contents
    hash equally. *)
Theorem C42_equal_iff_same_content os1 os2 :
  bs_eqb (bs_run os1) (bs_run os2) = true ↔ content os1 = content os2.
Proof. exact (run_eq_iff os1 os2). Qed.
Print Assumptions C42_equal_iff_same_content.

Theorem C42_membership os p : bs_test (bs_run os) p = bool_decide (p ∈ content os).
Proof. exact (run_content os p). Qed.
Print Assumptions C42_membership.

Theorem C42_equal_content_equal_hash os1 os2 :
  content os1 = content os2 → bs_hash (bs_run os1) = bs_hash (bs_run os2).
Proof. exact (run_hash os1 os2). Qed.
Print Assumptions C42_equal_content_equal_hash.

(** The metadata list of a component_meta_set is the first-insertion order of its content, and its id set
    is determined by that content. *)
Theorem C42_meta_order os : ms_metas (ms_run os) = ordered_content os.
Proof. exact (meta_run_content os). Qed.
Print Assumptions C42_meta_order.

Theorem C42_meta_contains os c : ms_contains (ms_run os) c = bool_decide (c ∈ ordered_content os).
Proof. exact (meta_contains os c). Qed.
Print Assumptions C42_meta_contains.

Theorem C42_meta_key os1 os2 :
  ms_ids (ms_run os1) = ms_ids (ms_run os2) ↔ (∀ c, c ∈ ordered_content os1 ↔ c ∈ ordered_content os2).
Proof. exact (meta_ids os1 os2). Qed.
Print Assumptions C42_meta_key.

(** A bitset constructed with a different number of blocks compares unequal although both are empty. *)
Theorem C42_other_initial_size_refuted :
  ∃ s t, s = bs_make 2 ∧ t = bs_init ∧ (∀ p, bs_test s p = bs_test t p) ∧ bs_eqb s t = false.
Proof.
  exists (bs_make 2), bs_init. split; [done|]. split; [done|]. split; [|done].
  intros p. rewrite !bs_test_spec. destruct (N.to_nat (p / block_bits)) as [|[|n]]; done.
Qed.
Print Assumptions C42_other_initial_size_refuted.

(** Erasing a high component returns to the canonical form, also with an empty middle block. *)
Example C42_example :
  bs_run [BsInsert 3; BsInsert 200; BsErase 200] = bs_run [BsInsert 3] ∧
  bs_run [BsInsert 3; BsInsert 200] ≠ bs_run [BsInsert 3] ∧
  length (bs_run [BsInsert 3; BsInsert 200]) = 4.
Proof. vm_compute. split; [done|]. split; done. Qed.
