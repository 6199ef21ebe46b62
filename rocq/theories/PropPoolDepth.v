(** C97: waiting for tasks does not nest deeper than the code does. *)
From Verif Require Import Base Task ThreadPool ThreadPoolProofs ThreadPoolRun PropThreadPool PoolTrace PoolTraceProofs PropPoolTrace PoolDepth PoolDepthProofs PoolDepthTwoProofs.
Local Open Scope nat_scope.

Lemma start_0 main : pool_start 0 main = pool_start 1 main.
Proof. done. Qed.
Lemma few_depth w main d s x : w ≤ 2 → fork_join [] main → nests d main → pool_reach w main s → x ∈ p_workers s → length (w_stack x) ≤ S d.
Proof.
  intros Hw Hf Hn Hr Hx. destruct (decide (w = 2)) as [->|Hne]; [by eapply two_depth|].
  assert (pool_reach 1 main s) as Hr1.
  { clear Hx. induction Hr as [|s i v s' _ IH Hst]; [|by eapply pr_step]. destruct w as [|[|w]]; [rewrite start_0; apply pr_init|apply pr_init|lia]. }
  destruct (one_depth main d s Hf Hn Hr1) as (x' & E & Hl). rewrite E in Hx. apply elem_of_list_singleton in Hx as ->. exact Hl.
Qed.

(** With three or more workers there is no bound, although the code nests three levels deep: a worker that waits for a task
    another worker runs steals the next task of the fork, which waits in turn, inside the first wait. *)
Theorem C97_refuted (w : nat) : 2 < w → ∀ n, ∃ c s x,
  code_depth c = 3 ∧ pool_reach w (comp c) s ∧ x ∈ p_workers s ∧ n < length (w_stack x).
Proof.
  intros Hw n. destruct (tree_stack w (S n) Hw) as (s & x & Hr & Hx & Hl); [lia|].
  exists (tree (S n)), s, x. split; [apply tree_depth|]. split; [exact Hr|]. split; [by eapply elem_of_list_lookup_2|]. lia.
Qed.

(** With one or two workers the claim holds, in every state of every run: main and one call for each level. *)
Theorem C97_two_workers_partial w c s x : w ≤ 2 → pool_reach w (comp c) s → x ∈ p_workers s → length (w_stack x) ≤ S (code_depth c).
Proof. intros Hw Hr Hx. eapply few_depth; [exact Hw|apply comp_fork_join|apply code_nests|exact Hr|exact Hx]. Qed.
(** The same for any function that waits only for tasks it submitted. *)
Theorem C97_two_workers_any_partial w main d s x : w ≤ 2 → fork_join [] main → nests d main → pool_reach w main s → x ∈ p_workers s →
  length (w_stack x) ≤ S d.
Proof. intros Hw Hf Hn Hr Hx. by eapply few_depth. Qed.

(** With any number of workers: there are at most as many calls as tasks, and main. *)
Theorem C97_tasks_partial w main s : fork_join [] main → pool_reach w main s →
  length (concat (w_stack <$> p_workers s)) ≤ S (length (p_tasks s)).
Proof. intros Hf Hr. by eapply all_depth. Qed.

(** * Examples *)

Lemma prun_reach w main l : ∀ s s', pool_reach w main s → prun s l = Some s' → pool_reach w main s'.
Proof.
  induction l as [|[i v] l IH]; cbn; intros s s' Hr; [by intros [= <-]|].
  destruct (pool_step s i v) as [s1|] eqn:E; [|done]. cbn. apply IH. by eapply pr_step.
Qed.

(** The bound is reached: a fork inside a fork inside a fork, with one worker. *)
Example C97_example_one : code_depth (tree 2) = 3 ∧
  ∃ s, pool_reach 1 (comp (tree 2)) s ∧ (length <$> (w_stack <$> p_workers s)) = [4].
Proof.
  split; [done|]. destruct (prun (pool_start 1 (comp (tree 2))) (replicate 7 (0, None))) as [s|] eqn:E.
  - exists s. split; [eapply prun_reach; [apply pr_init|exact E]|].
    assert ((λ s, length <$> (w_stack <$> p_workers s)) <$> prun (pool_start 1 (comp (tree 2))) (replicate 7 (0, None)) = Some [4]) as H by (vm_compute; reflexivity).
    rewrite E in H. cbn in H. by injection H.
  - exfalso. assert (is_Some (prun (pool_start 1 (comp (tree 2))) (replicate 7 (0, None)))) as [? H] by (vm_compute; eauto). rewrite E in H. discriminate H.
Qed.
(** And with two: main waits while the other worker has three calls on its stack. *)
Example C97_example_two : ∃ s, pool_reach 2 (comp (tree 2)) s ∧ (length <$> (w_stack <$> p_workers s)) = [1; 3].
Proof.
  set (l := [(0, None); (1, Some 0); (1, None); (1, None); (1, None); (1, None); (1, None)]).
  destruct (prun (pool_start 2 (comp (tree 2))) l) as [s|] eqn:E.
  - exists s. split; [eapply prun_reach; [apply pr_init|exact E]|].
    assert ((λ s, length <$> (w_stack <$> p_workers s)) <$> prun (pool_start 2 (comp (tree 2))) l = Some [1; 3]) as H by (vm_compute; reflexivity).
    rewrite E in H. cbn in H. by injection H.
  - exfalso. assert (is_Some (prun (pool_start 2 (comp (tree 2))) l)) as [? H] by (vm_compute; eauto). rewrite E in H. discriminate H.
Qed.
(** Main thread systems are not a level; a fork of nothing is none either. *)
Example C97_example_depth : code_depth (CFork [CAct 1 CDone; CFork [CAct 2 CDone] [] CDone] [CFork [CAct 3 CDone] [] CDone] (CFork [] [] CDone)) = 2.
Proof. done. Qed.
Example C97_example_tasks : fork_join [] (comp (tree 3)) ∧ nests 3 (comp (tree 3)).
Proof. split; [apply comp_fork_join|]. rewrite <- (tree_depth 2). apply code_nests. Qed.

Print Assumptions C97_refuted.
Print Assumptions C97_two_workers_partial.
Print Assumptions C97_two_workers_any_partial.
Print Assumptions C97_tasks_partial.
