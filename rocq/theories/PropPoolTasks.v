(** C92: tasks that nobody waits for are executed while the pool runs. *)
From Verif Require Import Base Task ThreadPool ThreadPoolProofs ThreadPoolRun ThreadPoolJoin ThreadPoolFair PropThreadPool PropPoolFair.
Ltac Zify.zify_post_hook ::= Z.div_mod_to_equations.
Local Open Scope nat_scope.

(** * C92 *)

(** In every fair execution a moment comes from which on no call is on a stack and every submitted task has been executed
    exactly once, waited for or not. *)
Theorem C92_all_tasks_run n main σ sch : fork_join [] main → no_stop main → 2 ≤ n → σ 0 = pool_start n main → execution σ sch →
  fair n sch → tries_main σ sch →
  ∃ i, ∀ j, i ≤ j → concat (calls (σ j)) = [] ∧ p_started (σ j) ≡ₚ seq 0 (length (p_tasks (σ j))) ∧
    Forall (λ x, t_done x = true) (p_tasks (σ j)).
Proof.
  intros Hfj Hns Hn H0 Hex Hf Ht. destruct (run_all n main σ sch Hfj Hns Hn H0 Hex Hf Ht 0) as (i & _ & Hc & Hq). exists i. intros j Hj.
  pose proof (exec_rest σ sch Hex i Hc Hq j Hj) as E.
  assert (concat (calls (σ j)) = []) as Hcj by (apply (f_equal c_ss) in E; cbn in E; unfold calls; by rewrite E).
  assert (queued (σ j) = []) as Hqj by (apply (f_equal c_qs) in E; cbn in E; unfold queued; by rewrite E).
  assert (pool_reach n main (σ j)) as Hr by (by eapply exec_reach). split; [done|].
  pose proof (C54_each_task_once n main (σ j) Hr) as Hp. rewrite Hqj, app_nil_r in Hp. split; [done|].
  apply Forall_lookup. intros v x Hx. destruct (C54_one_call n main (σ j) v x Hr Hx) as [_ Hd]. apply Hd. split.
  - rewrite Hp. apply elem_of_seq. apply lookup_lt_Some in Hx. lia.
  - intros p. rewrite Hcj. by intros ?%elem_of_nil.
Qed.

(** Such executions exist for every program: the workers take turns and the background workers try the main worker. *)
Lemma execute_some s s1 w u : ginv (flat_of (core_of s)) → p_progs s1 = p_progs s → u ∈ queued s → wk_execute s1 w u ≠ None.
Proof.
  intros G Hp Hu. unfold wk_execute. rewrite Hp. destruct (lookup_lt_is_Some_2 (p_progs s) u) as [c Hc]; [|by rewrite Hc].
  pose proof (g_len _ G) as Hl. cbn in Hl. rewrite Hl. by apply (ginv_q_lt _ u G).
Qed.
Lemma queued_lookup s w x u : p_workers s !! w = Some x → u ∈ w_queue x → u ∈ queued s.
Proof. intros Hx Hu. apply elem_of_concat. exists w, (w_queue x). by rewrite list_lookup_fmap, Hx. Qed.
Lemma get_task_main s w x : p_workers s !! w = Some x → 1 ≤ w →
  ∃ r s1, get_task s w (Some 0) = Some (r, s1) ∧ p_progs s1 = p_progs s ∧ (∀ u, r = Some u → u ∈ queued s).
Proof.
  intros Hx Hw. unfold get_task. rewrite Hx. cbn. destruct (last (w_queue x)) as [t|] eqn:El.
  - eexists _, _. split; [done|]. split; [done|]. intros u [= <-]. apply (queued_lookup _ _ _ _ Hx).
    apply last_Some in El as (q & ->). apply elem_of_app. right. left.
  - case_decide; [lia|]. destruct (lookup_lt_is_Some_2 (p_workers s) 0) as [y Hy]; [apply lookup_lt_Some in Hx; lia|]. rewrite Hy. cbn.
    destruct (w_queue y) as [|t q] eqn:Ey.
    + by eexists _, _.
    + eexists _, _. split; [done|]. split; [done|]. intros u [= <-]. apply (queued_lookup _ _ _ _ Hy). rewrite Ey. left.
Qed.
Lemma step_none_main s w : ginv (flat_of (core_of s)) → 1 ≤ w → pool_step s w (Some 0) = None → ∀ v, pool_step s w v = None.
Proof.
  intros G Hw H v. unfold pool_step in *. destruct (p_workers s !! w) as [x|] eqn:Hx; [|done]. cbn in *.
  destruct (get_task_main s w x Hx Hw) as (r & s1 & Hg & Hp & Hr). destruct (w_stack x) as [|[o pc] st].
  - destruct (w_base x); [|done|done]. exfalso. rewrite Hg in H. cbn in H. destruct r as [u|]; [|done].
    by apply (execute_some s s1 w u G Hp) in H; [|apply Hr].
  - unfold frame_step in *. cbn in *. destruct pc as [[|c p k|t k|k|a k]|t|t]; [done|done| |done|done|done|done].
    destruct (p_tasks s !! t) as [y|]; [|done]. cbn in *. case_bool_decide; [done|]. exfalso. rewrite Hg in H. cbn in H.
    destruct r as [u|]; [|done]. by apply (execute_some s (wake_worker s1) w u G Hp) in H; [|apply Hr].
Qed.

Definition steal_turn (n i : nat) : nat * option nat := (i mod n, if decide (i mod n = 0) then None else Some 0).
Fixpoint stealing (n : nat) (main : prog) (i : nat) : tpool :=
  match i with
  | 0 => pool_start n main
  | S i => let s := stealing n main i in default s (pool_step s (steal_turn n i).1 (steal_turn n i).2)
  end.
Theorem C92_executions n main : 1 ≤ n → ∃ σ sch, σ 0 = pool_start n main ∧ execution σ sch ∧ fair n sch ∧ tries_main σ sch.
Proof.
  intros Hn. exists (stealing n main), (steal_turn n). split; [done|].
  assert (∀ i, pool_reach n main (stealing n main i)) as Hr.
  { induction i as [|i IH]; [constructor|]. cbn [stealing]. destruct (pool_step _ _ _) eqn:E; cbn; [|done]. by econstructor. }
  split; [|split].
  - intros i. cbn [stealing]. destruct (pool_step (stealing n main i) (steal_turn n i).1 (steal_turn n i).2) as [s'|] eqn:E; [by left|]. right.
    split; [|done]. pose proof (reach_ginv _ _ _ (Hr i)) as G. unfold steal_turn in *. cbn [fst snd] in *. case_decide.
    + by apply step_none.
    + apply step_none_main; [done|lia|done].
  - intros w Hw i. exists (i * n + w). split; [nia|]. cbn. rewrite Nat.add_comm, Nat.mod_add by lia. by apply Nat.mod_small.
  - intros i x y Hi _ _ _ _ _ _. left. unfold steal_turn in *. cbn [fst snd] in *. by case_decide.
Qed.

(** The hypotheses hold for a program that submits two tasks, one of which submits another one, and waits for none. *)
Definition ex_forget : prog := PSubmit (PSubmit PDone None (λ _, PDone)) None (λ _, PSubmit PDone None (λ _, PDone)).
Example C92_example : fork_join [] ex_forget ∧ no_stop ex_forget ∧ ¬ joined [] ex_forget ∧
  ∃ σ sch, σ 0 = pool_start 2 ex_forget ∧ execution σ sch ∧ fair 2 sch ∧ tries_main σ sch.
Proof.
  split; [cbn; tauto|]. split; [cbn; tauto|]. split.
  - cbn. intros (_ & H). specialize (H 0). destruct H as [_ H]. specialize (H 1). set_solver.
  - apply C92_executions. lia.
Qed.

(** If the background worker always looks elsewhere, the task stays in the main worker's queue for ever. *)
Theorem C92_stealing_needed : ∃ σ sch, σ 0 = pool_start 2 (PSubmit PDone None (λ _, PDone)) ∧ execution σ sch ∧ fair 2 sch ∧
  ∀ j, 1 ≤ j → queued (σ j) = [0].
Proof.
  set (main := PSubmit PDone None (λ _, PDone)).
  exists (round_robin 2 main), (λ i, (i mod 2, None)). destruct (round_robin_ok 2 main) as [He Hfa]; [lia|].
  split; [done|]. split; [done|]. split; [done|].
  set (P := λ s : tpool, ∃ x0 x1, p_workers s = [x0; x1] ∧ w_queue x0 = [0] ∧ w_queue x1 = [] ∧ w_stack x1 = [] ∧
    (w_stack x0 = [] ∧ w_base x0 = BExit ∨ w_stack x0 = [Frame None (FRun PDone)] ∧ w_base x0 = BExit)).
  assert (∀ j, P (round_robin 2 main (S j))) as HP.
  { induction j as [|j IH].
    - vm_compute. eexists _, _. split; [reflexivity|]. split; [reflexivity|]. split; [reflexivity|]. split; [reflexivity|].
      right. split; reflexivity.
    - remember (S j) as m. cbn [round_robin]. destruct (pool_step (round_robin 2 main m) (m mod 2) None) as [s'|] eqn:E; [|done]. cbn [default].
      destruct IH as (x0 & x1 & Hws & Hq0 & Hq1 & Hs1 & Hx0). pose proof (Nat.mod_upper_bound m 2 ltac:(lia)) as Hm.
      unfold P. clear P. destruct (m mod 2) as [|[|]]; [| |lia]; unfold pool_step in E; rewrite Hws in E; cbn in E.
      + destruct Hx0 as [[Hs0 Hb0]|[Hs0 Hb0]]; rewrite Hs0 in E; cbn in E.
        * by rewrite Hb0 in E.
        * injection E as <-. cbn. rewrite Hws. cbn. eexists _, _. split; [reflexivity|]. cbn. tauto.
      + rewrite Hs1 in E. unfold get_task in E. rewrite Hws in E. cbn in E. rewrite Hq1 in E. cbn in E.
        destruct (w_base x1); [| |done]; injection E as <-; cbn; rewrite Hws; cbn; (eexists _, _; split; [reflexivity|]; cbn; tauto). }
  intros [|j] Hj; [lia|]. destruct (HP j) as (x0 & x1 & Hws & Hq0 & Hq1 & _). unfold queued. rewrite Hws. cbn. by rewrite Hq0, Hq1.
Qed.

Print Assumptions C92_all_tasks_run.
Print Assumptions C92_executions.
Print Assumptions C92_stealing_needed.
