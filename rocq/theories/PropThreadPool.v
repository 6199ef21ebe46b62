(** C54 to C59: the thread pool as a whole. *)
From Verif Require Import Base Task ThreadPool ThreadPoolProofs ThreadPoolRun ThreadPoolJoin.
Local Open Scope nat_scope.

Definition calls (s : tpool) : list (list frame) := w_stack <$> p_workers s.
Definition queued (s : tpool) : list nat := concat (w_queue <$> p_workers s).

(** Executing a list of choices; used for examples. *)
Fixpoint prun (s : tpool) (l : list (nat * option nat)) : option tpool :=
  match l with [] => Some s | (w, v) :: l => s' ← pool_step s w v; prun s' l end.
Lemma prun_reach n main s l s' : pool_reach n main s → prun s l = Some s' → pool_reach n main s'.
Proof.
  revert s. induction l as [|[w v] l IH]; cbn; intros s Hr Hl; [by injection Hl as <-|].
  destruct (pool_step s w v) as [s1|] eqn:E; [|done]. cbn in Hl. apply (IH s1); [by econstructor|done].
Qed.

(** * C54 *)

(** For every program, number of workers and interleaving: the tasks started so far and the queued ones are together the
    submitted ones, each once. *)
Theorem C54_each_task_once n main s : pool_reach n main s →
  p_started s ++ queued s ≡ₚ seq 0 (length (p_tasks s)).
Proof. intros Hr. exact (g_perm _ (reach_ginv n main s Hr)). Qed.

(** A task that has been started is being executed by one call, or its function has returned; it is marked exactly in
    the latter case.  No two calls execute the same task. *)
Theorem C54_one_call n main s v x : pool_reach n main s → p_tasks s !! v = Some x →
  NoDup (f_task <$> concat (calls s)) ∧
  (t_done x = true ↔ v ∈ p_started s ∧ ∀ p, Frame (Some v) (FRun p) ∉ concat (calls s)).
Proof.
  intros Hr Hx. pose proof (reach_ginv n main s Hr) as G. split; [exact (g_nodup _ G)|].
  destruct (t_done x) eqn:Hd.
  - split; [|done]. intros _. exact (g_undone _ G v x Hx Hd).
  - split; [done|]. intros [Hs Hn]. exfalso. destruct (g_done _ G v x Hx Hd) as [Hq|[p Hp]].
    + by apply (ginv_disj _ v G) in Hq.
    + by apply (Hn p).
Qed.

(** * C55 *)

Lemma cstep_wait l c w c' o t k st : cstep l c w c' → c_ss c !! w = Some (Frame o (FRun (PWait t k)) :: st) →
  c_ss c' !! w = Some (Frame o (FRun k) :: st) → ∃ y, c_tasks c !! t = Some y ∧ t_ctr y = 0%N.
Proof.
  intros [ts ps sd qs ss w0 o' cc p k' st' q Hs Hq|ts ps sd qs ss w0 st' j q1 u q2 cc Hs Hq Hc
         |ts ps sd qs ss w0 o' pc st' ts' pc' Hs Hg|ts ps sd qs ss w0 fr st' Hs Hg]; cbn; intros H1 H2;
    rewrite Hs in H1; rewrite list_lookup_insert in H2 by (by eapply lookup_lt_Some); injection H1 as H1; subst.
  - discriminate.
  - injection H2 as _ _ E. apply (f_equal length) in E. cbn in E. lia.
  - inversion Hg; subst. by eexists.
  - inversion Hg.
Qed.

(** In fork-join code a wait goes on only when the task and all its children have run. *)
Theorem C55_wait_means_done n main s w x o t k st v s' x' : fork_join [] main → pool_reach n main s →
  (N.of_nat (length (p_tasks s)) < 65536)%N →
  p_workers s !! w = Some x → w_stack x = Frame o (FRun (PWait t k)) :: st →
  pool_step s w v = Some s' → p_workers s' !! w = Some x' → w_stack x' = Frame o (FRun k) :: st →
  ∀ u z, p_tasks s !! u = Some z → u = t ∨ t_parent z = Some t → t_done z = true.
Proof.
  change 65536%N with ctr_mod. intros Hfj Hr Hlen Hx Hst Hstep Hx' Hst' u z Hz Hu.
  destruct (reach_pinv n main s Hfj Hr) as [ow I]. pose proof (p_f _ _ I) as If.
  assert (Frame o (FRun (PWait t k)) ∈ fl_f (flat_of (core_of s))) as Hfr.
  { apply elem_of_concat. exists w, (w_stack x). cbn. rewrite list_lookup_fmap, Hx. split; [done|]. rewrite Hst. left. }
  destruct (i_run _ _ If o _ Hfr) as (own & [Ht _] & Hown). destruct (Hown t Ht) as [Hto Htp].
  assert (t < length (p_tasks s)) as Hlt.
  { pose proof (i_ow _ _ If) as Hl. cbn in Hl. rewrite <-Hl. by eapply lookup_lt_Some. }
  destruct (lookup_lt_is_Some_2 _ _ Hlt) as [y Hy].
  assert (t_parent y = None) as Hyp. { unfold parent_of in Htp. cbn in Htp. by rewrite Hy in Htp. }
  eapply (zero_done ow (flat_of (core_of s)) t y If Hlen Hy Hyp); [|exact Hz|exact Hu].
  destruct (decide (t_ctr y = 0%N)) as [|Hne]; [done|]. exfalso.
  assert (c_ss (core_of s') !! w = Some (Frame o (FRun k) :: st)) as Hss'. { cbn. by rewrite list_lookup_fmap, Hx', <-Hst'. }
  assert (c_ss (core_of s) !! w = Some (Frame o (FRun (PWait t k)) :: st)) as Hss. { cbn. by rewrite list_lookup_fmap, Hx, <-Hst. }
  apply pool_step_core in Hstep as [E|[l Hc]].
  { rewrite E, Hss in Hss'. injection Hss' as E1. exact (wait_not_self _ _ (eq_sym E1)). }
  destruct (cstep_wait _ _ _ _ _ _ _ _ Hc Hss Hss') as (y' & Hy' & Hz'). cbn in Hy'. rewrite Hy in Hy'. by injection Hy' as ->.
Qed.

(** If moreover all code waits for what it submits, no task is left when the main program's call is over: all tasks,
    including those submitted by tasks, are executed. *)
Theorem C55_nothing_left n main s : fork_join [] main → joined [] main → pool_reach n main s →
  (N.of_nat (length (p_tasks s)) < 65536)%N → (∀ p, Frame None (FRun p) ∉ concat (calls s)) →
  Forall (λ x, t_done x = true) (p_tasks s) ∧ queued s = [].
Proof.
  change 65536%N with ctr_mod. intros Hfj Hj Hr Hlen Hmain. destruct (reach_jinv n main s Hfj Hj Hr Hlen) as (ow & I & J).
  pose proof (joined_all_done ow _ I J Hmain) as Hd. cbn in Hd. split; [by apply Forall_lookup|].
  pose proof (reach_ginv n main s Hr) as G. destruct (queued s) as [|u q] eqn:E; [done|]. exfalso.
  assert (u ∈ queued s) as Hu by (rewrite E; left).
  destruct (lookup_lt_is_Some_2 (p_tasks s) u) as [z Hz]; [eapply (ginv_q_lt _ u G); exact Hu|].
  destruct (g_undone _ G u z Hz (Hd u z Hz)) as [Hs _]. by apply (ginv_disj _ u G) in Hs.
Qed.

(** parallel_for and stages wait for what they submit. *)
Lemma joined_mono p : ∀ P P', P' ⊆ P → joined P p → joined P' p.
Proof.
  induction p as [|c _ o k IHk|t k IHk|k IHk|a' k IHk]; cbn; intros P P' Hs.
  - intros ->. destruct P' as [|u P']; [done|]. exfalso. assert (u ∈ @nil nat) as ?%elem_of_nil; [|done]. apply Hs. left.
  - destruct o as [q|]; intros [Hc Hk]; (split; [done|]); intros m; (eapply IHk; [|apply Hk]); set_solver.
  - apply IHk. intros u. rewrite !elem_of_list_filter. set_solver.
  - by apply IHk.
  - by apply IHk.
Qed.
Lemma joined_seq a b : ∀ Q P, joined Q a → joined P b → joined (Q ++ P) (seq_prog a b).
Proof.
  induction a as [|c _ o k IHk|t k IHk|k IHk|a' k IHk]; cbn; intros Q P.
  - by intros ->.
  - destruct o as [q|]; intros [Hc Hk] Hb; (split; [done|]); intros m; by apply (IHk m (_ :: Q)).
  - intros Hk Hb. rewrite filter_app. apply IHk; [done|]. eapply joined_mono; [|exact Hb].
    intros u. by rewrite elem_of_list_filter; intros [_ ?].
  - intros Hk Hb. by apply IHk.
  - intros Hk Hb. by apply IHk.
Qed.
Lemma joined_submit bodies k : Forall (joined []) bodies → (∀ o, joined (option_list o) (k o)) →
  ∀ o, joined (option_list o) (submit_all o bodies k).
Proof.
  intros Hb Hk. induction Hb as [|b bs Hb _ IH]; intros o; [apply Hk|]. cbn. destruct o as [q|]; cbn; (split; [done|]); intros m.
  - eapply joined_mono; [|apply (IH (Some q))]. set_solver.
  - apply (IH (Some m)).
Qed.
Lemma joined_wait o : joined (option_list o) (wait_parent o).
Proof. destruct o as [t|]; cbn; [|done]. rewrite decide_False by (by intros []). done. Qed.
Theorem C55_parallel_for_waits bodies : Forall (joined []) bodies → joined [] (pf_call bodies).
Proof. intros Hb. apply (joined_submit bodies _ Hb joined_wait None). Qed.
Theorem C55_stage_waits batches mains : Forall (Forall (joined [])) batches → Forall (joined []) mains →
  joined [] (stage_run batches mains).
Proof.
  intros Hb Hm. induction Hb as [|b bs Hb _ IH]; [done|]. cbn. apply (joined_seq _ _ [] []); [|exact IH].
  apply (joined_submit b _ Hb) with (o := None). intros o. clear IH. induction Hm as [|m ms Hm _ IHm]; [apply joined_wait|].
  cbn. by apply (joined_seq _ _ [] _).
Qed.
Theorem C55_sequence_waits p q : joined [] p → joined [] q → joined [] (seq_prog p q).
Proof. apply (joined_seq p q [] []). Qed.

(** A wait at its end with everything done, not vacuously: the task has a child executed by the other worker. *)
Example C55_example : ∃ s s' x st k, pool_reach 2 (pf_call [PDone; PDone]) s ∧ p_workers s !! 0 = Some x ∧
  w_stack x = Frame None (FRun (PWait 0 k)) :: st ∧ pool_step s 0 None = Some s' ∧
  (w_stack <$> p_workers s' !! 0) = Some (Frame None (FRun k) :: st) ∧ p_started s = [0; 1].
Proof.
  destruct (prun (pool_start 2 (pf_call [PDone; PDone]))
    [(0, None); (0, None); (1, Some 0); (0, None); (1, None); (0, None); (1, None); (1, None); (0, None); (0, None); (0, None); (0, None)]) as [s|] eqn:E;
    [|by vm_compute in E].
  exists s. destruct (pool_step s 0 None) as [s'|] eqn:E'; [|vm_compute in E; injection E as <-; by vm_compute in E'].
  assert (pool_reach 2 (pf_call [PDone; PDone]) s) as Hr by (eapply prun_reach; [apply pr_init|exact E]).
  vm_compute in E; injection E as <-. vm_compute in E'. injection E' as <-. eexists _, _, _, _. split; [exact Hr|]. done.
Qed.

(** * C56 *)

(** Whenever a call has not returned, some worker can make a step that changes a call stack (it enters, leaves or goes on
    in a call). *)
Theorem C56_never_blocked n main s : fork_join [] main → pool_reach n main s → concat (calls s) ≠ [] →
  ∃ w v s', pool_step s w v = Some s' ∧ calls s' ≠ calls s.
Proof. intros Hfj Hr Hne. destruct (reach_pinv n main s Hfj Hr) as [ow I]. by eapply can_go_on. Qed.

(** In no execution of any program do call stacks change infinitely often. *)
Theorem C56_finitely_many_calls n main (f : nat → tpool) : scoped 0 main → f 0 = pool_start n main →
  (∀ i, ∃ w v, pool_step (f i) w v = Some (f (S i))) →
  ¬ ∀ i, ∃ j, i ≤ j ∧ calls (f (S j)) ≠ calls (f j).
Proof. intros Hsc H0. apply no_calls_forever. rewrite H0. by apply sinv_start. Qed.

(** From every reachable state the main program and every call can be finished. *)
Theorem C56_can_finish n main s : fork_join [] main → pool_reach n main s →
  ∃ s', psteps s s' ∧ concat (calls s') = [].
Proof. apply can_finish. Qed.

(** parallel_for and stages, nested in each other to any depth, are fork-join code. *)
Lemma fork_join_weaken p : ∀ own own', own ⊆ own' → fork_join own p → fork_join own' p.
Proof.
  induction p as [|c _ o k IHk|t k IHk|k IHk|a k IHk]; cbn; intros own own' Hs; [done| | | |].
  - destruct o as [q|].
    + intros (Hq & Hc & Hk). split; [by apply Hs|]. split; [done|]. intros m. by eapply IHk.
    + intros (Hc & Hk). split; [done|]. intros m. eapply (IHk m (m :: own)); [|done]. set_solver.
  - intros [Ht Hk]. split; [by apply Hs|by eapply IHk].
  - by apply IHk.
  - by apply IHk.
Qed.
Lemma fork_join_seq p q : ∀ own, fork_join own p → fork_join own q → fork_join own (seq_prog p q).
Proof.
  induction p as [|c _ o k IHk|t k IHk|k IHk|a' k IHk]; cbn; intros own; [done| | | |].
  - destruct o as [r|].
    + intros (Hr & Hc & Hk) Hq. split; [done|]. split; [done|]. intros m. by apply IHk.
    + intros (Hc & Hk) Hq. split; [done|]. intros m. apply IHk; [done|]. eapply fork_join_weaken; [|exact Hq]. set_solver.
  - intros [Ht Hk] Hq. split; [done|by apply IHk].
  - intros Hk Hq. by apply IHk.
  - intros Hk Hq. by apply IHk.
Qed.
Lemma fork_join_submit_some own t bodies k : t ∈ own → Forall (fork_join []) bodies → fork_join own (k (Some t)) →
  fork_join own (submit_all (Some t) bodies k).
Proof.
  intros Ht. induction 1 as [|b bs Hb _ IH]; intros Hk; cbn; [done|]. split; [done|]. split; [done|]. intros _. by apply IH.
Qed.
Lemma fork_join_submit own bodies k : Forall (fork_join []) bodies → fork_join own (k None) →
  (∀ t, fork_join (t :: own) (k (Some t))) → fork_join own (submit_all None bodies k).
Proof.
  destruct bodies as [|b bs]; cbn; [done|]. intros [Hb Hbs]%Forall_cons _ Hk. split; [done|]. intros n.
  apply fork_join_submit_some; [left|done|apply Hk].
Qed.
Theorem C56_parallel_for own bodies : Forall (fork_join []) bodies → fork_join own (pf_call bodies).
Proof. intros Hb. apply fork_join_submit; [done|done|]. intros t. split; [left|done]. Qed.
Theorem C56_stage own batches mains : Forall (Forall (fork_join [])) batches → Forall (fork_join []) mains →
  fork_join own (stage_run batches mains).
Proof.
  intros Hb Hm. induction Hb as [|b bs Hb _ IH]; [done|]. cbn. apply fork_join_seq; [|exact IH].
  assert (∀ own q, fork_join own q → fork_join own (foldr seq_prog q mains)) as Hmains.
  { intros own' q Hq. clear -Hm Hq. induction Hm as [|m ms Hm _ IH]; [done|]. cbn. apply fork_join_seq; [|exact IH].
    eapply fork_join_weaken; [|exact Hm]. set_solver. }
  apply fork_join_submit; [done|by apply Hmains|]. intros t. apply Hmains. split; [left|done].
Qed.
Theorem C56_sequence own p q : fork_join own p → fork_join own q → fork_join own (seq_prog p q).
Proof. apply fork_join_seq. Qed.

(** A stage of two batches, one of whose systems runs a parallel_for over four batches, with two workers, run to its end. *)
Definition ex_stage : prog := stage_run [[pf_call [PDone; PDone; PDone; PDone]; PDone]; [PDone]] [pf_call [PDone]].
Example C55_example_nothing_left : joined [] ex_stage.
Proof.
  apply C55_stage_waits; repeat (apply Forall_cons; split; [|]); try apply Forall_nil; repeat (apply Forall_cons; split; [|]);
    try apply Forall_nil; try done; apply C55_parallel_for_waits; by repeat constructor.
Qed.
Example C56_example : fork_join [] ex_stage ∧ scoped 0 ex_stage.
Proof.
  assert (fork_join [] ex_stage) as H.
  { apply C56_stage; repeat (apply Forall_cons; split; [|]); try apply Forall_nil; repeat (apply Forall_cons; split; [|]); try apply Forall_nil;
    try done; apply C56_parallel_for; by repeat constructor. }
  split; [done|]. eapply fork_join_scoped; [|exact H]. by intros u ?%elem_of_nil.
Qed.

(** With two workers: the background worker waits inside the stolen first system for the tasks of its parallel_for, the
    main worker is about to leave the task of the main thread system's parallel_for. *)
Example C54_example : ∃ s, pool_reach 2 ex_stage s ∧
  p_started s = [0; 6] ∧ queued s = [1; 2; 3; 4; 5] ∧ (length <$> calls s) = [2; 1] ∧
  ((λ x, (t_parent x, t_ctr x, t_done x)) <$> p_tasks s) =
    [(None, 2%N, false); (Some 0, 1%N, false); (None, 4%N, false);
     (Some 2, 1%N, false); (Some 2, 1%N, false); (Some 2, 1%N, false); (None, 0%N, true)].
Proof.
  destruct (prun (pool_start 2 ex_stage)
    [(0, None); (0, None); (1, Some 0); (1, None); (1, None); (1, None); (1, None); (0, None); (0, None); (0, None); (0, None)]) as [s|] eqn:E;
    [|by vm_compute in E].
  exists s. split; [eapply prun_reach; [apply pr_init|exact E]|]. vm_compute in E. injection E as <-. done.
Qed.

(** The main worker runs the whole stage alone: nine tasks, all executed, nothing left. *)
Example C56_example_run : ∃ s, pool_reach 2 ex_stage s ∧ concat (calls s) = [] ∧ queued s = [] ∧
  length (p_tasks s) = 9 ∧ forallb t_done (p_tasks s) = true ∧ forallb (λ x, bool_decide (t_ctr x = 0%N)) (p_tasks s) = true.
Proof.
  destruct (prun (pool_start 2 ex_stage) (replicate 59 (0, None))) as [s|] eqn:E; [|by vm_compute in E].
  exists s. split; [eapply prun_reach; [apply pr_init|exact E]|]. vm_compute in E. injection E as <-. done.
Qed.

(** * C57 *)

(** Nothing is queued and every call waits for an uncompleted task. *)
Definition stuck (c : core) : Prop :=
  Forall (λ q, q = []) (c_qs c) ∧
  Forall (λ st : list frame, match st with
               | [] => True
               | Frame _ (FRun (PWait t _)) :: _ => ∃ x, c_tasks c !! t = Some x ∧ t_ctr x ≠ 0%N
               | _ => False
               end) (c_ss c).
Lemma stuck_no_step c l w c' : stuck c → ¬ cstep l c w c'.
Proof.
  intros Hst Hcs. revert Hst. destruct Hcs as [ts ps sd qs ss w0 o' cc p k' st' q Hs Hq|ts ps sd qs ss w0 st' j q1 u q2 cc Hs Hq Hc
         |ts ps sd qs ss w0 o' pc st' ts' pc' Hs Hg|ts ps sd qs ss w0 fr st' Hs Hg]; intros [Hqs Hss]; cbn in Hqs, Hss;
    pose proof (Forall_lookup_1 _ _ _ _ Hss Hs) as H; cbn in H.
  - done.
  - pose proof (Forall_lookup_1 _ _ _ _ Hqs Hq) as Hq0. cbn in Hq0. by destruct q1.
  - inversion Hg; subst; try done. destruct H as (x' & Hx' & Hne). simplify_eq.
  - inversion Hg; subst; done.
Qed.
Lemma stuck_forever s s' : stuck (core_of s) → psteps s s' → core_of s' = core_of s.
Proof.
  intros Hs Hr. induction Hr as [|x y z Hxy _ IH]; [done|]. destruct Hxy as (w & v & Hw).
  apply pool_step_core in Hw as [E|[l Hc]]; [|by apply stuck_no_step in Hc].
  rewrite IH by (by rewrite E). done.
Qed.

(** Waiting for a task submitted earlier by someone else can block for ever although no task waits for itself or in a
    circle: with three workers, X waits for Y and Z waits for X; a worker that waits in X for Y takes Z and
    waits in it for X, which is below it on the same stack. *)
Definition chain : prog :=
  PSubmit PDone None (λ y, PSubmit (PWait y PDone) None (λ x, PSubmit (PWait x PDone) None (λ z, PWait z PDone))).
Definition chain_steps : list (nat * option nat) :=
  [(0, None); (0, None); (0, None); (1, Some 0); (2, Some 0); (2, Some 0); (1, None); (1, None); (1, None)].
Theorem C57_earlier_task_refuted :
  scoped 0 chain ∧
  ∃ s, pool_reach 3 chain s ∧ (∃ k st x, p_workers s !! 0 = Some x ∧ w_stack x = Frame None (FRun (PWait 2 k)) :: st) ∧
    ∀ s', psteps s s' → calls s' = calls s.
Proof.
  split; [by repeat (split || intros ?); cbn; try lia|].
  destruct (prun (pool_start 3 chain) chain_steps) as [s|] eqn:E; [|by vm_compute in E].
  exists s. split; [eapply prun_reach; [apply pr_init|exact E]|].
  vm_compute in E. injection E as <-. split; [by eexists _, _, _|].
  intros s' Hs'. apply stuck_forever in Hs'; [by apply (f_equal c_ss) in Hs'|].
  split; cbn; repeat (apply Forall_cons; split; [|]); try apply Forall_nil; try done; by eexists.
Qed.

(** * C58 *)

(** As long as the pool is not stopped and there is a background worker, from every reachable state the execution can
    go on such that every submitted task is executed to its end. *)
Theorem C58_all_tasks_run_partial n main s : fork_join [] main → no_stop main → 2 ≤ n → pool_reach n main s →
  ∃ s', psteps s s' ∧ concat (calls s') = [] ∧ p_started s' ≡ₚ seq 0 (length (p_tasks s')) ∧
    Forall (λ x, t_done x = true) (p_tasks s').
Proof.
  intros Hfj Hns Hn Hr. destruct (can_run_all n main s Hfj Hns Hn Hr) as (s' & Hs & Hc & Hq). exists s'.
  assert (pool_reach n main s') as Hr' by (by eapply reach_psteps).
  pose proof (C54_each_task_once n main s' Hr') as Hp. unfold queued in Hp. rewrite Hq, app_nil_r in Hp.
  split; [done|]. split; [done|]. split; [done|]. apply Forall_lookup. intros v x Hx.
  destruct (C54_one_call n main s' v x Hr' Hx) as [_ Hd]. apply Hd. split.
  - rewrite Hp. apply elem_of_seq. apply lookup_lt_Some in Hx. lia.
  - intros p. unfold calls. rewrite Hc. by intros ?%elem_of_nil.
Qed.

Example C58_example : fork_join [] ex_stage ∧ no_stop ex_stage.
Proof. split; [apply C56_example|by vm_compute]. Qed.

(** Tasks submitted and not waited for before the pool is destroyed may never run: nothing can happen any more
    and the task is still queued.  With one worker this happens without any race. *)
Definition fire_and_forget : prog := PSubmit PDone None (λ _, PStop PDone).
Definition all_left (s : tpool) : Prop :=
  concat (calls s) = [] ∧ queued s = [0] ∧ p_started s = [] ∧ ∀ w v, pool_step s w v = None.
Theorem C58_dropped_at_stop_refuted :
  (∃ s, pool_reach 1 fire_and_forget s ∧ all_left s) ∧ (∃ s, pool_reach 4 fire_and_forget s ∧ all_left s).
Proof.
  split.
  - destruct (prun (pool_start 1 fire_and_forget) [(0, None); (0, None); (0, None)]) as [s|] eqn:E; [|by vm_compute in E].
    exists s. split; [eapply prun_reach; [apply pr_init|exact E]|]. vm_compute in E. injection E as <-.
    split; [done|]. split; [done|]. split; [done|]. intros [|w] v; [done|by destruct w].
  - destruct (prun (pool_start 4 fire_and_forget)
      [(1, None); (2, None); (3, None); (0, None); (0, None); (0, None); (1, None); (2, None); (3, None)]) as [s|] eqn:E; [|by vm_compute in E].
    exists s. split; [eapply prun_reach; [apply pr_init|exact E]|]. vm_compute in E. injection E as <-.
    split; [done|]. split; [done|]. split; [done|]. intros [|[|[|[|w]]]] v; [done..|by destruct w].
Qed.

(** Without a background worker the same holds of a running pool. *)
Theorem C58_one_worker_refuted : ∃ s, pool_reach 1 (PSubmit PDone None (λ _, PDone)) s ∧ all_left s.
Proof.
  destruct (prun (pool_start 1 (PSubmit PDone None (λ _, PDone))) [(0, None); (0, None)]) as [s|] eqn:E; [|by vm_compute in E].
  exists s. split; [eapply prun_reach; [apply pr_init|exact E]|]. vm_compute in E. injection E as <-.
  split; [done|]. split; [done|]. split; [done|]. intros [|w] v; [done|by destruct w].
Qed.

(** * C59 *)

(** One task and one wait for it are enough to bring the semaphore to any count: the background worker is inside the task
    and the main worker releases the semaphore in every round of its wait. *)
Theorem C59_semaphore_refuted (m : N) : ∃ s, pool_reach 2 (pf_call [PDone]) s ∧ (m ≤ p_sem s)%N.
Proof.
  destruct (prun (pool_start 2 (pf_call [PDone])) [(0, None); (1, Some 0)]) as [s0|] eqn:E; [|by vm_compute in E].
  assert (pool_reach 2 (pf_call [PDone]) s0) as Hr by (eapply prun_reach; [apply pr_init|exact E]).
  assert (∃ s, pool_reach 2 (pf_call [PDone]) s ∧ (m ≤ p_sem s)%N ∧ core_of s = core_of s0 ∧ p_workers s = p_workers s0) as (s & H1 & H2 & _);
    [|by exists s].
  induction m as [|m IH] using N.peano_ind; [exists s0; split_and!; [done|lia|done|done]|].
  destruct IH as (s & H1 & H2 & H3 & H4).
  assert (pool_step s 0 None = Some (wake_worker s)) as Hst.
  { destruct s as [ts ps ws sm sd]. vm_compute in E. injection E as <-. cbn in H4. subst ws.
    unfold core_of in H3. cbn in H3. injection H3 as -> -> ->. reflexivity. }
  exists (wake_worker s). split; [by econstructor|]. split; [cbn; lia|done].
Qed.

Print Assumptions C54_each_task_once.
Print Assumptions C54_one_call.
Print Assumptions C55_wait_means_done.
Print Assumptions C55_nothing_left.
Print Assumptions C55_parallel_for_waits.
Print Assumptions C55_stage_waits.
Print Assumptions C55_sequence_waits.
Print Assumptions C56_never_blocked.
Print Assumptions C56_finitely_many_calls.
Print Assumptions C56_can_finish.
Print Assumptions C56_parallel_for.
Print Assumptions C56_stage.
Print Assumptions C56_sequence.
Print Assumptions C57_earlier_task_refuted.
Print Assumptions C58_all_tasks_run_partial.
Print Assumptions C58_dropped_at_stop_refuted.
Print Assumptions C58_one_worker_refuted.
Print Assumptions C59_semaphore_refuted.
