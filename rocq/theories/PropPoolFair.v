(** C90: what happens in every execution in which every thread runs again and again. *)
From Verif Require Import Base Task ThreadPool ThreadPoolProofs ThreadPoolRun ThreadPoolJoin ThreadPoolFair PropThreadPool.
Ltac Zify.zify_post_hook ::= Z.div_mod_to_equations.
Local Open Scope nat_scope.

(** * C90 *)

(** In every fair execution of fork-join code all calls return: from every moment on there comes one at which no call is on
    any stack, whichever victims the workers choose and whoever wins. *)
Theorem C90_calls_return n main σ sch : 1 ≤ n → fork_join [] main → σ 0 = pool_start n main → execution σ sch → fair n sch →
  ∀ i, ∃ j, i ≤ j ∧ concat (calls (σ j)) = [].
Proof. intros Hn Hfj H0 Hex Hf i. by eapply exec_calls_end. Qed.

Lemma no_main_step l c w c' : cstep l c w c' → None ∉ f_task <$> concat (c_ss c) → None ∉ f_task <$> concat (c_ss c').
Proof.
  intros Hc Hn. rewrite elem_of_list_fmap. intros ([o pc] & E & Hin). cbn in E. subst o.
  assert (∀ fr, fr ∈ concat (c_ss c) → f_task fr ≠ None) as Hn'.
  { intros fr Hfr E. apply Hn. apply elem_of_list_fmap. by exists fr. }
  apply elem_of_concat in Hin as (i & st' & Hi & Hin).
  assert (∀ (ss : list (list frame)) st fr, ss !! w = Some st → fr ∈ st → fr ∈ concat ss) as Hw.
  { intros ss st fr H1 H2. apply elem_of_concat. by exists w, st. }
  destruct Hc as [ts ps sd qs ss w o' cc p k st q Hs Hq|ts ps sd qs ss w st j q1 u q2 cc Hs Hq Hc
         |ts ps sd qs ss w o' pc1 st ts' pc' Hs Hg|ts ps sd qs ss w fr st Hs Hg]; cbn in Hi, Hn';
    (destruct (decide (i = w)) as [->|Hiw];
      [rewrite list_lookup_insert in Hi by (by eapply lookup_lt_Some); injection Hi as <-
      |rewrite list_lookup_insert_ne in Hi by done; apply (Hn' (Frame None pc)); [|done]; apply elem_of_concat; by exists i, st']).
  - apply elem_of_cons in Hin as [[= <- _]|Hin].
    + apply (Hn' _ (Hw _ _ _ Hs (elem_of_list_here _ _))). done.
    + apply (Hn' _ (Hw _ _ _ Hs (elem_of_list_further _ _ _ Hin))). done.
  - apply elem_of_cons in Hin as [|Hin]; [done|]. by apply (Hn' _ (Hw _ _ _ Hs Hin)).
  - apply elem_of_cons in Hin as [[= <- _]|Hin].
    + apply (Hn' _ (Hw _ _ _ Hs (elem_of_list_here _ _))). done.
    + apply (Hn' _ (Hw _ _ _ Hs (elem_of_list_further _ _ _ Hin))). done.
  - apply (Hn' _ (Hw _ _ _ Hs (elem_of_list_further _ _ _ Hin))). done.
Qed.
Lemma no_main_exec σ sch i : execution σ sch → None ∉ f_task <$> concat (calls (σ i)) →
  ∀ j, i ≤ j → None ∉ f_task <$> concat (calls (σ j)).
Proof.
  intros Hex Hi j Hj. induction Hj as [|j _ IH]; [done|]. destruct (Hex j) as [Hst|[_ ->]]; [|done].
  apply pool_step_core in Hst as [E|[l Hc]]; [apply (f_equal c_ss) in E; cbn in E; unfold calls; by rewrite E|].
  by apply no_main_step in Hc.
Qed.
Lemma no_main_frames s : None ∉ f_task <$> concat (calls s) → ∀ p, Frame None (FRun p) ∉ concat (calls s).
Proof. intros H p Hp. apply H. apply elem_of_list_fmap. by exists (Frame None (FRun p)). Qed.

(** In particular the main program ends, and stays ended. *)
Theorem C90_main_returns n main σ sch : 1 ≤ n → fork_join [] main → σ 0 = pool_start n main → execution σ sch → fair n sch →
  ∃ i, ∀ j, i ≤ j → ∀ p, Frame None (FRun p) ∉ concat (calls (σ j)).
Proof.
  intros Hn Hfj H0 Hex Hf. destruct (exec_calls_end n main σ sch Hfj Hn H0 Hex Hf 0) as (i & _ & He). exists i. intros j Hj.
  apply no_main_frames. apply (no_main_exec σ sch i Hex); [|done]. unfold calls. rewrite He. apply not_elem_of_nil.
Qed.

(** If all code waits for what it submits, a moment comes from which on all tasks have been executed, no task is queued and
    no call is on a stack. *)
Theorem C90_all_done n main σ sch : 1 ≤ n → fork_join [] main → joined [] main → σ 0 = pool_start n main → execution σ sch →
  fair n sch → (∀ i, (N.of_nat (length (p_tasks (σ i))) < 65536)%N) →
  ∃ i, ∀ j, i ≤ j → concat (calls (σ j)) = [] ∧ queued (σ j) = [] ∧ Forall (λ x, t_done x = true) (p_tasks (σ j)).
Proof.
  intros Hn Hfj Hjo H0 Hex Hf Hb. destruct (exec_calls_end n main σ sch Hfj Hn H0 Hex Hf 0) as (i & _ & He). exists i.
  assert (∀ j, i ≤ j → queued (σ j) = [] ∧ Forall (λ x, t_done x = true) (p_tasks (σ j))) as Hq.
  { intros j Hj. destruct (C55_nothing_left n main (σ j) Hfj Hjo) as [? ?]; [by eapply exec_reach|apply Hb| |done].
    apply no_main_frames. apply (no_main_exec σ sch i Hex); [|done]. unfold calls. rewrite He. apply not_elem_of_nil. }
  intros j Hj. split; [|by destruct (Hq j Hj)]. induction Hj as [|j Hj IH]; [done|]. destruct (Hex j) as [Hst|[_ ->]]; [|done].
  apply pool_step_core in Hst as [E|[l Hc]]; [apply (f_equal c_ss) in E; cbn in E; unfold calls in *; by rewrite E|]. exfalso.
  destruct (Hq j Hj) as [Hqj _]. unfold queued in Hqj. unfold calls in IH.
  assert (∀ st, w_stack <$> p_workers (σ j) !! (sch j).1 = Some st → st = []) as Hst.
  { intros [|fr st] E; [done|]. exfalso. assert (fr ∈ concat (w_stack <$> p_workers (σ j))) as Hin.
    { apply elem_of_concat. exists (sch j).1, (fr :: st). rewrite list_lookup_fmap. split; [done|left]. }
    rewrite IH in Hin. by apply elem_of_nil in Hin. }
  unfold core_of in Hc at 1. inversion Hc; subst; match goal with H : (w_stack <$> p_workers (σ j)) !! _ = Some _ |- _ => rewrite list_lookup_fmap in H end.
  - match goal with H : _ = Some (_ :: _) |- _ => by apply Hst in H end.
  - assert (u ∈ concat (w_queue <$> p_workers (σ j))) as Hin.
    { apply elem_of_concat. eexists _, _. split; [eassumption|]. apply elem_of_app. right. left. }
    rewrite Hqj in Hin. by apply elem_of_nil in Hin.
  - match goal with H : _ = Some (_ :: _) |- _ => by apply Hst in H end.
  - match goal with H : _ = Some (_ :: _) |- _ => by apply Hst in H end.
Qed.

(** The destructor returns: if the main program gets to the stop loop, all background workers leave their loops, so that
    each join (thread_pool.hpp:249-251) returns.  The program need not have waited for its tasks. *)
Theorem C90_destructor_returns n main σ sch : fork_join [] main → stops main → σ 0 = pool_start n main → execution σ sch →
  fair n sch → 1 ≤ n →
  ∃ i, ∀ j w x, i ≤ j → 1 ≤ w → p_workers (σ j) !! w = Some x → w_stack x = [] ∧ w_base x = BExit.
Proof.
  intros Hfj Hs H0 Hex Hf Hn. destruct (exec_joins n main σ sch Hfj Hn H0 Hex Hf Hs) as (i & H). exists i. intros j w x Hj Hw Hx.
  destruct (H j w Hj) as (x' & Hx' & ? & ?).
  { split; [done|]. rewrite <-(exec_length n main σ sch Hn H0 Hex j). by eapply lookup_lt_Some. }
  rewrite Hx in Hx'. injection Hx' as <-. done.
Qed.

(** Fair executions exist for every program and number of workers. *)
Lemma step_none s w : ginv (flat_of (core_of s)) → pool_step s w None = None → ∀ v, pool_step s w v = None.
Proof.
  intros G H v. unfold pool_step in *. destruct (p_workers s !! w) as [x|] eqn:Hx; [|done]. cbn in *.
  assert (∀ s1, match last (w_queue x) with Some t => wk_execute (s1 (upd_worker (set_queue (pop_back (w_queue x))) w s)) w t | None => Some s end = None →
    (∀ s, p_progs (s1 s) = p_progs s) → False) as Hex.
  { intros s1 H1 H2. destruct (last (w_queue x)) as [t|] eqn:El; [|done]. unfold wk_execute in H1. rewrite H2 in H1. cbn in H1.
    destruct (lookup_lt_is_Some_2 (p_progs s) t) as [c Hc]; [|by rewrite Hc in H1].
    pose proof (g_len _ G) as Hl. cbn in Hl. rewrite Hl. apply (ginv_q_lt _ t G). cbn. apply elem_of_concat.
    exists w, (w_queue x). rewrite list_lookup_fmap, Hx. split; [done|]. apply last_Some in El as (q & ->). apply elem_of_app. right. left. }
  destruct (w_stack x) as [|[o pc] st].
  - destruct (w_base x); [|done|done]. exfalso. unfold get_task in H. rewrite Hx in H. cbn in H.
    apply (Hex (λ s, s)); [|done]. destruct (last (w_queue x)); [|done]. exact H.
  - unfold frame_step in *. cbn in *. destruct pc as [[|c p k|t k|k|a k]|t|t]; [done|done| |done|done|done|done].
    destruct (p_tasks s !! t) as [y|]; [|done]. cbn in *. case_bool_decide; [done|]. exfalso. unfold get_task in H. rewrite Hx in H. cbn in H.
    apply (Hex wake_worker); [|done]. destruct (last (w_queue x)); [|done]. exact H.
Qed.

Fixpoint round_robin (n : nat) (main : prog) (i : nat) : tpool :=
  match i with
  | 0 => pool_start n main
  | S i => let s := round_robin n main i in default s (pool_step s (i mod n) None)
  end.
Lemma round_robin_ok n main : 1 ≤ n → execution (round_robin n main) (λ i, (i mod n, None)) ∧ fair n (λ i, (i mod n, None)).
Proof.
  intros Hn.
  assert (∀ i, pool_reach n main (round_robin n main i)) as Hr.
  { induction i as [|i IH]; [constructor|]. cbn [round_robin]. destruct (pool_step _ _ None) eqn:E; cbn; [|done]. by econstructor. }
  split.
  - intros i. cbn [fst snd round_robin]. destruct (pool_step (round_robin n main i) (i mod n) None) as [s'|] eqn:E; [by left|]. right.
    split; [|done]. by apply step_none; [eapply reach_ginv; apply Hr|].
  - intros w Hw i. exists (i * n + w). split; [nia|]. cbn. rewrite Nat.add_comm, Nat.mod_add by lia. by apply Nat.mod_small.
Qed.
Theorem C90_fair_executions n main : 1 ≤ n → ∃ σ sch, σ 0 = pool_start n main ∧ execution σ sch ∧ fair n sch.
Proof. intros Hn. exists (round_robin n main), (λ i, (i mod n, None)). split; [done|]. by apply round_robin_ok. Qed.

(** The hypotheses hold for a stage with two batches followed by the destructor, on three workers; there the turns in a
    fixed order even end with every thread at its end. *)
Definition ex_main : prog := seq_prog ex_stage (PStop PDone).
Lemma round_robin_rest n main k : n ≠ 0 → (∀ w, w < n → pool_step (round_robin n main k) w None = None) →
  ∀ j, k ≤ j → round_robin n main j = round_robin n main k.
Proof.
  intros Hn H j Hj. induction Hj as [|j _ IH]; [done|]. cbn [round_robin]. rewrite IH, H; [done|]. by apply Nat.mod_upper_bound.
Qed.
Example C90_example : fork_join [] ex_main ∧ joined [] ex_main ∧ stops ex_main ∧
  ∃ σ sch, σ 0 = pool_start 3 ex_main ∧ execution σ sch ∧ fair 3 sch ∧ (∀ i, (N.of_nat (length (p_tasks (σ i))) < 65536)%N).
Proof.
  destruct C56_example as [Hf _].
  split; [by apply C56_sequence|]. split; [by apply C55_sequence_waits; [apply C55_example_nothing_left|]|]. split; [cbn; tauto|].
  exists (round_robin 3 ex_main), (λ i, (i mod 3, None)). destruct (round_robin_ok 3 ex_main) as [He Hfa]; [lia|].
  split; [done|]. split; [done|]. split; [done|].
  assert (∀ w, w < 3 → pool_step (round_robin 3 ex_main 180) w None = None) as Hend.
  { intros [|[|[|w]]] Hw; [by vm_compute|by vm_compute|by vm_compute|lia]. }
  assert (∀ i, i ≤ 180 → length (p_tasks (round_robin 3 ex_main i)) ≤ 20) as Hsmall.
  { intros i Hi. assert (Forall (λ i, Is_true (length (p_tasks (round_robin 3 ex_main i)) <=? 20)) (seq 0 181)) as H.
    { apply Forall_forall. intros x Hx. revert x Hx. apply Forall_forall. apply forallb_True. by vm_compute. }
    rewrite Forall_forall in H. specialize (H i). apply Nat.leb_le. apply Is_true_true. apply H. apply elem_of_seq. lia. }
  intros i. destruct (decide (i ≤ 180)) as [Hi|Hi].
  - specialize (Hsmall i Hi). lia.
  - rewrite (round_robin_rest 3 ex_main 180) by (done || lia). specialize (Hsmall 180 ltac:(lia)). lia.
Qed.

(** Without fairness the claim is false: while the worker that executes a task gets no turn, the main worker's wait goes
    round and round. *)
Theorem C90_fairness_needed : ∃ σ sch, σ 0 = pool_start 2 (pf_call [PDone]) ∧ execution σ sch ∧
  ∀ j, ∃ p, Frame None (FRun p) ∈ concat (calls (σ j)).
Proof.
  set (s0 := pool_start 2 (pf_call [PDone])). set (l := [(0, None); (1, Some 0)] : list (nat * option nat)).
  set (s1 := default s0 (prun s0 [(0, None)])). set (s2 := default s0 (prun s0 l)).
  set (more := λ k s, TPool (p_tasks s) (p_progs s) (p_workers s) (p_sem s + N.of_nat k) (p_started s)).
  exists (λ i, match i with 0 => s0 | 1 => s1 | S (S k) => more k s2 end), (λ i, default (0, None) (l !! i)).
  split; [done|]. split.
  - intros i. left. destruct i as [|[|k]]; [done|by vm_compute|]. change (pool_step (more k s2) 0 None = Some (more (S k) s2)).
    assert (∀ a, pool_step (TPool (p_tasks s2) (p_progs s2) (p_workers s2) a (p_started s2)) 0 None =
      Some (TPool (p_tasks s2) (p_progs s2) (p_workers s2) (a + 1) (p_started s2))) as H.
    { intros a. vm_compute p_tasks. vm_compute p_progs. vm_compute p_workers. vm_compute p_started. cbn. done. }
    unfold more. rewrite H. do 2 f_equal. lia.
  - intros [|[|k]]; eexists; (apply elem_of_concat; exists 0; eexists; split; [done|left]).
Qed.

Print Assumptions C90_calls_return.
Print Assumptions C90_main_returns.
Print Assumptions C90_all_done.
Print Assumptions C90_destructor_returns.
Print Assumptions C90_fair_executions.
Print Assumptions C90_fairness_needed.
