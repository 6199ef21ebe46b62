(** C101: when the slot of a task is taken again.  C55 and C101 for code of many parts. *)
From Verif Require Import Base Task ThreadPool ThreadPoolProofs ThreadPoolRun ThreadPoolJoin PropThreadPool PoolTrace PoolTraceProofs PropPoolTrace PoolDepth PoolSlot PoolSlotProofs PoolPartProofs.
Local Open Scope nat_scope.

Lemma depth_calls m : code_depth (calls_of_one (S m)) = 1.
Proof. induction m as [|m IH]; [done|]. change (Nat.max 1 (code_depth (calls_of_one (S m))) = 1). by rewrite IH. Qed.
Lemma lookup_newest (x y z : task) m : (x :: replicate m y ++ [z]) !! S m = Some z.
Proof. change ((replicate m y ++ [z]) !! m = Some z). apply list_lookup_middle. by rewrite replicate_length. Qed.
Lemma full_ring : ∃ m, N.of_nat (S m) = 4096%N.
Proof. exists (N.to_nat 4095). lia. Qed.

(** A function called by parallel_for that itself calls parallel_for often enough loses its own slot, whatever the number of workers
    and the counters of their threads: at most two tasks are unfinished at any time, but the last one gets the slot of the one
    that submits it. *)
Theorem C101_refuted (n : nat) (c0 : nat → N) : ∃ c s al t u y z,
  code_depth c = 2 ∧ slotted (λ s, unfinished_tasks s ≤ 2) n (comp c) s al ∧
  t ≠ u ∧ slot_of c0 al t = slot_of c0 al u ∧
  p_tasks s !! t = Some y ∧ t_done y = false ∧ p_tasks s !! u = Some z ∧ t_done z = false.
Proof.
  destruct full_ring as [m Hm]. destruct (run_nested n m) as (s & Hs & Hts).
  exists (CFork [calls_of_one (S m)] [] CDone), s, (replicate (S (S m)) 0), 0, (S m), (Task None 1 false), (Task None 1 false). split_and!.
  - cbn [code_depth foldr]. rewrite depth_calls. done.
  - exact Hs.
  - done.
  - by apply zeros_slot.
  - by rewrite Hts.
  - done.
  - rewrite Hts. apply lookup_newest.
  - done.
Qed.

(** C47, in a run: two tasks that both have not finished share a slot. *)
Theorem C47_run_refuted : ∃ n main s al c0 t u y z, pool_reach n main s ∧ slotted (λ _, True) n main s al ∧
  t ≠ u ∧ slot_of c0 al t = slot_of c0 al u ∧ p_tasks s !! t = Some y ∧ t_done y = false ∧ p_tasks s !! u = Some z ∧ t_done z = false.
Proof.
  destruct (C101_refuted 1 (λ _, 0%N)) as (c & s & al & t & u & y & z & _ & Hs & H). exists 1, (comp c), s, al, (λ _, 0%N), t, u, y, z.
  split; [by apply slotted_length in Hs as [_ Hr]|]. split; [|exact H]. clear H. by induction Hs; econstructor.
Qed.

(** Calls that are not nested are not safe either, with two or more workers: at most one task is unfinished at any time, but a worker
    that has made the last decrement of a task may be late to look at the counter (task.hpp:47), and then finds that of another task. *)
Theorem C101_late_refuted (n : nat) (c0 : nat → N) : 1 < n → ∃ c s al t u z x w,
  code_depth c = 1 ∧ slotted (λ s, unfinished_tasks s ≤ 1) n (comp c) s al ∧
  t ≠ u ∧ slot_of c0 al t = slot_of c0 al u ∧
  p_tasks s !! u = Some z ∧ t_done z = false ∧ p_workers s !! w = Some x ∧ Frame (Some t) (FCheck t) ∈ w_stack x.
Proof.
  intros Hn. destruct n as [|[|n]]; [lia|lia|]. destruct full_ring as [m Hm]. destruct (run_late n m) as (s & Hs & Hts & Hw).
  eexists (calls_of_one (S (S m))), s, (replicate (S (S m)) 0), 0, (S m), (Task None 1 false), _, 1. split_and!.
  - apply depth_calls.
  - exact Hs.
  - done.
  - by apply zeros_slot.
  - rewrite Hts. apply lookup_newest.
  - done.
  - exact Hw.
  - left.
Qed.

(** Exactly which tasks share a slot: those of the same worker with a multiple of 4096 tasks of that worker between them. *)
Theorem C101_distance_partial Q n main s al c0 t u : slotted Q n main s al → t < u → u < length (p_tasks s) →
  slot_of c0 al t = slot_of c0 al u ↔
  ∃ w i, al !! t = Some w ∧ al !! u = Some w ∧ (0 < i)%N ∧ N.of_nat (length (filter (eq w) (take (u - t) (drop t al)))) = (4096 * i)%N.
Proof.
  intros Hs Htu Hu. destruct (slotted_length _ _ _ _ _ Hs) as [Hl _]. split.
  - intros E. eapply slot_distance; [done|lia|exact E].
  - intros (w & i & Ht & Hu' & _ & E). by eapply slot_same.
Qed.

(** For code that consists of parts, such as frames, each of which submits at most 4096 tasks on all workers together, and of any
    number of parts, workers and interleavings: the slot of a task whose function has not returned is not taken again. *)
Theorem C101_parts_partial n cs s al c0 t u y : Forall (λ c, (N.of_nat (pieces c) ≤ 4096)%N) cs →
  slotted (λ _, True) n (one_after_other (comp <$> cs)) s al → t < u → u < length (p_tasks s) →
  slot_of c0 al t = slot_of c0 al u → p_tasks s !! t = Some y → t_done y = true.
Proof.
  intros Hcs Hs Htu Hu E Hy. destruct (t_done y) eqn:Hd; [done|]. exfalso.
  destruct (slotted_length _ _ _ _ _ Hs) as [Hl Hr]. eapply slot_distance in E as (w & i & _ & _ & Hi & Hdist); [|done|lia].
  destruct full_ring as [m Hm].
  assert (length (p_tasks s) ≤ t + S m) as Hle.
  { eapply (undone_late (S m)); [unfold ctr_mod; lia| |exact Hr|exact Hy|exact Hd]. apply Forall_fmap. eapply Forall_impl; [exact Hcs|].
    intros c Hc. cbn in Hc. split_and!; [apply comp_fork_join|apply comp_joined|]. destruct (weight_comp c) as [Hun Hw].
    eapply submits_mono; [by apply submits_weight|]. rewrite Hw. lia. }
  pose proof (filter_length (eq w) (take (u - t) (drop t al))) as Hf. rewrite take_length in Hf. lia.
Qed.

(** C55 for programs that submit any number of tasks in all, if each part submits less than 65536: in every state in which the main
    program is between two parts, or has ended, the functions of all tasks have returned. *)
Lemma part_of c : (N.of_nat (pieces c) < 65536)%N → part (N.to_nat 65535) (comp c).
Proof.
  intros Hc. split_and!; [apply comp_fork_join|apply comp_joined|]. destruct (weight_comp c) as [Hun Hw].
  eapply submits_mono; [by apply submits_weight|]. rewrite Hw. lia.
Qed.
Theorem C55_between_parts n cs s : Forall (λ c, (N.of_nat (pieces c) < 65536)%N) cs → pool_reach n (one_after_other (comp <$> cs)) s →
  (∃ rest, rest `suffix_of` cs ∧ Frame None (FRun (one_after_other (comp <$> rest))) ∈ concat (calls s)) ∨
    (∀ p, Frame None (FRun p) ∉ concat (calls s)) →
  Forall (λ x, t_done x = true) (p_tasks s) ∧ queued s = [].
Proof.
  intros Hcs Hr Hm. set (M := N.to_nat 65535).
  assert (∀ l, l `suffix_of` cs → Forall (part M) (comp <$> l)) as Hp.
  { intros l [l' ->]. apply Forall_app in Hcs as [_ Hcs]. apply Forall_fmap. eapply Forall_impl; [exact Hcs|]. apply part_of. }
  destruct (reach_kinv M ltac:(unfold M, ctr_mod; lia) n _ s (Hp cs ltac:(done)) Hr) as (ow & b & a & bud & I & J & _).
  assert (∀ u z, p_tasks s !! u = Some z → t_done z = true) as Hd.
  { destruct Hm as [(rest & Hrest & Hin)|Hno]; [|by apply (joined_all_done ow _ I J)].
    apply (between_done M ow _ (comp <$> rest) I J); [by apply Hp|exact Hin]. }
  split; [by apply Forall_lookup|]. pose proof (i_g _ _ I) as G. destruct (queued s) as [|u q] eqn:E; [done|]. exfalso.
  assert (u ∈ queued s) as Hu by (rewrite E; left).
  destruct (lookup_lt_is_Some_2 (p_tasks s) u) as [z Hz]; [eapply (ginv_q_lt _ u G); exact Hu|].
  destruct (g_undone _ G u z Hz (Hd u z Hz)) as [Hst _]. by apply (ginv_disj _ u G) in Hst.
Qed.

(** C95 for such programs: the actions of the parts happen one part after the other, those of each part in an order that its code allows. *)
Theorem C95_parts n cs tr s : Forall (λ c, (N.of_nat (pieces c) < 65536)%N) cs →
  pool_run (pool_start n (one_after_other (comp <$> cs))) tr s → returned s → ∃ trs, Forall2 order cs trs ∧ tr = concat trs.
Proof.
  intros Hcs Hr Hret. assert (Forall (part (N.to_nat 65535)) (comp <$> cs)) as Hp.
  { apply Forall_fmap. eapply Forall_impl; [exact Hcs|apply part_of]. }
  destruct (parts_end (N.to_nat 65535) ltac:(unfold ctr_mod; lia) n _ tr s Hp Hr Hret) as (e' & H & _).
  apply orderly_mains in H as (t1 & t2 & tms & e2 & z & -> & Ho & Hz & Hm & Hd); [|apply Forall_forall; intros c _; apply orderly_all].
  exists tms. split; [done|]. pose proof (merge_empty _ _ _ Hm) as ->. apply merge_roots in Hm as He2. apply fmap_nil_inv in He2 as ->.
  apply fj_done_inv in Hd. apply (merge_quiet []) in Hd as (e3 & _ & Hd); [|done]. apply merge_empty in Hd as ->. by rewrite app_nil_r.
Qed.

(** * Examples *)

(** 4097 parts with one task each: task 4096 has the slot of task 0, which is done. *)
Definition one_call : code := CFork [CDone] [] CDone.
Lemma calls_parts m : one_after_other (comp <$> replicate m one_call) = comp (calls_of_one m).
Proof. induction m as [|m IH]; [done|]. rewrite calls_S. cbn [replicate fmap list_fmap one_after_other foldr]. unfold one_after_other in IH. rewrite IH. done. Qed.
Lemma slotted_weaken (Q Q' : tpool → Prop) n main s al : (∀ s, Q s → Q' s) → slotted Q n main s al → slotted Q' n main s al.
Proof. intros H. induction 1; econstructor; eauto. Qed.
Example C101_example_parts : ∃ cs s al t u y z, Forall (λ c, (N.of_nat (pieces c) ≤ 4096)%N) cs ∧
  slotted (λ _, True) 2 (one_after_other (comp <$> cs)) s al ∧ t < u ∧ u < length (p_tasks s) ∧
  slot_of (λ _, 5%N) al t = slot_of (λ _, 5%N) al u ∧ p_tasks s !! t = Some y ∧ t_done y = true ∧ p_tasks s !! u = Some z ∧ t_done z = false.
Proof.
  destruct full_ring as [m Hm]. destruct (run_late 0 m) as (s & Hs & Hts & Hw).
  exists (replicate (S (S m)) one_call), s, (replicate (S (S m)) 0), 0, (S m), (Task None 0 true), (Task None 1 false). split_and!.
  - apply Forall_replicate. done.
  - rewrite calls_parts. by eapply slotted_weaken; [|exact Hs].
  - lia.
  - rewrite Hts. cbn. rewrite app_length, replicate_length. cbn. lia.
  - by apply zeros_slot.
  - by rewrite Hts.
  - done.
  - rewrite Hts. apply lookup_newest.
  - done.
Qed.

(** The main program between two parts, with a task done. *)
Example C55_example_parts : ∃ s, pool_reach 1 (one_after_other (comp <$> [one_call; one_call])) s ∧
  Frame None (FRun (one_after_other (comp <$> [one_call]))) ∈ concat (calls s) ∧ length (p_tasks s) = 1.
Proof.
  destruct (prun (pool_start 1 (one_after_other (comp <$> [one_call; one_call]))) (replicate 6 (0, None))) as [s|] eqn:E; [|by vm_compute in E].
  exists s. split; [|by injection E as <-; split; [left|]].
  assert (∀ l s s', pool_reach 1 (one_after_other (comp <$> [one_call; one_call])) s → prun s l = Some s' → pool_reach 1 (one_after_other (comp <$> [one_call; one_call])) s') as H.
  { clear. induction l as [|[i v] l IH]; cbn [prun]; intros s s' Hr; [by intros [= <-]|].
    destruct (pool_step s i v) as [s1|] eqn:E; [|done]. cbn. apply IH. by eapply pr_step. }
  eapply H; [apply pr_init|exact E].
Qed.

Print Assumptions C101_refuted.
Print Assumptions C47_run_refuted.
Print Assumptions C101_late_refuted.
Print Assumptions C101_distance_partial.
Print Assumptions C101_parts_partial.
Print Assumptions C55_between_parts.
Print Assumptions C95_parts.
