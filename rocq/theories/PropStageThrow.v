(** C76: systems that throw. *)
From Verif Require Import Base Task StageThrow StageThrowProofs StageCalm.
Local Open Scope nat_scope.

(** With one worker: the events are those of running the systems one after another, each run_once until the first system
    that throws, whatever was left in the queue by earlier runs; and the program comes to its end. *)
Theorem C76_one_worker_partial p s : Forall act_ok p → z_reach 1 p s →
  z_end s = None ∧ z_events s `prefix_of` concat (ev_act <$> p) ∧
  (z_code s = [] → (∀ x, x ∈ z_workers s → zw_cur x = None) → z_events s = concat (ev_act <$> p)) ∧
  ∃ s', rtc (λ a b, ∃ w v, z_step w v a = Some b) s s' ∧ z_code s' = [] ∧ z_events s' = concat (ev_act <$> p).
Proof.
  intros Hf Hr. destruct (one_worker p s Hf Hr) as (H1 & H2 & H3 & s' & H4 & H5). split; [done|]. split; [done|]. split; [done|]. exists s'. split; [|done].
  eapply rtc_subrel; [|exact H4]. intros a b Hab. by exists 0, None.
Qed.

(** With any number of workers, if no system throws: nothing is terminated; when run_once has returned [k] times (or an
    executor was destroyed), the events are those of [k] complete runs, and no system is queued or running. *)
Theorem C76_no_throw_partial n p s k : 1 ≤ n → Forall act_ok p → Forall calm_act p → z_reach n p s →
  z_end s = None ∧
  (k ≤ length p → z_code s = ZAct <$> drop k p →
   perm_prog (take k p) (z_events s) ∧ ∀ x t, x ∈ z_workers s → t ∉ zw_queue x ∧ zw_cur x ≠ Some (ZRun t)).
Proof. apply calm_between. Qed.

(** * With several workers *)
Fixpoint z_exec (l : list (nat * option nat)) (s : zpool) : option zpool :=
  match l with [] => Some s | (w, v) :: l => s' ← z_step w v s; z_exec l s' end.
Lemma exec_reach n p l : ∀ s s', z_reach n p s → z_exec l s = Some s' → z_reach n p s'.
Proof.
  induction l as [|[w v] l IH]; intros s s' Hr H; cbn in H; [by injection H as <-|]. destruct (z_step w v s) as [s1|] eqn:E; [|done]. eapply IH; [|done]. by eapply zr_step.
Qed.

Lemma exec_show {X} (f : zpool → X) n p l r : f <$> z_exec l (z_start n p) = Some r → ∃ s, z_reach n p s ∧ f s = r.
Proof. intros H. apply fmap_Some in H as (s & E & ->). exists s. split; [|done]. by eapply exec_reach; [constructor|]. Qed.

(** Two systems 1 and 2, of which 2 throws in the first run.  The main thread takes 2; 1 stays in the queue. *)
Definition two (b : bool) : mact := MRun [BatchRun [SysRun 1 false; SysRun 2 b] []].
Definition main (k : nat) : list (nat * option nat) := replicate k (0, None).

(** The first run is left by the exception; another thread takes system 1 from it, while the main thread is in the second
    run and runs system 1 for that: one system on two threads. *)
Theorem C76_two_threads_refuted n : 2 ≤ n → ∃ s t1 t2 x1 x2,
  z_reach n [two true; two false] s ∧ z_end s = None ∧ z_events s = [EThrew 2; ECaught; ERan 2] ∧
  zw_cur <$> z_workers s !! 0 = Some (Some (ZRun t1)) ∧ zw_cur <$> z_workers s !! 1 = Some (Some (ZRun t2)) ∧
  z_tasks s !! t1 = Some x1 ∧ z_tasks s !! t2 = Some x2 ∧ zt_sys x1 = zt_sys x2 ∧ t1 ≠ t2.
Proof.
  intros Hn. destruct n as [|[|m]]; [lia|lia|].
  destruct (exec_show (λ s, (z_end s, z_events s, zw_cur <$> z_workers s !! 0, zw_cur <$> z_workers s !! 1, zt_sys <$> z_tasks s !! 2, zt_sys <$> z_tasks s !! 0))
    (S (S m)) [two true; two false] (main 14 ++ [(1, Some 0)] ++ main 7)
    (None, [EThrew 2; ECaught; ERan 2], Some (Some (ZRun 2)), Some (Some (ZRun 0)), Some (SysRun 1 false), Some (SysRun 1 false))) as (s & Hr & H); [by vm_compute|].
  injection H as H1 H2 H3 H4 H5 H6. apply fmap_Some in H5 as (x1 & X1 & Y1), H6 as (x2 & X2 & Y2). exists s, 2, 0, x1, x2. repeat (split; [done|]). split; [congruence|lia].
Qed.

(** System 1 of the first run is run for the first time after the second run has returned: the events are not those of
    two runs one after another, whatever the order within the batches. *)
Theorem C76_late_refuted n : 2 ≤ n → ∃ s,
  z_reach n [two true; two false] s ∧ z_end s = None ∧ z_code s = [] ∧
  z_events s = [EThrew 2; ECaught; ERan 2; ERan 1; EFlush; EReturned; ERan 1].
Proof.
  intros Hn. destruct n as [|[|m]]; [lia|lia|].
  destruct (exec_show (λ s, (z_end s, z_code s, z_events s)) (S (S m)) [two true; two false] (main 27 ++ [(1, Some 0); (1, None)])
    (None, [], [EThrew 2; ECaught; ERan 2; ERan 1; EFlush; EReturned; ERan 1])) as (s & Hr & H); [by vm_compute|].
  injection H as H1 H2 H3. eauto.
Qed.

(** The other thread takes the system that throws, and nothing catches the exception there. *)
Theorem C76_terminated_refuted n : 2 ≤ n → ∃ s,
  z_reach n [MRun [BatchRun [SysRun 2 true; SysRun 1 false] []]] s ∧ z_end s = Some ZTerminated.
Proof.
  intros Hn. destruct n as [|[|m]]; [lia|lia|].
  apply (exec_show z_end (S (S m)) [MRun [BatchRun [SysRun 2 true; SysRun 1 false] []]] (main 3 ++ [(1, Some 0); (1, None)])). by vm_compute.
Qed.

(** The executor is destroyed after the exception; another thread then begins the system that was left. *)
Theorem C76_dangling_refuted n : 2 ≤ n → ∃ s,
  z_reach n [two true; MDestroy] s ∧ z_end s = Some ZDangling.
Proof.
  intros Hn. destruct n as [|[|m]]; [lia|lia|].
  apply (exec_show z_end (S (S m)) [two true; MDestroy] (main 9 ++ [(1, Some 0); (1, None)])). by vm_compute.
Qed.

(** A system of the main thread that throws leaves the whole batch in the queue. *)
Theorem C76_main_system_refuted n : 2 ≤ n → ∃ s,
  z_reach n [MRun [BatchRun [SysRun 1 false] [SysRun 2 true]]] s ∧ z_end s = None ∧ z_code s = [] ∧ z_events s = [EThrew 2; ECaught; ERan 1].
Proof.
  intros Hn. destruct n as [|[|m]]; [lia|lia|].
  destruct (exec_show (λ s, (z_end s, z_code s, z_events s)) (S (S m)) [MRun [BatchRun [SysRun 1 false] [SysRun 2 true]]] (main 5 ++ [(1, Some 0); (1, None)])
    (None, [], [EThrew 2; ECaught; ERan 1])) as (s & Hr & H); [by vm_compute|].
  injection H as H1 H2 H3. eauto.
Qed.

(** * Examples *)
Definition prog76 : list mact :=
  [MRun [BatchRun [SysRun 1 false; SysRun 2 true; SysRun 3 false] [SysRun 4 false]; BatchRun [SysRun 5 false] []];
   MRun [BatchRun [SysRun 1 false; SysRun 2 false; SysRun 3 false] [SysRun 4 false]; BatchRun [SysRun 5 false] [SysRun 4 false]]; MDestroy].
Example ex_C76_one_worker : Forall act_ok prog76 ∧
  concat (ev_act <$> prog76) = [ERan 4; ERan 3; EThrew 2; ECaught; ERan 4; ERan 3; ERan 2; ERan 1; ERan 4; ERan 5; EFlush; EReturned] ∧
  ∃ s, z_reach 1 prog76 s ∧ z_code s = [] ∧ z_events s = concat (ev_act <$> prog76).
Proof.
  split; [by repeat constructor|]. split; [done|].
  destruct (exec_show (λ s, (z_code s, z_events s)) 1 prog76 (main 54) ([], concat (ev_act <$> prog76))) as (s & Hr & H); [by vm_compute|]. injection H as H1 H2. eauto.
Qed.

Definition prog76c : list mact :=
  [MRun [BatchRun [SysRun 1 false; SysRun 2 false] [SysRun 4 false]; BatchRun [SysRun 5 false] []]; MDestroy].
(** Another thread runs both systems of the first batch, in the order of their submission. *)
Example ex_C76_no_throw : Forall act_ok prog76c ∧ Forall calm_act prog76c ∧ ∃ s, z_reach 2 prog76c s ∧ z_code s = ZAct <$> drop 1 prog76c ∧
  z_events s = [ERan 1; ERan 4; ERan 2; ERan 5; EFlush; EReturned].
Proof.
  split; [by repeat constructor|]. split; [by repeat constructor|].
  destruct (exec_show (λ s, (z_code s, z_events s)) 2 prog76c (main 4 ++ [(1, Some 0); (1, None); (1, None); (1, None); (1, Some 0)] ++ main 3 ++ replicate 5 (1, None) ++ main 12)
    (ZAct <$> drop 1 prog76c, [ERan 1; ERan 4; ERan 2; ERan 5; EFlush; EReturned])) as (s & Hr & H); [by vm_compute|].
  injection H as H1 H2. eauto.
Qed.

Print Assumptions C76_one_worker_partial.
Print Assumptions C76_no_throw_partial.
Print Assumptions C76_two_threads_refuted.
Print Assumptions C76_late_refuted.
Print Assumptions C76_terminated_refuted.
Print Assumptions C76_dangling_refuted.
Print Assumptions C76_main_system_refuted.
