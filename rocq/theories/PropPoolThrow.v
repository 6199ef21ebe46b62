(** C73: exceptions thrown by the callback of parallel_for (thread_pool/parallel_for.hpp, thread_pool/thread_pool.hpp, thread_pool/task.hpp). *)
From Verif Require Import Base Task ParallelFor ThreadPool ThreadPoolProofs ThreadPoolRun ThreadPoolJoin PropThreadPool PoolThrow PoolThrowProofs PoolThrowSim.
Local Open Scope nat_scope.

(** Full claim: in every execution no task uses the variables of a parallel_for that has ended, an exception thrown by
    the callback reaches the handler around the call of parallel_for on the thread that called it, and the program is
    terminated only if there is none.  False as stated (below).  Proved: it holds, with the sequential meaning
    [x_eval] of the program, if there is one worker or every range is shorter than the number of workers. *)
Theorem C73_sequential_partial n p s :
  1 ≤ n → x_small n p → x_reach n p s →
  x_end s ≠ Some Dangling ∧
  x_trace s `prefix_of` (x_eval p).1 ∧
  (x_end s = Some Terminated → x_eval p = (x_trace s, true)) ∧
  (x_end s = None → (∃ q, x_workers s !! 0 = Some (XWorker q [])) → x_eval p = (x_trace s, false)).
Proof.
  intros Hn Hp Hr. destruct (goal_reach n p s Hn Hp Hr) as [[He (q & st & others & Hw & _ & _ & Htop & _ & Hev)]|[He Hev]].
  - split; [by rewrite He|]. split; [rewrite Hev; cbn; eexists; done|]. split; [by rewrite He|]. intros _ (q' & Hq). rewrite Hw in Hq. injection Hq as -> ->. cbn in Htop. subst q'.
    rewrite Hev, residual_nil. unfold andthen. cbn. by rewrite app_nil_r.
  - split; [by rewrite He|]. split; [by rewrite Hev|]. split; [done|]. by rewrite He.
Qed.

(** In this case main is never stuck before its end, and every step brings it closer to it; steps of other workers
    change nothing. *)
Theorem C73_main_ends_partial n p :
  1 ≤ n → x_small n p → ∃ mu : xpool → nat, ∀ s, x_reach n p s →
  (∀ w v s', x_step w v s = Some s' → if decide (w = 0) then mu s' < mu s else s' = s) ∧
  (x_end s = None → (∃ q f st, x_workers s !! 0 = Some (XWorker q (f :: st))) → ∀ v, is_Some (x_step 0 v s)).
Proof.
  intros Hn Hp. exists mu. intros s Hr. destruct (goal_reach n p s Hn Hp Hr) as [I|[He _]].
  2:{ split; [|by rewrite He]. intros w v s' Hs. unfold x_step in Hs. by rewrite He in Hs. }
  assert (∀ q f st v, x_workers s !! 0 = Some (XWorker q (f :: st)) → ∃ s', x_step 0 v s = Some s' ∧ mu s' < mu s) as Hm.
  { intros q f st v Hq. destruct (x_workers s) as [|y others] eqn:Hw; [done|]. injection Hq as ->. by eapply main_step. }
  split.
  - intros w v s' Hs. destruct (decide (w = 0)) as [->|Nw]; [|by eapply (idle_step n)]. pose proof Hs as Hs'. unfold x_step in Hs'. destruct (x_end s); [done|].
    destruct (x_workers s !! 0) as [[q [|f st]]|] eqn:Hx; [done| |done]. destruct (Hm q f st v eq_refl) as (s2 & Hs2 & Hlt). rewrite Hs in Hs2. by injection Hs2 as <-.
  - intros _ (q & f & st & Hq) v. destruct (Hm q f st v Hq) as (s' & Hs' & _). by exists s'.
Qed.

(** Proved: with any number of workers and any program, as long as nothing was thrown (and fewer tasks than the
    counter's range were submitted) the program goes on, and the variables of every task that is queued or running
    exist. *)
Theorem C73_no_throw_partial n p s :
  1 ≤ n → x_reach n p s → x_threw s = false → (N.of_nat (length (x_tasks s)) < 65536)%N →
  x_end s = None ∧
  ∀ w x t y, x_workers s !! w = Some x → x_tasks s !! t = Some y →
    t ∈ xw_queue x ∨ (∃ l, XFrame (Some t) (XCode l) ∈ xw_stack x) → xt_scope y ∉ x_dead s.
Proof.
  intros Hn Hr Ht Hl. destruct (sinv_reach n p s Hn Hr Ht Hl) as [He Hlen D (sem & sd & Hsim)]. split; [done|]. intros w x t y Hx Hy Ho Hdead. pose proof (d_done _ D t y Hy Hdead) as Hd.
  destruct Ho as [Hq|(l & Hc)]; [by rewrite (not_queued n p s sem sd w x t y Hsim Hx Hq Hy) in Hd|].
  assert (p_tasks (tp_of n s sem sd) !! t = Some (xt_task y)) as Hy' by (cbn; by rewrite list_lookup_fmap, Hy).
  destruct (C54_one_call _ _ _ _ _ Hsim Hy') as [_ H]. apply H in Hd as [_ Hd]. apply (Hd (comp_code n l)). apply elem_of_concat. exists w, (fr_of n <$> xw_stack x).
  split; [unfold calls; by rewrite list_lookup_fmap, (stack_of n s sem sd w x Hx)|]. apply elem_of_list_fmap. by exists (XFrame (Some t) (XCode l)).
Qed.

(** * The claim is false with two or more workers *)

(** [try { parallel_for(v, [](auto&) { throw 0; }); } catch (...) { mark(1); }] over a range of [n] elements. *)
Definition prog73 (n : nat) : xprog := XTry (XEach (replicate n XThrow) XDone) (XMark 1 XDone) XDone.
Lemma loop73 n : ∀ k i, i + k = n → subrange (replicate n XThrow) <$> pf_loop k i n 1 n i = replicate k [XThrow].
Proof.
  induction k as [|k IH]; intros i Hi; [done|]. cbn. assert ((if bool_decide (i < n - 1) then i + 1 else n) = S i) as -> by (case_bool_decide; lia).
  f_equal; [|apply IH; lia]. unfold subrange. cbn [fst snd]. rewrite drop_replicate, take_replicate. replace (S i - i) with 1 by lia. by replace (1 `min` (n - i)) with 1 by lia.
Qed.
Lemma batches73 n : 2 ≤ n → ∃ bs, pf_batches n n = Some bs ∧ subrange (replicate n XThrow) <$> bs = replicate n [XThrow].
Proof.
  intros Hn. unfold pf_batches. rewrite Nat.div_same by lia. rewrite bool_decide_eq_false_2 by lia. eexists. split; [done|]. by apply loop73.
Qed.
Definition tail73 : list seg := [SRun XDone; STry (XMark 1 XDone); SRun XDone].
Definition st73 (n i : nat) (ts : list xtask) : xpool :=
  XPool ts (XWorker (seq 0 i) [XFrame None (XCode (SSubmit 0 (replicate (n - i) [XThrow]) (match i with 0 => None | _ => Some 0 end) :: tail73))] ::
    replicate (n - 1) (XWorker [] [])) [] 1 [] false None.
Definition ts73 (i : nat) (ts : list xtask) : Prop :=
  length ts = i ∧ Forall (λ x, xt_scope x = 0 ∧ xt_body x = [XThrow]) ts ∧ (1 ≤ i → ∃ x, ts !! 0 = Some x ∧ t_ctr (xt_task x) = N.of_nat i).
Lemma begin73 n : 2 ≤ n → x_reach n (prog73 n) (st73 n 0 []).
Proof.
  intros Hn. destruct (batches73 n Hn) as (bs & Hb & Hs). eapply xr_step with (w := 0) (v := None). { eapply xr_step with (w := 0) (v := None); [constructor|done]. }
  unfold x_step. cbn. rewrite !replicate_length. replace (S (n - 1)) with n by lia. rewrite Hb. unfold st73. rewrite Hs, Nat.sub_0_r. done.
Qed.
Lemma submit73 n i : 2 ≤ n → i ≤ n → (N.of_nat n < 65536)%N → ∃ ts, ts73 i ts ∧ x_reach n (prog73 n) (st73 n i ts).
Proof.
  intros Hn Hi Hlt. induction i as [|i IH]; [exists []; split; [split; [done|split; [done|lia]]|by apply begin73]|]. destruct (IH ltac:(lia)) as (ts & (Hl & Hf & Hc) & Hr).
  set (par := match i with 0 => None | _ => Some 0 end).
  exists ((match par with Some p => alter (xt_upd (upd_ctr inc16)) p ts | None => ts end) ++ [XTask (Task par 1 false) 0 [XThrow]]). split.
  - split; [|split].
    + rewrite app_length. cbn. destruct par; rewrite ?alter_length; lia.
    + apply Forall_app. split; [|by repeat constructor]. destruct par; [|done]. apply Forall_lookup. intros j x Hx. destruct (decide (j = n0)) as [->|N].
      * rewrite list_lookup_alter in Hx. destruct (ts !! n0) as [z|] eqn:Hz; [|done]. injection Hx as <-. cbn. by eapply (proj1 (Forall_lookup _ _) Hf).
      * rewrite list_lookup_alter_ne in Hx by done. by eapply (proj1 (Forall_lookup _ _) Hf).
    + intros _. destruct i as [|i]; subst par.
      * destruct ts; [|done]. by eexists.
      * destruct (Hc ltac:(lia)) as (x & Hx & Hcx). exists (xt_upd (upd_ctr inc16) x). rewrite lookup_app_l by (rewrite alter_length; lia). rewrite list_lookup_alter, Hx. split; [done|]. cbn [xt_upd xt_task upd_ctr t_ctr]. rewrite Hcx. unfold inc16, ctr_mod.
        rewrite N.mod_small by lia. lia.
  - eapply xr_step with (w := 0) (v := None); [exact Hr|]. unfold x_step, st73. cbn [x_end x_workers lookup list_lookup mbind option_bind xw_stack]. replace (n - i) with (S (n - S i)) by lia. cbn [replicate x_code]. f_equal.
    unfold x_submit, x_upd, x_set_workers, x_set_tasks. cbn. rewrite Hl. f_equal. f_equal. unfold xw_set_stack. cbn. f_equal; [|by destruct i].
    change (0 :: seq 1 i) with (seq 0 (S i)). by rewrite (seq_S i 0).
Qed.

(** A task runs after the call of parallel_for to which its variables belong was left by an exception. *)
Theorem C73_dangling_refuted n :
  2 ≤ n → (N.of_nat n < 65536)%N →
  x_eval (prog73 n) = ([1], false) ∧ ∃ s, x_reach n (prog73 n) s ∧ x_end s = Some Dangling.
Proof.
  intros Hn Hlt. split; [by destruct n; [lia|]|]. destruct (submit73 n n Hn ltac:(done) Hlt) as (ts & (Hl & Hf & Hc) & Hr). destruct (Hc ltac:(lia)) as (x0 & Hx0 & Hc0).
  assert (is_Some (ts !! (n - 1))) as (x1 & Hx1) by (apply lookup_lt_is_Some; lia).
  pose proof (proj1 (Forall_lookup _ _) Hf _ _ Hx0) as [Hs0 Hb0]. pose proof (proj1 (Forall_lookup _ _) Hf _ _ Hx1) as [Hs1 Hb1].
  assert (last (seq 0 n) = Some (n - 1) ∧ pop_back (seq 0 n) = seq 0 (n - 1)) as [Hla Hpop].
  { replace n with (S (n - 1)) at 1 3 by lia. rewrite seq_S. rewrite last_snoc. split; [done|]. unfold pop_back. rewrite app_length, seq_length. cbn. rewrite take_app_alt by (rewrite seq_length; lia). done. }
  set (idle := replicate (n - 1) (XWorker [] [])).
  assert (x_reach n (prog73 n) (XPool ts (XWorker (seq 0 n) [XFrame None (XCode (SWait 0 0 :: tail73))] :: idle) [] 1 [] false None)) as R1.
  { eapply xr_step with (w := 0) (v := None); [exact Hr|]. unfold st73. rewrite Nat.sub_diag. destruct n as [|m]; [lia|]. reflexivity. }
  assert (x_reach n (prog73 n) (XPool ts (XWorker (seq 0 (n - 1)) [XFrame (Some (n - 1)) (XCode [SRun XThrow]); XFrame None (XCode (SWait 0 0 :: tail73))] :: idle) [] 1 [] false None)) as R2.
  { eapply xr_step with (w := 0) (v := None); [exact R1|]. unfold x_step. cbn [x_end x_workers lookup list_lookup mbind option_bind xw_stack x_code x_tasks]. cbn in Hx0. rewrite Hx0. cbn [mbind option_bind].
    rewrite bool_decide_eq_false_2 by (rewrite Hc0; lia). unfold x_get_task. cbn [x_workers lookup list_lookup mbind option_bind xw_queue]. rewrite Hla, Hpop. cbn [mbind option_bind fst snd].
    unfold x_execute. cbn [x_upd x_set_workers x_tasks]. rewrite Hx1. cbn [mbind option_bind]. unfold x_lives. cbn [x_tasks x_upd x_set_workers x_dead]. rewrite Hx1.
    rewrite bool_decide_eq_true_2 by (apply not_elem_of_nil). cbn. rewrite Hb1. reflexivity. }
  assert (x_reach n (prog73 n) (XPool ts (XWorker (seq 0 (n - 1)) [XFrame None (XCode [SRun (XMark 1 XDone); SRun XDone])] :: idle) [0] 1 [] true None)) as R3.
  { eapply xr_step with (w := 0) (v := None); [exact R2|]. reflexivity. }
  destruct n as [|[|m]]; [lia|lia|]. eexists. split; [eapply xr_step with (w := 1) (v := Some 0); [exact R3|]|].
  - unfold x_step. subst idle. cbn [x_end x_workers Nat.sub replicate seq lookup list_lookup mbind option_bind xw_stack]. unfold x_get_task. cbn [x_workers lookup list_lookup mbind option_bind xw_queue last].
    rewrite decide_False by done. cbn [mbind option_bind xw_queue fst snd].
    unfold x_execute. cbn [x_upd x_set_workers x_tasks]. rewrite Hx0. cbn [mbind option_bind]. unfold x_lives. cbn [x_tasks x_upd x_set_workers x_dead]. rewrite Hx0, Hs0.
    rewrite bool_decide_eq_false_2 by (intros H; apply H; left). reflexivity.
  - reflexivity.
Qed.

(** The program is terminated although the call of parallel_for is in a try block with a handler for everything. *)
Theorem C73_terminated_refuted n :
  2 ≤ n → (N.of_nat n < 65536)%N →
  x_eval (prog73 n) = ([1], false) ∧ ∃ s, x_reach n (prog73 n) s ∧ x_end s = Some Terminated.
Proof.
  intros Hn Hlt. split; [by destruct n; [lia|]|]. destruct (submit73 n 1 Hn ltac:(lia) Hlt) as (ts & (Hl & Hf & Hc) & Hr). destruct (Hc ltac:(lia)) as (x0 & Hx0 & Hc0).
  pose proof (proj1 (Forall_lookup _ _) Hf _ _ Hx0) as [Hs0 Hb0]. destruct n as [|[|m]]; [lia|lia|].
  set (l := SSubmit 0 (replicate (S m) [XThrow]) (Some 0) :: tail73).
  assert (x_reach (S (S m)) (prog73 (S (S m))) (XPool ts (XWorker [] [XFrame None (XCode l)] :: XWorker [] [XFrame (Some 0) (XCode [SRun XThrow])] :: replicate m (XWorker [] [])) [] 1 [] false None)) as R1.
  { eapply xr_step with (w := 1) (v := Some 0); [exact Hr|]. unfold x_step, st73. cbn [x_end x_workers Nat.sub replicate seq lookup list_lookup mbind option_bind xw_stack]. unfold x_get_task. cbn [x_workers lookup list_lookup mbind option_bind xw_queue last].
    rewrite decide_False by done. cbn [mbind option_bind xw_queue fst snd]. unfold x_execute. cbn [x_upd x_set_workers x_tasks]. rewrite Hx0. cbn [mbind option_bind]. unfold x_lives. cbn [x_tasks x_upd x_set_workers x_dead]. rewrite Hx0.
    rewrite bool_decide_eq_true_2 by (apply not_elem_of_nil). cbn. rewrite Hb0. reflexivity. }
  eexists. split; [eapply xr_step with (w := 1) (v := None); [exact R1|reflexivity]|reflexivity].
Qed.

(** An exception goes to a handler on the thread that happened to run the task, not to the one around the call of
    parallel_for; then the call it was meant for waits forever: no step changes anything any more, main has returned,
    and worker 1 is still in its task. *)
Definition inner73 : xprog := XTry (XEach [XThrow; XDone] XDone) (XMark 1 XDone) XDone.
Definition outer73 : xprog := XTry (XEach [inner73; XDone] XDone) (XMark 9 XDone) XDone.
Fixpoint x_run (l : list (nat * option nat)) (s : xpool) : option xpool :=
  match l with [] => Some s | (w, v) :: l => s' ← x_step w v s; x_run l s' end.
Lemma run_reach n p l : ∀ s s', x_reach n p s → x_run l s = Some s' → x_reach n p s'.
Proof.
  induction l as [|[w v] l IH]; cbn; intros s s' Hr Hs; [by injection Hs as <-|]. destruct (x_step w v s) as [s2|] eqn:E; [|done]. eapply IH; [|exact Hs]. by econstructor.
Qed.
Definition run73 : list (nat * option nat) :=
  replicate 5 (0, None)                                 (* main submits both batches, the nested call being the first *)
  ++ [(1, Some 0)] ++ replicate 5 (1, None)             (* worker 1 takes it, submits two batches and waits *)
  ++ replicate 7 (0, None)                              (* main runs its other batch, *)
  ++ [(0, Some 1); (0, None)]                           (* takes the batch of worker 1 that throws and leaves its own call *)
  ++ replicate 4 (0, None)                              (* for its handler *)
  ++ replicate 7 (1, None).                             (* worker 1 runs its other batch *)
Definition end73 : xpool :=
  XPool [XTask (Task None 1 false) 0 [inner73]; XTask (Task (Some 0) 0 true) 0 [XDone]; XTask (Task None 1 false) 1 [XThrow]; XTask (Task (Some 2) 0 true) 1 [XDone]]
    [XWorker [] []; XWorker [] [XFrame (Some 0) (XCode [SWait 1 2; SRun XDone; STry (XMark 1 XDone); SRun XDone])]] [0] 2 [9] true None.
Theorem C73_wrong_handler_refuted :
  x_eval outer73 = ([1], false) ∧
  ∃ s, x_reach 2 outer73 s ∧ x_end s = None ∧ x_trace s = [9] ∧ x_workers s !! 0 = Some (XWorker [] []) ∧
    (∃ f st, x_workers s !! 1 = Some (XWorker [] (f :: st))) ∧ ∀ w v s', x_step w v s = Some s' → s' = s.
Proof.
  split; [done|]. exists end73. split; [apply (run_reach _ _ run73 (x_start 2 outer73)); [constructor|by vm_compute]|]. split; [done|]. split; [done|]. split; [done|].
  split; [by eexists _, _|]. intros w v s' Hs. destruct w as [|[|w]]; [done| |done]. destruct v as [[|[|j]]|]; [|done|done|]; cbn in Hs; by injection Hs as <-.
Qed.

(** * The theorems' hypotheses can be met *)

(** One worker; the second element's exception is caught by main. *)
Definition seq73 : xprog := XTry (XEach [XMark 1 XDone; XEach [XMark 2 XThrow; XMark 3 XDone] XDone] (XMark 4 XDone)) (XMark 5 XDone) (XMark 6 XDone).
Example ex_C73_one_worker : x_small 1 seq73 ∧ x_eval seq73 = ([1; 2; 5; 6], false) ∧
  ∃ s, x_reach 1 seq73 s ∧ x_end s = None ∧ x_workers s !! 0 = Some (XWorker [] []) ∧ x_trace s = [1; 2; 5; 6] ∧ length (x_tasks s) = 2.
Proof.
  split; [cbn; repeat split; lia|]. split; [done|]. destruct (x_run (replicate 18 (0, None)) (x_start 1 seq73)) as [s|] eqn:E; [|by vm_compute in E].
  exists s. split; [eapply run_reach; [constructor|exact E]|]. vm_compute in E. by injection E as <-.
Qed.
(** Three workers, a range of two. *)
Example ex_C73_short : x_small 3 seq73 ∧ ∃ s, x_reach 3 seq73 s ∧ x_end s = None ∧ x_workers s !! 0 = Some (XWorker [] []) ∧ x_trace s = [1; 2; 5; 6] ∧ length (x_tasks s) = 0.
Proof.
  split; [cbn; repeat split; lia|]. destruct (x_run (replicate 12 (0, None) ++ [(1, Some 0)]) (x_start 3 seq73)) as [s|] eqn:E; [|by vm_compute in E].
  exists s. split; [eapply run_reach; [constructor|exact E]|]. vm_compute in E. by injection E as <-.
Qed.
(** Nobody catches: the program is terminated, with one worker as the sequential program is. *)
Example ex_C73_uncaught : x_small 1 (XMark 7 (XEach [XThrow] XDone)) ∧ ∃ s, x_reach 1 (XMark 7 (XEach [XThrow] XDone)) s ∧ x_end s = Some Terminated ∧ x_trace s = [7].
Proof.
  split; [cbn; repeat split; lia|]. destruct (x_run (replicate 6 (0, None)) (x_start 1 (XMark 7 (XEach [XThrow] XDone)))) as [s|] eqn:E; [|by vm_compute in E].
  exists s. split; [eapply run_reach; [constructor|exact E]|]. vm_compute in E. by injection E as <-.
Qed.
(** Two workers, nested calls, nothing thrown: worker 1 is in a nested call, main's scope is alive, and the nested scope too. *)
Definition calm73 : xprog := XEach [XEach [XMark 1 XDone; XMark 2 XDone] XDone; XMark 3 XDone] (XMark 4 XDone).
Example ex_C73_no_throw : ∃ s, x_reach 2 calm73 s ∧ x_threw s = false ∧ length (x_tasks s) = 4 ∧
  (∃ x, x_workers s !! 1 = Some x ∧ 2 ∈ xw_queue x ∧ ∃ l, XFrame (Some 0) (XCode l) ∈ xw_stack x).
Proof.
  destruct (x_run (replicate 4 (0, None) ++ [(1, Some 0)] ++ replicate 4 (1, None)) (x_start 2 calm73)) as [s|] eqn:E; [|by vm_compute in E].
  exists s. split; [eapply run_reach; [constructor|exact E]|]. vm_compute in E. injection E as <-. split; [done|]. split; [done|]. eexists. split; [done|]. split; [left|]. eexists. left.
Qed.

Print Assumptions C73_sequential_partial.
Print Assumptions C73_main_ends_partial.
Print Assumptions C73_no_throw_partial.
Print Assumptions C73_dangling_refuted.
Print Assumptions C73_terminated_refuted.
Print Assumptions C73_wrong_handler_refuted.
