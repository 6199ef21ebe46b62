(** Proofs about the slots of tasks. *)
From Verif Require Import Base Task ThreadPool ThreadPoolProofs ThreadPoolRun ThreadPoolJoin PropThreadPool PoolTrace PropPoolTrace PoolSlot.
Ltac Zify.zify_post_hook ::= Z.div_mod_to_equations.
Local Open Scope nat_scope.

(** * The slots *)

Lemma task_slot_mod n : task_slot n = (n mod 4096)%N.
Proof. unfold task_slot, max_tasks. change (4096 - 1)%N with (N.ones 12). rewrite N.land_ones. done. Qed.

Lemma mod_distance (a d : N) : (0 < d)%N → (a mod 4096 = (a + d) mod 4096)%N → (0 < d / 4096)%N ∧ d = (4096 * (d / 4096))%N.
Proof. intros Hd E. lia. Qed.
Lemma mod_same (a i : N) : (a mod 4096 = (a + 4096 * i) mod 4096)%N.
Proof. lia. Qed.
Lemma slot_distance c0 al t u : t < u → u < length al → slot_of c0 al t = slot_of c0 al u →
  ∃ w i, al !! t = Some w ∧ al !! u = Some w ∧ (0 < i)%N ∧ N.of_nat (length (filter (eq w) (take (u - t) (drop t al)))) = (4096 * i)%N.
Proof.
  intros Htu Hu. unfold slot_of. destruct (lookup_lt_is_Some_2 al t) as [w Hw]; [lia|]. destruct (lookup_lt_is_Some_2 al u) as [w' Hw']; [done|].
  rewrite Hw, Hw'. cbn. intros [= <- E]. rewrite !task_slot_mod in E.
  assert (take u al = take t al ++ take (u - t) (drop t al)) as Et by (rewrite take_take_drop; f_equal; lia).
  rewrite Et, filter_app, app_length, Nat2N.inj_add, N.add_assoc in E.
  assert (0 < N.of_nat (length (filter (eq w) (take (u - t) (drop t al)))))%N as Hd.
  { rewrite (drop_S al w t Hw). destruct (u - t) as [|m] eqn:Em; [lia|]. cbn [take]. rewrite filter_cons_True by done. cbn [length]. lia. }
  destruct (mod_distance _ _ Hd E) as [H1 H2]. exists w. eexists. split; [done|]. split; [done|]. split; [exact H1|exact H2].
Qed.

Lemma slot_same c0 al t u w i : t < u → al !! t = Some w → al !! u = Some w →
  N.of_nat (length (filter (eq w) (take (u - t) (drop t al)))) = (4096 * i)%N → slot_of c0 al t = slot_of c0 al u.
Proof.
  intros Htu Ht Hu. unfold slot_of. rewrite Ht, Hu. cbn [mbind option_bind].
  assert (take u al = take t al ++ take (u - t) (drop t al)) as -> by (rewrite take_take_drop; f_equal; lia).
  rewrite filter_app, app_length, Nat2N.inj_add. intros E. rewrite E, N.add_assoc, !task_slot_mod. do 2 f_equal. apply mod_same.
Qed.

Lemma slotted_length Q n main s al : slotted Q n main s al → length al = length (p_tasks s) ∧ pool_reach n main s.
Proof.
  induction 1 as [|s al w v s' _ [IH Hr] Hst]; [split; [done|apply pr_init]|]. split; [|by eapply pr_step].
  rewrite app_length, replicate_length, IH. enough (length (p_tasks s) ≤ length (p_tasks s')) by lia.
  apply pool_step_core in Hst as [E|[l Hc]]; [change (p_tasks s') with (c_tasks (core_of s')); by rewrite E|]. by apply pool_step_tasks in Hc.
Qed.

Lemma sl_same Q n main s al w v s' : slotted Q n main s al → pool_step s w v = Some s' → length (p_tasks s') = length (p_tasks s) → Q s' →
  slotted Q n main s' al.
Proof. intros H Hs Hl HQ. pose proof (sl_step _ _ _ _ _ _ _ _ H Hs HQ) as H'. rewrite Hl, Nat.sub_diag in H'. cbn in H'. by rewrite app_nil_r in H'. Qed.
Lemma sl_new Q n main s al w v s' : slotted Q n main s al → pool_step s w v = Some s' → length (p_tasks s') = S (length (p_tasks s)) → Q s' →
  slotted Q n main s' (al ++ [w]).
Proof.
  intros H Hs Hl HQ. pose proof (sl_step _ _ _ _ _ _ _ _ H Hs HQ) as H'. rewrite Hl in H'.
  by replace (S (length (p_tasks s)) - length (p_tasks s)) with 1 in H' by lia.
Qed.

(** * Calls of parallel_for one after the other *)

Lemma alter_last {A} (f : A → A) l x : alter f (length l) (l ++ [x]) = l ++ [f x].
Proof. rewrite <- (Nat.add_0_r (length l)). rewrite alter_app_r. done. Qed.
Lemma lookup_last {A} (l : list A) x : (l ++ [x]) !! length l = Some x.
Proof. by apply list_lookup_middle. Qed.

Definition at_call (ts : list task) (ps : list prog) (o : option nat) (p : prog) (st : list frame) (rest : list worker) (sem : N) (sd : list nat) : tpool :=
  TPool ts ps (Worker [] (Frame o (FRun p) :: st) BExit true :: rest) sem sd.

Definition few (k : nat) (s : tpool) : Prop := unfinished_tasks s ≤ k.

Section run.
  Context (k n : nat) (main : prog).
  Notation R := (slotted (few k) n main).

  (** Submit one task. *)
  Lemma run_submit ts ps o c q st rest sem sd al : R (at_call ts ps o (PSubmit c None q) st rest sem sd) al →
    S (length (filter unfinished ts)) ≤ k →
    R (TPool (ts ++ [Task None 1 false]) (ps ++ [c]) (Worker [length ts] (Frame o (FRun (q (length ts))) :: st) BExit true :: rest) (sem + 1) sd)
      (al ++ [0]).
  Proof.
    intros H Hk. eapply (sl_new _ _ _ _ _ 0 None); [exact H|reflexivity|cbn; rewrite app_length; cbn; lia|].
    unfold few, unfinished_tasks. cbn. rewrite filter_app, app_length. cbn. case_decide; cbn; lia.
  Qed.

  (** Execute it inside the wait, and go on. *)
  Lemma run_wait ts ps o q st rest sem sd al : length ps = length ts →
    R (TPool (ts ++ [Task None 1 false]) (ps ++ [PDone]) (Worker [length ts] (Frame o (FRun (PWait (length ts) q)) :: st) BExit true :: rest) sem sd) al →
    S (length (filter unfinished ts)) ≤ k →
    ∃ sem' sd', R (at_call (ts ++ [Task None 0 true]) (ps ++ [PDone]) o q st rest sem' sd') al.
  Proof.
    intros Hl H Hk.
    assert (∀ x a b c, few k (TPool (ts ++ [x]) a b c sd) ∧ ∀ d, few k (TPool (ts ++ [x]) a b c d)) as HQ.
    { intros x a b c. assert (length (filter unfinished (ts ++ [x])) ≤ k).
      { rewrite filter_app, app_length, filter_cons. case_decide; cbn; lia. }
      by split. }
    eapply (sl_same _ _ _ _ _ 0 None) in H; [|unfold pool_step, frame_step; cbn; rewrite lookup_last; cbn; unfold get_task, wk_execute; cbn; rewrite <-Hl, lookup_last; reflexivity|done|apply HQ].
    eapply (sl_same _ _ _ _ _ 0 None) in H; [|unfold pool_step, frame_step; cbn; rewrite Hl, alter_last; reflexivity|cbn; by rewrite !app_length|apply HQ].
    eapply (sl_same _ _ _ _ _ 0 None) in H; [|unfold pool_step, frame_step; cbn; rewrite ?Hl, alter_last; reflexivity|cbn; by rewrite !app_length|apply HQ].
    eapply (sl_same _ _ _ _ _ 0 None) in H; [|unfold pool_step, frame_step; cbn; rewrite ?Hl, lookup_last; reflexivity|cbn; by rewrite !app_length|apply HQ].
    eapply (sl_same _ _ _ _ _ 0 None) in H; [|unfold pool_step, frame_step; cbn; rewrite ?Hl, lookup_last; reflexivity|cbn; by rewrite !app_length|apply HQ].
    cbn in H. eexists _, _. exact H.
  Qed.

  Lemma calls_S m : comp (calls_of_one (S m)) = PSubmit PDone None (λ t, PWait t (comp (calls_of_one m))).
  Proof. done. Qed.
  Lemma run_calls i : ∀ m ts ps o st rest sem sd al, length ps = length ts →
    R (at_call ts ps o (comp (calls_of_one (i + m))) st rest sem sd) al → S (length (filter unfinished ts)) ≤ k →
    ∃ sem' sd', R (at_call (ts ++ replicate i (Task None 0 true)) (ps ++ replicate i PDone) o (comp (calls_of_one m)) st rest sem' sd') (al ++ replicate i 0).
  Proof.
    induction i as [|i IH]; intros m ts ps o st rest sem sd al Hl H Hk.
    - cbn [replicate]. rewrite !app_nil_r. by eexists _, _.
    - change (S i + m) with (S (i + m)) in H. rewrite calls_S in H. apply run_submit in H; [|done]. apply run_wait in H as (sem1 & sd1 & H); [|done|done].
      apply IH in H as (sem' & sd' & H'); [|by rewrite !app_length, Hl|].
      2: { rewrite filter_app, app_length. cbn. rewrite decide_False by (intros [?|?]; done). cbn. lia. }
      exists sem', sd'. cbn [replicate]. rewrite <-!app_assoc in H'. exact H'.
  Qed.
End run.

Lemma filter_zeros m : length (filter (eq 0) (replicate m 0)) = m.
Proof. induction m as [|m IH]; [done|]. cbn [replicate]. rewrite filter_cons_True by done. cbn. by rewrite IH. Qed.
Lemma zeros_slot c0 m : N.of_nat m = 4096%N → slot_of c0 (replicate (S m) 0) 0 = slot_of c0 (replicate (S m) 0) m.
Proof.
  intros Hm. apply (slot_same _ _ 0 m 0 1); [lia|done|by apply lookup_replicate; lia|].
  rewrite drop_0, Nat.sub_0_r, take_replicate, filter_zeros. replace (m `min` S m) with m by lia. rewrite Hm. done.
Qed.

Lemma few_done m : length (filter unfinished (replicate m (Task None 0 true))) = 0.
Proof. induction m as [|m IH]; [done|]. cbn [replicate]. rewrite filter_cons_False by (intros [?|?]; done). exact IH. Qed.
Lemma few_one x : length (filter unfinished [x]) ≤ 1.
Proof. rewrite filter_cons. case_decide; cbn; lia. Qed.

(** A function called by parallel_for that calls parallel_for again and again. *)
Lemma run_nested n m : ∃ s, slotted (few 2) n (comp (CFork [calls_of_one (S m)] [] CDone)) s (replicate (S (S m)) 0) ∧
  p_tasks s = Task None 1 false :: replicate m (Task None 0 true) ++ [Task None 1 false].
Proof.
  set (main := comp _).
  assert (slotted (few 2) n main (at_call [] [] None main [] (replicate (n - 1) (Worker [] [] BGet true)) 0 []) []) as H.
  { apply sl_init. unfold few, unfinished_tasks. cbn. lia. }
  unfold main in H at 2. cbn [comp fmap list_fmap] in H. unfold batch_call in H. cbn [submit_all fmap list_fmap foldr seq_prog default wait_parent] in H.
  apply run_submit in H; [|cbn; lia]. cbn [app length] in H.
  set (rest := replicate _ _) in H.
  assert (slotted (few 2) n main (at_call [Task None 1 false] [comp (calls_of_one (S m))] (Some 0) (comp (calls_of_one (S m)))
    [Frame None (FRun (PWait 0 PDone))] rest (0 + 1 + 1) [0]) [0]) as H1.
  { eapply (sl_same _ _ _ _ _ 0 None); [exact H|reflexivity|done|]. unfold few, unfinished_tasks. cbn. case_decide; cbn; lia. }
  clear H. rename H1 into H. replace (S m) with (m + 1) in H at 2 by lia.
  apply run_calls in H as (sem & sd & H); [|done|cbn; case_decide; cbn; lia]. rewrite calls_S in H. apply run_submit in H.
  2: { rewrite filter_app, app_length, few_done. pose proof (few_one (Task None 1 false)). lia. }
  eexists. split.
  - replace (replicate (S (S m)) 0) with (([0] ++ replicate m 0) ++ [0]) by (cbn; f_equal; by rewrite <-replicate_cons_app). exact H.
  - done.
Qed.

(** Another worker is late to look at the counter it decremented. *)
Lemma run_late n m : ∃ s, slotted (few 1) (2 + n) (comp (calls_of_one (S (S m)))) s (replicate (S (S m)) 0) ∧
  p_tasks s = Task None 0 true :: replicate m (Task None 0 true) ++ [Task None 1 false] ∧
  p_workers s !! 1 = Some (Worker [] [Frame (Some 0) (FCheck 0)] BGet true).
Proof.
  set (main := comp _). set (rest := replicate n (Worker [] [] BGet true)).
  assert (slotted (few 1) (2 + n) main (at_call [] [] None main [] (Worker [] [] BGet true :: rest) 0 []) []) as H.
  { assert (at_call [] [] None main [] (Worker [] [] BGet true :: rest) 0 [] = pool_start (2 + n) main) as ->.
    { unfold at_call, pool_start. do 2 f_equal. }
    apply sl_init. unfold few, unfinished_tasks. cbn. lia. }
  unfold main in H at 2. rewrite calls_S in H. apply run_submit in H; [|cbn; lia]. cbn [app length] in H.
  set (K := comp (calls_of_one (S m))) in H.
  assert (∀ x a b c d, few 1 (TPool [x] a b c d)) as HQ.
  { intros x a b c d. unfold few, unfinished_tasks. cbn. case_decide; cbn; lia. }
  set (w0 := Worker [] [Frame None (FRun (PWait 0 K))] BExit true).
  assert (∃ sem sd, slotted (few 1) (2 + n) main (TPool [Task None 1 false] [PDone] (w0 :: Worker [] [Frame (Some 0) (FRun PDone)] BGet true :: rest) sem sd) [0]) as (sem1 & sd1 & H1).
  { eexists _, _. eapply (sl_same _ _ _ _ _ 1 (Some 0)); [exact H|reflexivity|done|apply HQ]. }
  assert (slotted (few 1) (2 + n) main (TPool [Task None 1 true] [PDone] (w0 :: Worker [] [Frame (Some 0) (FSub 0)] BGet true :: rest) sem1 sd1) [0]) as H2.
  { eapply (sl_same _ _ _ _ _ 1 None); [exact H1|reflexivity|done|apply HQ]. }
  assert (slotted (few 1) (2 + n) main (TPool [Task None 0 true] [PDone] (w0 :: Worker [] [Frame (Some 0) (FCheck 0)] BGet true :: rest) sem1 sd1) [0]) as H3.
  { eapply (sl_same _ _ _ _ _ 1 None); [exact H2|reflexivity|done|apply HQ]. }
  assert (slotted (few 1) (2 + n) main (at_call [Task None 0 true] [PDone] None (comp (calls_of_one (m + 1))) [] (Worker [] [Frame (Some 0) (FCheck 0)] BGet true :: rest) sem1 sd1) [0]) as H4.
  { replace (m + 1) with (S m) by lia. eapply (sl_same _ _ _ _ _ 0 None); [exact H3|reflexivity|done|apply HQ]. }
  apply run_calls in H4 as (sem & sd & H4); [|done|cbn; rewrite decide_False by (intros [?|?]; done); cbn; lia]. rewrite calls_S in H4. apply run_submit in H4.
  2: { rewrite filter_app, app_length, few_done, filter_cons_False by (intros [?|?]; done). cbn. lia. }
  eexists. split; [|split].
  - replace (replicate (S (S m)) 0) with (([0] ++ replicate m 0) ++ [0]) by (cbn; f_equal; by rewrite <-replicate_cons_app). exact H4.
  - done.
  - done.
Qed.
