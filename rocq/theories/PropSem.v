(** C59: what the count of the semaphore is bounded by. *)
From Verif Require Import Base Task ThreadPool.
Local Open Scope nat_scope.

(** Worker [w] is inside wait. *)
Definition in_wait (s : tpool) (w : nat) : bool :=
  match p_workers s !! w with
  | Some x => match w_stack x with fr :: _ => match f_pc fr with FRun (PWait _ _) => true | _ => false end | [] => false end
  | None => false
  end.

(** A run, with the number of steps made inside wait. *)
Inductive wait_rounds (n : nat) (main : prog) : tpool → nat → Prop :=
  | wr_init : wait_rounds n main (pool_start n main) 0
  | wr_step s k w v s' : wait_rounds n main s k → pool_step s w v = Some s' →
      wait_rounds n main s' (if in_wait s w then S k else k).

(** The code never waits. *)
Fixpoint waitless (p : prog) : Prop :=
  match p with
  | PDone => True
  | PSubmit c _ k => waitless c ∧ ∀ t, waitless (k t)
  | PWait _ _ => False
  | PStop k | PAct _ k => waitless k
  end.

Lemma get_task_same s w v r : get_task s w v = Some r → p_sem r.2 = p_sem s ∧ p_tasks r.2 = p_tasks s ∧ p_progs r.2 = p_progs s.
Proof.
  unfold get_task. destruct (p_workers s !! w) as [x|]; [|done]. cbn [mbind option_bind]. destruct (last (w_queue x)); [by intros [= <-]|].
  destruct v as [j|]; [|by intros [= <-]]. case_decide; [done|]. destruct (p_workers s !! j) as [y|]; [|done]. cbn [mbind option_bind].
  destruct (w_queue y); by intros [= <-].
Qed.
Lemma execute_same s w t s' : wk_execute s w t = Some s' → p_sem s' = p_sem s ∧ p_tasks s' = p_tasks s ∧ p_progs s' = p_progs s.
Proof. unfold wk_execute. destruct (p_progs s !! t); [|done]. cbn [mbind option_bind]. by intros [= <-]. Qed.

Lemma sem_step s w v s' : pool_step s w v = Some s' →
  (p_sem s' + N.of_nat (length (p_tasks s)) <= p_sem s + N.of_nat (length (p_tasks s')) + (if in_wait s w then 1 else 0))%N.
Proof.
  unfold pool_step, in_wait. destruct (p_workers s !! w) as [x|]; [|done]. cbn [mbind option_bind]. destruct (w_stack x) as [|fr st].
  - destruct (w_base x); [| |done].
    + destruct (get_task s w v) as [r|] eqn:Eg; [|done]. cbn [mbind option_bind]. destruct (get_task_same _ _ _ _ Eg) as (H1 & H2 & _).
      destruct r.1 as [u|].
      * intros He%execute_same. destruct He as (H3 & H4 & _). rewrite H3, H4, H1, H2. lia.
      * intros [= <-]. cbn. rewrite H1, H2. lia.
    + intros [= <-]. cbn. lia.
  - unfold frame_step. destruct (f_pc fr) as [[|c p k|t k|k|a k]|t|t]; cbn [mbind option_bind].
    + destruct (f_task fr); intros [= <-]; cbn; rewrite ?alter_length; lia.
    + intros [= <-]. cbn. rewrite app_length. destruct p; rewrite ?alter_length; cbn [length]; lia.
    + destruct (p_tasks s !! t) as [y|]; [|done]. cbn [mbind option_bind]. case_bool_decide; [intros [= <-]; cbn; lia|].
      destruct (get_task s w v) as [r|] eqn:Eg; [|done]. cbn [mbind option_bind]. destruct (get_task_same _ _ _ _ Eg) as (H1 & H2 & _).
      destruct r.1 as [u|].
      * intros He%execute_same. destruct He as (H3 & H4 & _). rewrite H3, H4. cbn. rewrite H1, H2. lia.
      * intros [= <-]. cbn. rewrite H1, H2. lia.
    + intros [= <-]. cbn. lia.
    + intros [= <-]. cbn. lia.
    + intros [= <-]. cbn. rewrite alter_length. lia.
    + destruct (p_tasks s !! t) as [y|]; [|done]. cbn [mbind option_bind].
      destruct (if bool_decide (t_ctr y = 0%N) then t_parent y else None); intros [= <-]; cbn; lia.
Qed.

(** The count is bounded by the number of tasks and of iterations of the loops of waits.  Missing: there is no bound on the
    latter, see [C59_semaphore_refuted]. *)
Theorem C59_rounds_partial (n : nat) (main : prog) (s : tpool) (k : nat) : wait_rounds n main s k →
  (p_sem s <= N.of_nat (length (p_tasks s) + k))%N.
Proof.
  induction 1 as [|s k w v s' _ IH Hst]; [cbn; lia|]. apply sem_step in Hst. destruct (in_wait s w); lia.
Qed.

Definition quiet (s : tpool) : Prop :=
  (∀ p, p ∈ p_progs s → waitless p) ∧
  ∀ w x fr, p_workers s !! w = Some x → fr ∈ w_stack x → match f_pc fr with FRun p => waitless p | _ => True end.

Lemma quiet_alter s w (f : worker → worker) : quiet s → (∀ x, p_workers s !! w = Some x →
  ∀ fr, fr ∈ w_stack (f x) → match f_pc fr with FRun p => waitless p | _ => True end) →
  quiet (upd_worker f w s).
Proof.
  intros [H1 H2] H. split; [done|]. intros w' x fr Hx Hfr. cbn in Hx. destruct (decide (w' = w)) as [->|].
  - rewrite list_lookup_alter in Hx. apply fmap_Some in Hx as (y & Hy & ->). by eapply H.
  - rewrite list_lookup_alter_ne in Hx by done. by eapply H2.
Qed.
Lemma quiet_same s s' : p_progs s' = p_progs s → p_workers s' = p_workers s → quiet s → quiet s'.
Proof. unfold quiet. by intros -> ->. Qed.

Lemma quiet_get s w v r : quiet s → get_task s w v = Some r → quiet r.2.
Proof.
  intros H. unfold get_task. destruct (p_workers s !! w) as [x|]; [|done]. cbn [mbind option_bind].
  assert (∀ q i, quiet (upd_worker (set_queue q) i s)) as Hq.
  { intros q i. apply quiet_alter; [done|]. intros y Hy fr Hfr. by eapply (proj2 H). }
  destruct (last (w_queue x)); [intros [= <-]; apply Hq|].
  destruct v as [j|]; [|by intros [= <-]]. case_decide; [done|]. destruct (p_workers s !! j) as [y|]; [|done]. cbn [mbind option_bind].
  destruct (w_queue y); intros [= <-]; [done|apply Hq].
Qed.
Lemma quiet_execute s w t s' : quiet s → wk_execute s w t = Some s' → quiet s'.
Proof.
  intros H. unfold wk_execute. destruct (p_progs s !! t) as [c|] eqn:Ec; [|done]. cbn [mbind option_bind]. intros [= <-].
  eapply quiet_same; [| |apply (quiet_alter s w (λ x, set_stack (Frame (Some t) (FRun c) :: w_stack x) x) H)]; [done|done|].
  intros x Hx fr [->|Hfr]%elem_of_cons; [|by eapply (proj2 H)]. cbn. apply H. by eapply elem_of_list_lookup_2.
Qed.

Lemma quiet_step s w v s' : quiet s → pool_step s w v = Some s' → quiet s' ∧ in_wait s w = false.
Proof.
  intros H. unfold pool_step, in_wait. destruct (p_workers s !! w) as [x|] eqn:Ex; [|done]. cbn [mbind option_bind].
  destruct (w_stack x) as [|fr st] eqn:Est.
  - intros Hs. split; [|done]. destruct (w_base x); [| |done].
    + destruct (get_task s w v) as [r|] eqn:Eg; [|done]. cbn [mbind option_bind] in Hs. pose proof (quiet_get _ _ _ _ H Eg) as Hr.
      destruct r.1 as [u|]; [by eapply quiet_execute|]. injection Hs as <-.
      apply (quiet_alter (sem_wait r.2)); [by apply (quiet_same r.2)|]. intros y Hy fr Hfr. by eapply (proj2 Hr).
    + injection Hs as <-. apply quiet_alter; [done|]. intros y Hy fr Hfr. by eapply (proj2 H).
  - assert (∀ f, f ∈ fr :: st → match f_pc f with FRun p => waitless p | _ => True end) as Hst.
    { intros f Hf. eapply (proj2 H); [done|]. by rewrite Est. }
    pose proof (Hst fr (elem_of_list_here _ _)) as Hfr.
    assert (∀ pc s0, quiet s0 → match pc with FRun p => waitless p | _ => True end →
      quiet (upd_worker (set_stack (Frame (f_task fr) pc :: st)) w s0)) as Hgo.
    { intros pc s0 H0 Hpc. apply quiet_alter; [done|]. intros y _ f [->|Hf]%elem_of_cons; [done|]. apply Hst. by right. }
    assert (quiet (upd_worker (set_stack st) w s)) as Hpop.
    { apply quiet_alter; [done|]. intros y _ f Hf. apply Hst. by right. }
    unfold frame_step. destruct (f_pc fr) as [[|c p k|t k|k|a k]|t|t]; cbn [mbind option_bind]; intros Hs; try by destruct Hfr.
    all: split; [|done].
    + destruct (f_task fr) as [t|]; injection Hs as <-; [|done]. apply Hgo; [|done]. by apply (quiet_same s).
    + injection Hs as <-. cbn [waitless] in Hfr. destruct Hfr as [Hc Hk]. apply Hgo; [|apply Hk]. split.
      * cbn. intros q [Hq| ->%elem_of_list_singleton]%elem_of_app; [by apply H|done].
      * intros w' y f Hy Hf. cbn in Hy. destruct (decide (w' = w)) as [->|].
        -- rewrite list_lookup_alter in Hy. apply fmap_Some in Hy as (z & Hz & ->). by eapply (proj2 H).
        -- rewrite list_lookup_alter_ne in Hy by done. by eapply (proj2 H).
    + injection Hs as <-. apply Hgo; [|done]. split; [apply H|]. intros w' y f Hy Hf. cbn in Hy. rewrite list_lookup_imap in Hy.
      apply fmap_Some in Hy as (z & Hz & ->). eapply (proj2 H); [done|]. by case_decide.
    + injection Hs as <-. by apply Hgo.
    + injection Hs as <-. apply Hgo; [|done]. by apply (quiet_same s).
    + destruct (p_tasks s !! t) as [y|]; [|done]. cbn [mbind option_bind] in Hs.
      destruct (if bool_decide (t_ctr y = 0%N) then t_parent y else None); injection Hs as <-; [by apply Hgo|done].
Qed.

(** Code that does not wait: at most one release for every task. *)
Theorem C59_no_wait_partial (n : nat) (main : prog) (s : tpool) : waitless main → pool_reach n main s →
  (p_sem s <= N.of_nat (length (p_tasks s)))%N.
Proof.
  intros Hm Hr. assert (quiet s ∧ (p_sem s <= N.of_nat (length (p_tasks s)))%N) as [_ ?]; [|done].
  induction Hr as [|s w v s' _ [IH1 IH2] Hst].
  - split; [|cbn; lia]. split; [intros p Hp; by apply elem_of_nil in Hp|]. intros w x fr Hx Hfr. cbn in Hx. destruct w as [|w].
    + injection Hx as <-. cbn in Hfr. by apply elem_of_list_singleton in Hfr as ->.
    + apply lookup_replicate in Hx as [-> _]. by apply elem_of_nil in Hfr.
  - destruct (quiet_step _ _ _ _ IH1 Hst) as [H1 H2]. split; [done|]. apply sem_step in Hst. rewrite H2 in Hst. lia.
Qed.

(** Examples: a program that waits, with one round of waiting; and one that does not, with the bound reached. *)
Lemma wr_next n main s k w v s' k' : wait_rounds n main s k → pool_step s w v = Some s' → k' = (if in_wait s w then S k else k) →
  wait_rounds n main s' k'.
Proof. intros H1 H2 ->. by eapply wr_step. Qed.
Example C59_example_rounds : ∃ s, wait_rounds 2 (pf_call [PDone]) s 1 ∧ p_sem s = 2%N ∧ length (p_tasks s) = 1.
Proof.
  eexists. split; [|split].
  - eapply (wr_next _ _ _ 0 0 None);
      [eapply (wr_next _ _ _ 0 1 (Some 0)); [eapply (wr_next _ _ _ 0 0 None _ 0); [apply wr_init|reflexivity|reflexivity]|reflexivity|reflexivity]|reflexivity|reflexivity].
  - reflexivity.
  - reflexivity.
Qed.
Example C59_example_no_wait : ∃ s, waitless (PSubmit PDone None (λ _, PSubmit PDone None (λ _, PDone))) ∧
  pool_reach 2 (PSubmit PDone None (λ _, PSubmit PDone None (λ _, PDone))) s ∧ p_sem s = 2%N ∧ length (p_tasks s) = 2.
Proof.
  eexists. split; [by repeat split|]. split; [|split].
  - eapply (pr_step _ _ _ 0 None); [eapply (pr_step _ _ _ 0 None); [apply pr_init|reflexivity]|reflexivity].
  - reflexivity.
  - reflexivity.
Qed.

Print Assumptions C59_rounds_partial.
Print Assumptions C59_no_wait_partial.
