(** C37: wait returns only after all subtasks finished; C38: nested tasks; C47: task slots. *)
From Verif Require Import Base Task.
Ltac Zify.zify_post_hook ::= Z.div_mod_to_equations.
Local Open Scope nat_scope.

(** All tasks submitted so far have run their function to the end. *)
Definition all_done (s : tstate) : Prop := Forall (λ x, t_done x = true) (ts_tasks s).

(** * Two levels *)

Definition opt_acts (o : option act) : list act := match o with Some a => [a] | None => [] end.

(** A worker performs one step of one pending work item. *)
Inductive wstep : tstate → tstate → Prop :=
  | wstep_act ts l1 a l2 ts' o :
      act_step ts a = (ts', o) → wstep (TS ts (l1 ++ a :: l2)) (TS ts' (l1 ++ opt_acts o ++ l2)).

(** Executions with one parent task (number 0) and children submitted at any time, in every order of the
    atomic steps of any number of workers, with [n] tasks in total. *)
Inductive two_level : nat → tstate → Prop :=
  | tl_root : two_level 1 (task_submit ts_init None)
  | tl_child n s : two_level n s → two_level (S n) (task_submit s (Some 0))
  | tl_step n s s' : two_level n s → wstep s s' → two_level n s'.

Definition pending0 (a : act) : nat := match a with ACheck 0 => 0 | _ => 1 end.
Definition on (c : nat) (a : act) : nat :=
  match a with ARun t | ASub t | ACheck t => if bool_decide (t = c) then 1 else 0 end.
Definition before_sub (c : nat) (a : act) : nat :=
  match a with ARun t | ASub t => if bool_decide (t = c) then 1 else 0 | ACheck _ => 0 end.
Definition running (c : nat) (a : act) : nat := match a with ARun t => if bool_decide (t = c) then 1 else 0 | _ => 0 end.
Notation cnt := sum_list_with.

Definition tl_inv (n : nat) (s : tstate) : Prop :=
  length (ts_tasks s) = n ∧
  cnt pending0 (ts_acts s) <= n ∧
  (∃ x, ts_tasks s !! 0 = Some x ∧ t_parent x = None ∧
     t_ctr x = (N.of_nat (cnt pending0 (ts_acts s)) mod ctr_mod)%N) ∧
  (∀ c x, ts_tasks s !! S c = Some x → t_parent x = Some 0 ∧
     cnt (on (S c)) (ts_acts s) <= 1 ∧ t_ctr x = N.of_nat (cnt (before_sub (S c)) (ts_acts s))) ∧
  (∀ c x, ts_tasks s !! c = Some x → t_done x = false → 0 < cnt (running c) (ts_acts s)) ∧
  (∀ c, n <= c → cnt (on c) (ts_acts s) = 0).

Lemma on_ge c a : before_sub c a <= on c a.
Proof. destruct a; cbn; repeat case_bool_decide; lia. Qed.
Lemma on_ge_cnt c l : cnt (before_sub c) l <= cnt (on c) l.
Proof. induction l as [|a l IH]; cbn; [done|]. pose proof (on_ge c a). lia. Qed.

Lemma inc_mod n : inc16 (N.of_nat n mod ctr_mod) = (N.of_nat (S n) mod ctr_mod)%N.
Proof.
  unfold inc16. replace (N.of_nat (S n)) with (N.of_nat n + 1)%N by lia.
  by rewrite N.add_mod_idemp_l by done.
Qed.
Lemma dec_mod n : dec16 (N.of_nat (S n) mod ctr_mod) = (N.of_nat n mod ctr_mod)%N.
Proof.
  unfold dec16. rewrite N.add_mod_idemp_l by done.
  replace (N.of_nat (S n) + (ctr_mod - 1))%N with (N.of_nat n + 1 * ctr_mod)%N by (unfold ctr_mod; lia).
  by rewrite N.mod_add by done.
Qed.

Lemma two_level_inv n s : two_level n s → tl_inv n s.
Proof.
  induction 1 as [|n s _ IH|n s s' _ IH Hs].
  - unfold tl_inv. split; [done|]. split; [by vm_compute|]. split; [|split; [|split]].
    + eexists. split; [reflexivity|]. by vm_compute.
    + intros c x Hx. by destruct c.
    + intros c x Hx _. destruct c; [|by destruct c]. cbn. case_bool_decide; [lia|done].
    + intros c Hc. cbn. case_bool_decide; lia.
  - destruct IH as (H1 & H2 & (x0 & Hx0 & Hp0 & Hc0) & H4 & H5 & H6).
    unfold tl_inv, task_submit. cbn [ts_tasks ts_acts].
    assert (∀ c, alter (upd_ctr inc16) 0 (ts_tasks s) !! S c = ts_tasks s !! S c) as Halt.
    { intros c. by rewrite list_lookup_alter_ne. }
    assert (alter (upd_ctr inc16) 0 (ts_tasks s) !! 0 = Some (upd_ctr inc16 x0)) as Halt0.
    { by rewrite list_lookup_alter, Hx0. }
    assert (0 < n) as Hn by (rewrite <-H1; by eapply lookup_lt_Some).
    split; [|split; [|split; [|split; [|split]]]].
    + rewrite app_length, alter_length. cbn. lia.
    + cbn. lia.
    + eexists. rewrite lookup_app_l by (rewrite alter_length; lia). split; [exact Halt0|]. cbn.
      split; [done|]. rewrite Hc0. apply inc_mod.
    + intros c x Hx. cbn [sum_list_with on before_sub]. rewrite H1.
      apply lookup_app_Some in Hx as [Hx|[Hle Hx]].
      * assert (S c < n) by (apply lookup_lt_Some in Hx; rewrite alter_length in Hx; lia).
        rewrite Halt in Hx. destruct (H4 c x Hx) as (? & ? & ?).
        rewrite bool_decide_eq_false_2 by lia. done.
      * rewrite alter_length in *. apply list_lookup_singleton_Some in Hx as [Hc <-]. cbn.
        assert (n = S c) as <- by lia. rewrite bool_decide_eq_true_2 by done.
        rewrite (H6 n) by done. split; [done|]. split; [lia|].
        pose proof (on_ge_cnt n (ts_acts s)). rewrite (H6 n) in * by done.
        by replace (cnt (before_sub n) (ts_acts s)) with 0 by lia.
    + intros c x Hx Hd. cbn [sum_list_with running]. rewrite H1.
      apply lookup_app_Some in Hx as [Hx|[Hle Hx]].
      * destruct c as [|c].
        -- rewrite Halt0 in Hx. injection Hx as <-. specialize (H5 0 x0 Hx0 Hd). lia.
        -- rewrite Halt in Hx. specialize (H5 _ x Hx Hd). lia.
      * rewrite alter_length in *. apply list_lookup_singleton_Some in Hx as [Hc <-].
        rewrite bool_decide_eq_true_2 by lia. lia.
    + intros c Hc. cbn [sum_list_with on]. rewrite bool_decide_eq_false_2 by lia. rewrite H6; lia.
  - destruct Hs as [ts l1 a l2 ts' o Hact]. destruct IH as (H1 & H2 & (x0 & Hx0 & Hp0 & Hc0) & H4 & H5 & H6).
    unfold tl_inv. cbn [ts_tasks ts_acts] in *.
    setoid_rewrite sum_list_with_app in H4. setoid_rewrite sum_list_with_app in H5.
    setoid_rewrite sum_list_with_app in H6. rewrite sum_list_with_app in H2, Hc0.
    cbn [sum_list_with] in *.
    destruct a as [t|t|t]; cbn [act_step] in Hact.
    + injection Hact as <- <-. cbn [opt_acts app]. rewrite alter_length.
      setoid_rewrite sum_list_with_app. cbn [sum_list_with].
      split; [done|]. split; [by cbn in *|]. split; [|split; [|split]].
      * destruct (decide (t = 0)) as [->|Ht].
        -- rewrite list_lookup_alter, Hx0. eexists. split; [done|]. done.
        -- rewrite list_lookup_alter_ne by done. eauto.
      * intros c x. destruct (decide (t = S c)) as [->|Ht].
        -- rewrite list_lookup_alter. intros (y & Hy & ->)%fmap_Some. apply (H4 c y Hy).
        -- rewrite list_lookup_alter_ne by done. apply H4.
      * intros c x. cbn [running]. destruct (decide (t = c)) as [->|Ht].
        -- rewrite list_lookup_alter. by intros (y & Hy & ->)%fmap_Some.
        -- rewrite list_lookup_alter_ne by done. intros Hx Hd. specialize (H5 c x Hx Hd). cbn [running] in H5.
           by rewrite bool_decide_eq_false_2 in H5.
      * intros c Hc. apply (H6 c Hc).
    + injection Hact as <- <-. cbn [opt_acts app]. rewrite alter_length.
      setoid_rewrite sum_list_with_app. cbn [sum_list_with].
      assert (t < n) as Htn.
      { destruct (decide (t < n)); [done|]. specialize (H6 t ltac:(lia)). cbn in H6.
        rewrite bool_decide_eq_true_2 in H6 by done. lia. }
      split; [done|]. split; [|split; [|split; [|split]]].
      * cbn in *. destruct t; lia.
      * destruct (decide (t = 0)) as [->|Ht].
        -- rewrite list_lookup_alter, Hx0. eexists. split; [done|]. cbn [t_parent upd_ctr t_ctr]. split; [done|].
           rewrite Hc0. cbn [pending0].
           replace (cnt pending0 l1 + (1 + cnt pending0 l2)) with (S (cnt pending0 l1 + (0 + cnt pending0 l2))) by lia.
           apply dec_mod.
        -- rewrite list_lookup_alter_ne by done. exists x0. split; [done|]. split; [done|]. rewrite Hc0.
           by destruct t.
      * intros c x. destruct (decide (t = S c)) as [->|Ht].
        -- rewrite list_lookup_alter. intros (y & Hy & ->)%fmap_Some. destruct (H4 c y Hy) as (Hp & Hon & Hb).
           cbn [t_parent upd_ctr t_ctr on before_sub] in *. rewrite bool_decide_eq_true_2 in * by done.
           split; [done|]. split; [done|]. rewrite Hb.
           pose proof (on_ge_cnt (S c) l1). pose proof (on_ge_cnt (S c) l2).
           replace (cnt (before_sub (S c)) l1) with 0 by lia. replace (cnt (before_sub (S c)) l2) with 0 by lia.
           by vm_compute.
        -- rewrite list_lookup_alter_ne by done. intros Hx. destruct (H4 c x Hx) as (Hp & Hon & Hb).
           cbn [on before_sub] in *. rewrite bool_decide_eq_false_2 in * by done. done.
      * intros c x. cbn [running]. destruct (decide (t = c)) as [->|Ht].
        -- rewrite list_lookup_alter. intros (y & Hy & ->)%fmap_Some. apply (H5 c y Hy).
        -- rewrite list_lookup_alter_ne by done. apply H5.
      * intros c Hc. apply (H6 c Hc).
    + assert (t < n) as Htn.
      { destruct (decide (t < n)); [done|]. specialize (H6 t ltac:(lia)). cbn in H6.
        rewrite bool_decide_eq_true_2 in H6 by done. lia. }
      destruct (ts !! t) as [y|] eqn:Hy; [|apply lookup_ge_None in Hy; lia].
      destruct t as [|t].
      * assert (y = x0) as -> by congruence. rewrite Hp0 in Hact. cbn in Hact.
        assert (ts' = ts ∧ o = None) as [-> ->] by (case_bool_decide; split; congruence).
        cbn [opt_acts app]. setoid_rewrite sum_list_with_app.
        cbn [pending0 on before_sub running] in *.
        split; [done|]. split; [cbn in H2; lia|]. split; [|split; [|split]].
        -- exists x0. rewrite Hc0. done.
        -- intros c x Hx. destruct (H4 c x Hx) as (Hp & Hon & Hb). cbn in Hon. split; [done|]. split; [lia|]. done.
        -- intros c x Hx Hd. apply (H5 c x Hx Hd).
        -- intros c Hc. specialize (H6 c Hc). lia.
      * destruct (H4 t y Hy) as (Hp & Hon & Hb). cbn [on before_sub] in *.
        rewrite bool_decide_eq_true_2 in * by done.
        pose proof (on_ge_cnt (S t) l1). pose proof (on_ge_cnt (S t) l2).
        assert (t_ctr y = 0%N) as Hy0 by (rewrite Hb; lia).
        rewrite Hp, bool_decide_eq_true_2 in Hact by done. cbn in Hact. injection Hact as <- <-.
        cbn [opt_acts app]. setoid_rewrite sum_list_with_app. cbn [sum_list_with].
        cbn [pending0 on before_sub running] in *.
        split; [done|]. split; [|split; [|split; [|split]]].
        -- lia.
        -- exists x0. rewrite Hc0. done.
        -- intros c x Hx. destruct (H4 c x Hx) as (Hp' & Hon' & Hb'). split; [done|].
           rewrite !(bool_decide_eq_false_2 (0 = S c)) by done. split; [|done].
           case_bool_decide; lia.
        -- intros c x Hx Hd. apply (H5 c x Hx Hd).
        -- intros c Hc. specialize (H6 c Hc). rewrite (bool_decide_eq_false_2 (0 = c)) by lia. lia.
Qed.

(** In every execution with fewer than 65536 tasks in total, whenever the parent is reported complete its
    own function and those of all children submitted so far have finished. *)
Theorem C37_complete_means_all_done n s :
  two_level n s → (N.of_nat n < 65536)%N → is_completed s 0 = true → all_done s.
Proof.
  change 65536%N with ctr_mod.
  intros Hr Hn Hc. destruct (two_level_inv n s Hr) as (H1 & H2 & (x0 & Hx0 & _ & Hc0) & H4 & H5 & _).
  unfold is_completed in Hc. rewrite Hx0 in Hc. apply bool_decide_eq_true in Hc.
  rewrite Hc0, N.mod_small in Hc by lia.
  assert (cnt pending0 (ts_acts s) = 0) as Hz by lia.
  apply Forall_lookup. intros c x Hx. destruct (t_done x) eqn:Hd; [done|].
  specialize (H5 c x Hx Hd). exfalso.
  assert (∀ l, cnt (running c) l <= cnt pending0 l) as Hle.
  { induction l as [|a l IH]; cbn; [done|]. destruct a as [| |[]]; cbn; try case_bool_decide; lia. }
  specialize (Hle (ts_acts s)). lia.
Qed.

(** When nothing is left to do the parent is reported complete, so the wait ends; and as long as it is
    not reported complete some worker step is possible. *)
Theorem C37_wait_ends n s :
  two_level n s → (N.of_nat n < 65536)%N → (is_completed s 0 = false ↔ cnt pending0 (ts_acts s) ≠ 0).
Proof.
  change 65536%N with ctr_mod.
  intros Hr Hn. destruct (two_level_inv n s Hr) as (H1 & H2 & (x0 & Hx0 & _ & Hc0) & _).
  unfold is_completed. rewrite Hx0, Hc0, N.mod_small by lia. rewrite bool_decide_eq_false. lia.
Qed.

(** Every worker step brings the work closer to its end: three steps per task at most, plus two for each
    child's report to the parent. *)
Definition act_weight (s : act) : nat :=
  match s with ARun t => 3 | ASub t => 2 | ACheck t => 1 end +
  match s with ARun (S _) | ASub (S _) | ACheck (S _) => 2 | _ => 0 end.

Theorem C37_steps_decrease n s s' :
  two_level n s → wstep s s' → cnt act_weight (ts_acts s') < cnt act_weight (ts_acts s).
Proof.
  intros Hr Hs. pose proof (two_level_inv n s Hr) as (H1 & H2 & (x0 & Hx0 & Hp0 & _) & H4 & _ & H6).
  destruct Hs as [ts l1 a l2 ts' o Hact]. cbn [ts_acts ts_tasks] in *.
  rewrite !sum_list_with_app. cbn [sum_list_with].
  destruct a as [t|t|t]; cbn in Hact.
  - injection Hact as <- <-. cbn. destruct t; lia.
  - injection Hact as <- <-. cbn. destruct t; lia.
  - destruct (ts !! t) as [y|] eqn:Hy.
    + destruct t as [|t].
      * assert (y = x0) as -> by congruence. rewrite Hp0 in Hact. cbn in Hact.
        assert (o = None) as -> by (case_bool_decide; congruence). cbn. lia.
      * destruct (H4 t y Hy) as (Hp & _). rewrite Hp in Hact. cbn in Hact.
        case_bool_decide; injection Hact as <- <-; cbn; lia.
    + injection Hact as <- <-. cbn. destruct t; lia.
Qed.

(** The bound is needed: with 65535 children pending the 16-bit counter is zero. *)
Theorem C37_too_many_children_refuted :
  ∃ n s, two_level n s ∧ N.of_nat n = 65536%N ∧ is_completed s 0 = true ∧ ¬ all_done s.
Proof.
  change 65536%N with ctr_mod.
  assert (∀ k, two_level (S k) (Nat.iter k (λ s, task_submit s (Some 0)) (task_submit ts_init None)) ∧
    ∃ x, ts_tasks (Nat.iter k (λ s, task_submit s (Some 0)) (task_submit ts_init None)) !! 0 = Some x ∧
      t_done x = false ∧ t_ctr x = (N.of_nat (S k) mod ctr_mod)%N) as H.
  { induction k as [|k [IH (x & Hx & Hd & Hc)]].
    - split; [constructor|]. eexists. split; [done|]. by vm_compute.
    - rewrite Nat.iter_succ. set (s := Nat.iter k _ _) in *. clearbody s.
      split; [by constructor|]. exists (upd_ctr inc16 x). unfold task_submit. cbn [ts_tasks].
      rewrite lookup_app_l by (rewrite alter_length; by eapply lookup_lt_Some).
      rewrite list_lookup_alter, Hx. split; [done|]. split; [done|]. cbn [upd_ctr t_ctr]. rewrite Hc. apply inc_mod. }
  assert (∃ k, N.of_nat (S k) = ctr_mod) as [k Hk].
  { assert (0 < ctr_mod)%N by done. generalize dependent ctr_mod. intros m _ Hm.
    exists (pred (N.to_nat m)). lia. }
  destruct (H k) as [Hr (x & Hx & Hd & Hc)]. eexists _, _. split; [exact Hr|]. split; [exact Hk|]. split.
  - unfold is_completed. rewrite Hx, Hc. apply bool_decide_eq_true.
    rewrite Hk. by apply N.mod_same.
  - intros Hall. unfold all_done in Hall. rewrite Forall_lookup in Hall. rewrite (Hall _ _ Hx) in Hd. done.
Qed.

Example C37_example :
  ∃ s, two_level 2 s ∧ is_completed s 0 = true ∧ all_done s.
Proof.
  exists (TS [Task None 0 true; Task (Some 0) 0 true] []).
  split; [|by vm_compute; repeat constructor].
  pose proof (tl_child _ _ tl_root) as H. vm_compute in H.
  eapply tl_step in H; [|apply (wstep_act _ [] (ARun 1) [ARun 0]); reflexivity]. vm_compute in H.
  eapply tl_step in H; [|apply (wstep_act _ [ASub 1] (ARun 0) []); reflexivity]. vm_compute in H.
  eapply tl_step in H; [|apply (wstep_act _ [ASub 1] (ASub 0) []); reflexivity]. vm_compute in H.
  eapply tl_step in H; [|apply (wstep_act _ [] (ASub 1) [ACheck 0]); reflexivity]. vm_compute in H.
  eapply tl_step in H; [|apply (wstep_act _ [] (ACheck 1) [ACheck 0]); reflexivity]. vm_compute in H.
  eapply tl_step in H; [|apply (wstep_act _ [ASub 0] (ACheck 0) []); reflexivity]. vm_compute in H.
  eapply tl_step in H; [|apply (wstep_act _ [] (ASub 0) []); reflexivity]. vm_compute in H.
  eapply tl_step in H; [|apply (wstep_act _ [] (ACheck 0) []); reflexivity]. exact H.
Qed.

(** * Deeper nesting *)

(** Executions of any task forest: a task may be submitted at any time with any existing parent. *)
Inductive forest : tstate → Prop :=
  | fo_init : forest ts_init
  | fo_submit s parent :
      forest s → (∀ p, parent = Some p → p < length (ts_tasks s)) → forest (task_submit s parent)
  | fo_step s s' : forest s → wstep s s' → forest s'.

(** Grandparent 0, parent 1, child 2.  The parent's and the child's finishing steps both see the
    parent's counter at zero and both count the parent off in the grandparent, which is then reported
    complete while its function has not run. *)
Theorem C38_nested_refuted :
  ∃ s x, forest s ∧ is_completed s 0 = true ∧ ts_tasks s !! 0 = Some x ∧ t_done x = false.
Proof.
  exists (TS [Task None 0 false; Task (Some 0) 0 true; Task (Some 1) 0 true] [ACheck 0; ACheck 0; ARun 0]).
  eexists. split; [|by vm_compute].
  assert (forest (task_submit (task_submit (task_submit ts_init None) (Some 0)) (Some 1))) as H.
  { repeat (apply fo_submit; [|cbn; intros; simplify_eq; lia]). constructor. }
  vm_compute in H.
  eapply fo_step in H; [|apply (wstep_act _ [] (ARun 2) [ARun 1; ARun 0]); reflexivity]. vm_compute in H.
  eapply fo_step in H; [|apply (wstep_act _ [ASub 2] (ARun 1) [ARun 0]); reflexivity]. vm_compute in H.
  eapply fo_step in H; [|apply (wstep_act _ [] (ASub 2) [ASub 1; ARun 0]); reflexivity]. vm_compute in H.
  eapply fo_step in H; [|apply (wstep_act _ [] (ACheck 2) [ASub 1; ARun 0]); reflexivity]. vm_compute in H.
  eapply fo_step in H; [|apply (wstep_act _ [] (ASub 1) [ASub 1; ARun 0]); reflexivity]. vm_compute in H.
  eapply fo_step in H; [|apply (wstep_act _ [ACheck 1] (ASub 1) [ARun 0]); reflexivity]. vm_compute in H.
  eapply fo_step in H; [|apply (wstep_act _ [] (ACheck 1) [ACheck 1; ARun 0]); reflexivity]. vm_compute in H.
  eapply fo_step in H; [|apply (wstep_act _ [ASub 0] (ACheck 1) [ARun 0]); reflexivity]. vm_compute in H.
  eapply fo_step in H; [|apply (wstep_act _ [] (ASub 0) [ASub 0; ARun 0]); reflexivity]. vm_compute in H.
  eapply fo_step in H; [|apply (wstep_act _ [ACheck 0] (ASub 0) [ARun 0]); reflexivity]. vm_compute in H.
  exact H.
Qed.

(** ** Without interference between finishing tasks *)

(** Executions in which every [execute] runs without interference (one worker); tasks are submitted and
    executed in any order, a child only below a task that is not yet complete or has no parent itself. *)
Inductive serial : list task → Prop :=
  | se_init : serial []
  | se_submit ts parent :
      serial ts →
      (∀ p, parent = Some p → ∃ y, ts !! p = Some y ∧ (t_ctr y ≠ 0%N ∨ t_parent y = None)) →
      serial (ts_tasks (task_submit (TS ts []) parent))
  | se_exec ts t x :
      serial ts → ts !! t = Some x → t_done x = false → serial (execute ts t).

(** [t] is [d] or a descendant of [d]. *)
Inductive descends (ts : list task) (d : nat) : nat → Prop :=
  | desc_self : descends ts d d
  | desc_child t x p : ts !! t = Some x → t_parent x = Some p → descends ts d p → descends ts d t.

Definition child_open (t : nat) (x : task) : nat :=
  if bool_decide (t_parent x = Some t) then (if bool_decide (t_ctr x = 0%N) then 0 else 1) else 0.
Definition own_open (x : task) : nat := if t_done x then 0 else 1.

(** Every counter is the number of open children plus one for the task's own function, plus [extra]. *)
Definition counts (extra : nat → nat) (ts : list task) : Prop :=
  ∀ t x, ts !! t = Some x → t_ctr x = N.of_nat (own_open x + cnt (child_open t) ts + extra t).
Definition ordered (ts : list task) : Prop :=
  ∀ t x p, ts !! t = Some x → t_parent x = Some p → p < t.

Lemma cnt_alter {A} (f : A → nat) (g : A → A) (l : list A) i x :
  l !! i = Some x → cnt f (alter g i l) + f x = cnt f l + f (g x).
Proof.
  revert i. induction l as [|y l IH]; intros [|i] Hi; cbn in Hi; simplify_eq.
  - cbn. lia.
  - specialize (IH i Hi). cbn [alter list_alter sum_list_with]. fold (alter (M:=list A) g i l). cbn. lia.
Qed.

Lemma cnt_bound {A} (f : A → nat) (l : list A) : (∀ x, f x <= 1) → cnt f l <= length l.
Proof. intros Hf. induction l as [|x l IH]; cbn; [done|]. specialize (Hf x). lia. Qed.

Lemma child_open_le t x : child_open t x <= 1.
Proof. unfold child_open. repeat case_bool_decide; lia. Qed.

Lemma dec16_S n : (N.of_nat (S n) < ctr_mod)%N → dec16 (N.of_nat (S n)) = N.of_nat n.
Proof.
  intros Hn. pose proof (dec_mod n) as H. rewrite !N.mod_small in H by lia. done.
Qed.
Lemma inc16_S n : (N.of_nat (S n) < ctr_mod)%N → inc16 (N.of_nat n) = N.of_nat (S n).
Proof.
  intros Hn. pose proof (inc_mod n) as H. rewrite !N.mod_small in H by lia. done.
Qed.

(** Parents and finished flags are unchanged. *)
Definition same_shape (ts ts' : list task) : Prop :=
  ∀ t, (λ x, (t_parent x, t_done x)) <$> ts !! t = (λ x, (t_parent x, t_done x)) <$> ts' !! t.

Lemma same_shape_alter f t ts : same_shape ts (alter (upd_ctr f) t ts).
Proof.
  intros u. destruct (decide (t = u)) as [->|Hne].
  - rewrite list_lookup_alter. by destruct (ts !! u).
  - by rewrite list_lookup_alter_ne.
Qed.

Definition at_one (t u : nat) : nat := if bool_decide (u = t) then 1 else 0.

Lemma counts_ext e1 e2 ts : (∀ t, e1 t = e2 t) → counts e1 ts → counts e2 ts.
Proof. intros He H t x Hx. rewrite <-He. by apply H. Qed.

Lemma finish_counts fuel ts t :
  ordered ts → counts (at_one t) ts → (N.of_nat (S (length ts)) < ctr_mod)%N → t < fuel → t < length ts →
  counts (λ _, 0) (finish fuel ts t) ∧ same_shape ts (finish fuel ts t).
Proof.
  revert ts t. induction fuel as [|fuel IH]; intros ts t Hord Hc Hlen Hf Ht; [lia|].
  cbn [finish]. destruct (lookup_lt_is_Some_2 ts t Ht) as [x Hx].
  rewrite list_lookup_alter, Hx. cbn [fmap option_fmap option_map upd_ctr t_ctr t_parent].
  pose proof (Hc t x Hx) as Hcx. unfold at_one in Hcx at 1. rewrite bool_decide_eq_true_2 in Hcx by done.
  set (m := own_open x + cnt (child_open t) ts) in *.
  assert (cnt (child_open t) ts < length ts) as Hcl.
  { pose proof (cnt_alter (child_open t) (λ _, Task (Some t) 1 false) ts t x Hx) as Ha. cbv beta in Ha.
    pose proof (cnt_bound (child_open t) (alter (λ _, Task (Some t) 1 false) t ts) (child_open_le t)) as Hb.
    rewrite alter_length in Hb.
    replace (child_open t (Task (Some t) 1 false)) with 1 in Ha.
    2: { unfold child_open. cbn [t_parent t_ctr]. by rewrite bool_decide_eq_true_2. }
    replace (child_open t x) with 0 in Ha; [lia|].
    unfold child_open. rewrite bool_decide_eq_false_2; [done|]. intros Hp. specialize (Hord _ _ _ Hx Hp). lia. }
  assert (own_open x <= 1) by (unfold own_open; destruct (t_done x); lia).
  assert (dec16 (t_ctr x) = N.of_nat m) as Hdec.
  { rewrite Hcx. replace (m + 1) with (S m) by lia. apply dec16_S. lia. }
  rewrite Hdec. set (ts' := alter (upd_ctr dec16) t ts) in *.
  pose proof (same_shape_alter dec16 t ts) as Hsh. fold ts' in Hsh.
  assert (length ts' = length ts) as Hlen' by apply alter_length.
  assert (∀ q, cnt (child_open q) ts' + child_open q x = cnt (child_open q) ts + child_open q (upd_ctr dec16 x)) as Hcnt.
  { intros q. by apply cnt_alter. }
  assert (∀ q, child_open q x = if bool_decide (t_parent x = Some q) then 1 else 0) as Hco.
  { intros q. unfold child_open. rewrite (bool_decide_eq_false_2 (t_ctr x = 0%N)) by lia. done. }
  assert (∀ q, child_open q (upd_ctr dec16 x) =
    if bool_decide (t_parent x = Some q) then (if bool_decide (N.of_nat m = 0%N) then 0 else 1) else 0) as Hco'.
  { intros q. unfold child_open. cbn [upd_ctr t_parent t_ctr]. by rewrite Hdec. }
  assert (counts (λ u, if bool_decide (N.of_nat m = 0%N)
                       then (if bool_decide (t_parent x = Some u) then 1 else 0) else 0) ts') as Hc'.
  { intros u y Hy. specialize (Hcnt u). rewrite Hco, Hco' in Hcnt.
    destruct (decide (u = t)) as [->|Hne].
    - subst ts'. rewrite list_lookup_alter, Hx in Hy. injection Hy as <-. cbn [upd_ctr t_ctr own_open t_done].
      rewrite Hdec. change (own_open (upd_ctr dec16 x)) with (own_open x).
      assert (bool_decide (t_parent x = Some t) = false) as Hnp.
      { apply bool_decide_eq_false_2. intros Hp. specialize (Hord _ _ _ Hx Hp). lia. }
      rewrite Hnp in *. assert (∀ b : bool, (if b then 0 else 0) = 0) as -> by (by intros []).
      f_equal. unfold m. lia.
    - subst ts'. rewrite list_lookup_alter_ne in Hy by done. rewrite (Hc u y Hy). unfold at_one.
      rewrite (bool_decide_eq_false_2 (u = t)) by done.
      destruct (bool_decide (N.of_nat m = 0%N)); destruct (bool_decide (t_parent x = Some u)); lia. }
  case_bool_decide as Hm.
  - destruct (t_parent x) as [p|] eqn:Hp.
    + pose proof (Hord _ _ _ Hx Hp) as Hpt.
      destruct (IH ts' p) as [IH1 IH2].
      * intros a y q Hy Hq. specialize (Hsh a). rewrite Hy in Hsh. cbn in Hsh.
        apply fmap_Some in Hsh as (z & Hz & Heq). injection Heq as Heq1 Heq2.
        eapply Hord; [exact Hz|congruence].
      * eapply counts_ext; [|exact Hc']. intros u. unfold at_one. cbn beta.
        repeat case_bool_decide; congruence.
      * rewrite Hlen'. lia.
      * lia.
      * lia.
      * split; [done|]. intros u. by rewrite Hsh.
    + split; [|done]. eapply counts_ext; [|exact Hc']. intros u. cbn. done.
  - split; [|done]. exact Hc'.
Qed.

Lemma serial_inv ts :
  serial ts → (N.of_nat (S (length ts)) < ctr_mod)%N → counts (λ _, 0) ts ∧ ordered ts.
Proof.
  induction 1 as [|ts parent _ IH Hpar|ts t x _ IH Hx Hd]; intros Hlen.
  - split; intros ?; by intros.
  - unfold task_submit in *. cbn [ts_tasks] in *.
    set (ts1 := match parent with Some p => _ | None => _ end) in *.
    assert (length ts1 = length ts) as Hl1 by (subst ts1; destruct parent; [apply alter_length|done]).
    rewrite app_length in Hlen. cbn [length] in Hlen. rewrite Hl1 in Hlen.
    destruct IH as [Hc Hord]; [lia|].
    assert (∀ t x, ts1 !! t = Some x → ∃ y, ts !! t = Some y ∧ t_parent x = t_parent y ∧ t_done x = t_done y ∧
      t_ctr x = (if bool_decide (parent = Some t) then inc16 (t_ctr y) else t_ctr y)) as Hts1.
    { intros t x Hx. subst ts1. destruct parent as [p|].
      - destruct (decide (p = t)) as [->|Hne].
        + rewrite list_lookup_alter in Hx. apply fmap_Some in Hx as (y & Hy & ->).
          exists y. rewrite bool_decide_eq_true_2 by done. done.
        + rewrite list_lookup_alter_ne in Hx by done. exists x. rewrite bool_decide_eq_false_2 by congruence. done.
      - exists x. rewrite bool_decide_eq_false_2 by done. done. }
    assert (∀ q, cnt (child_open q) ts1 = cnt (child_open q) ts) as Hcnt.
    { intros q. subst ts1. destruct parent as [p|]; [|done].
      destruct (Hpar p eq_refl) as (y & Hy & Hopen).
      pose proof (cnt_alter (child_open q) (upd_ctr inc16) ts p y Hy) as Ha.
      enough (child_open q (upd_ctr inc16 y) = child_open q y) by lia.
      unfold child_open. cbn [upd_ctr t_parent t_ctr]. case_bool_decide as Hq; [|done].
      destruct Hopen as [Ho|Ho]; [|congruence].
      assert (cnt (child_open p) ts <= length ts) by (apply cnt_bound; apply child_open_le).
      assert (own_open y <= 1) by (unfold own_open; destruct (t_done y); lia).
      assert (p < length ts) by (by eapply lookup_lt_Some).
      pose proof (Hc p y Hy) as Hcy. rewrite Hcy.
      rewrite !bool_decide_eq_false_2; [done|rewrite <-Hcy; done|].
      rewrite inc16_S; lia. }
    assert (ordered (ts1 ++ [Task parent 1 false])) as Hord'.
    { intros t x p Hx Hp. apply lookup_app_Some in Hx as [Hx|[Hle Hx]].
      - destruct (Hts1 t x Hx) as (y & Hy & Hyp & _). eapply Hord; [exact Hy|congruence].
      - apply list_lookup_singleton_Some in Hx as [_ <-]. cbn in Hp. destruct (Hpar p Hp) as (y & Hy & _).
        apply lookup_lt_Some in Hy. lia. }
    split; [|done].
    intros t x Hx. rewrite sum_list_with_app. cbn [sum_list_with]. rewrite Hcnt.
    assert (child_open t (Task parent 1 false) = if bool_decide (parent = Some t) then 1 else 0) as ->.
    { unfold child_open. cbn [t_parent t_ctr]. done. }
    apply lookup_app_Some in Hx as [Hx|[Hle Hx]].
    + destruct (Hts1 t x Hx) as (y & Hy & Hyp & Hyd & Hyc). rewrite Hyc, (Hc t y Hy).
      assert (own_open x = own_open y) as -> by (unfold own_open; by rewrite Hyd).
      assert (own_open y <= 1) by (unfold own_open; destruct (t_done y); lia).
      assert (cnt (child_open t) ts <= length ts) by (apply cnt_bound; apply child_open_le).
      case_bool_decide as Hp; [|f_equal; lia].
      assert (child_open t y = 0) as Hself.
      { unfold child_open. rewrite bool_decide_eq_false_2; [done|]. intros E. specialize (Hord _ _ _ Hy E). lia. }
      pose proof (cnt_alter (child_open t) (λ _, Task (Some t) 1 false) ts t y Hy) as Ha. cbv beta in Ha.
      pose proof (cnt_bound (child_open t) (alter (λ _, Task (Some t) 1 false) t ts) (child_open_le t)) as Hb.
      rewrite alter_length in Hb.
      replace (child_open t (Task (Some t) 1 false)) with 1 in Ha.
      2: { unfold child_open. cbn [t_parent t_ctr]. by rewrite bool_decide_eq_true_2. }
      rewrite inc16_S by lia. f_equal. lia.
    + apply list_lookup_singleton_Some in Hx as [Ht <-]. cbn [t_ctr own_open t_done].
      assert (t = length ts) as -> by lia.
      rewrite bool_decide_eq_false_2.
      2: { intros E. destruct (Hpar _ E) as (y & Hy & _). apply lookup_lt_Some in Hy. lia. }
      replace (cnt (child_open (length ts)) ts) with 0; [done|].
      symmetry. clear -Hord. assert (∀ x, x ∈ ts → child_open (length ts) x = 0) as Hall.
      { intros x Hx. unfold child_open. rewrite bool_decide_eq_false_2; [done|]. intros E.
        apply elem_of_list_lookup in Hx as [i Hi]. specialize (Hord _ _ _ Hi E). apply lookup_lt_Some in Hi. lia. }
      revert Hall. generalize (length ts). clear. intros n Hall. induction ts as [|x ts IH]; [done|].
      cbn. rewrite (Hall x) by left. rewrite IH; [done|]. intros y Hy. apply Hall. by right.
  - unfold execute in *.
    assert (∀ fuel ts t, length (finish fuel ts t) = length ts) as Hfl.
    { clear. induction fuel as [|fuel IH]; intros ts t; cbn; [done|].
      destruct (_ !! t) as [y|]; [|apply alter_length].
      case_bool_decide; [|apply alter_length]. destruct (t_parent y); [|apply alter_length].
      rewrite IH. apply alter_length. }
    rewrite Hfl, alter_length in Hlen. destruct (IH Hlen) as [Hc Hord].
    assert (ordered (alter set_done t ts)) as Hord'.
    { intros u y p Hy Hp. destruct (decide (t = u)) as [->|Hne].
      - rewrite list_lookup_alter in Hy. apply fmap_Some in Hy as (z & Hz & ->). by eapply Hord.
      - rewrite list_lookup_alter_ne in Hy by done. by eapply Hord. }
    assert (counts (at_one t) (alter set_done t ts)) as Hc'.
    { intros u y Hy.
      pose proof (cnt_alter (child_open u) set_done ts t x Hx) as Ha.
      replace (child_open u (set_done x)) with (child_open u x) in Ha by done.
      unfold at_one. destruct (decide (t = u)) as [->|Hne].
      - rewrite list_lookup_alter, Hx in Hy. injection Hy as <-. cbn [set_done t_ctr own_open t_done].
        rewrite (Hc u x Hx). unfold own_open. rewrite Hd. rewrite bool_decide_eq_true_2 by done. f_equal. lia.
      - rewrite list_lookup_alter_ne in Hy by done. rewrite (Hc u y Hy).
        rewrite bool_decide_eq_false_2 by done. f_equal. lia. }
    destruct (finish_counts (S t) (alter set_done t ts) t) as [H1 H2]; try done.
    { by rewrite alter_length. }
    { lia. }
    { rewrite alter_length. by eapply lookup_lt_Some. }
    split; [done|]. intros u y p Hy Hp. specialize (H2 u). rewrite Hy in H2. cbn in H2.
    apply fmap_Some in H2 as (z & Hz & Heq). injection Heq as Heq1 Heq2.
    eapply Hord'; [exact Hz|congruence].
Qed.

Lemma cnt_zero {A} (f : A → nat) l : cnt f l = 0 ↔ ∀ x, x ∈ l → f x = 0.
Proof.
  split.
  - induction l as [|y l IH]; intros H x Hx; [by apply elem_of_nil in Hx|]. cbn in H.
    apply elem_of_cons in Hx as [->|Hx]; [lia|]. apply IH; [lia|done].
  - induction l as [|y l IH]; intros H; [done|]. cbn. rewrite (H y) by left. rewrite IH; [done|].
    intros x Hx. apply H. by right.
Qed.

(** Without interference, for every task forest and every order of submissions and executions, a task is
    reported complete exactly when it and all its descendants have run.  Missing from the full claim:
    concurrent [finish] calls, for which it is false. *)
Theorem C38_nested_serial_partial ts d x :
  serial ts → (N.of_nat (S (length ts)) < 65536)%N → ts !! d = Some x →
  (is_completed (TS ts []) d = true ↔
   ∀ t y, descends ts d t → ts !! t = Some y → t_done y = true).
Proof.
  change 65536%N with ctr_mod.
  intros Hs Hlen Hx. destruct (serial_inv ts Hs Hlen) as [Hc Hord].
  unfold is_completed. cbn [ts_tasks]. rewrite Hx. rewrite bool_decide_eq_true. split.
  - intros H0. assert (∀ t, descends ts d t → ∀ y, ts !! t = Some y → t_ctr y = 0%N) as Hall.
    { induction 1 as [|t z p Hz Hp _ IH]; intros y Hy; [congruence|].
      assert (y = z) as -> by congruence.
      assert (p < length ts) as Hpl by (pose proof (Hord _ _ _ Hz Hp); apply lookup_lt_Some in Hz; lia).
      destruct (lookup_lt_is_Some_2 ts p Hpl) as [w Hw].
      specialize (IH w Hw). rewrite (Hc p w Hw) in IH.
      assert (cnt (child_open p) ts = 0) as Hz0 by lia. rewrite cnt_zero in Hz0.
      specialize (Hz0 z ltac:(by eapply elem_of_list_lookup_2)). unfold child_open in Hz0.
      rewrite bool_decide_eq_true_2 in Hz0 by done. by case_bool_decide. }
    intros t y Ht Hy. specialize (Hall t Ht y Hy). rewrite (Hc t y Hy) in Hall. unfold own_open in Hall.
    destruct (t_done y); [done|lia].
  - intros Hall. assert (∀ k t y, length ts - t <= k → ts !! t = Some y → descends ts d t → t_ctr y = 0%N) as Hz.
    { induction k as [|k IH]; intros t y Hk Hy Ht; [apply lookup_lt_Some in Hy; lia|].
      rewrite (Hc t y Hy). unfold own_open. rewrite (Hall t y Ht Hy).
      replace (cnt (child_open t) ts) with 0; [done|]. symmetry. apply cnt_zero. intros z Hz.
      apply elem_of_list_lookup in Hz as [j Hj]. unfold child_open. case_bool_decide as Hp; [|done].
      rewrite (IH j z); [done| |done|by eapply desc_child].
      pose proof (Hord _ _ _ Hj Hp). lia. }
    eapply (Hz (length ts) d); [lia|done|constructor].
Qed.

Example C38_example :
  let ts0 := ts_tasks (task_submit (task_submit (task_submit ts_init None) (Some 0)) (Some 1)) in
  let ts1 := execute (execute ts0 0) 1 in
  let ts2 := execute ts1 2 in
  serial ts2 ∧ is_completed (TS ts1 []) 0 = false ∧ is_completed (TS ts2 []) 0 = true ∧
  is_completed (TS ts1 []) 1 = false ∧ is_completed (TS ts2 []) 1 = true.
Proof.
  cbv zeta. split; [|by vm_compute].
  eapply se_exec; [|by vm_compute|done]. eapply se_exec; [|by vm_compute|done].
  eapply se_exec; [|by vm_compute|done].
  apply (se_submit [Task None 2 false; Task (Some 0) 1 false] (Some 1)).
  - apply (se_submit [Task None 1 false] (Some 0)).
    + apply (se_submit [] None); [constructor|done].
    + intros p [= <-]. eexists. split; [done|]. by right.
  - intros p [= <-]. eexists. split; [done|]. by left.
Qed.

(** * C47: slots *)

(** Tasks allocated by one worker share no slot with any of the 4095 allocations before. *)
Theorem C47_recent_slots_distinct_partial i j :
  (i < j)%N → (j < i + 4096)%N → task_slot i ≠ task_slot j.
Proof.
  intros Hij Hj. unfold task_slot, max_tasks in *. change (4096 - 1)%N with (N.ones 12).
  rewrite !N.land_ones. change (2 ^ 12)%N with 4096%N. lia.
Qed.

(** The slot is inside the array. *)
Theorem C47_slot_in_array n : (task_slot n < 4096)%N.
Proof.
  unfold task_slot, max_tasks. change (4096 - 1)%N with (N.ones 12).
  rewrite N.land_ones. by apply N.mod_lt.
Qed.

(** Nothing stops a worker from submitting 4096 further tasks before the first has run: the last one
    then destroys and replaces the first.  For every allocation there is such a later one. *)
Theorem C47_slot_reused_refuted n : ∃ m, (n < m)%N ∧ task_slot m = task_slot n.
Proof.
  exists (n + 4096)%N. split; [lia|]. unfold task_slot, max_tasks. change (4096 - 1)%N with (N.ones 12).
  rewrite !N.land_ones. change (2 ^ 12)%N with 4096%N. lia.
Qed.

Example C47_example : task_slot 4095 = 4095%N ∧ task_slot 4096 = 0%N ∧ task_slot 4097 ≠ task_slot 4096.
Proof. by vm_compute. Qed.

Print Assumptions C37_complete_means_all_done.
Print Assumptions C37_wait_ends.
Print Assumptions C37_steps_decrease.
Print Assumptions C37_too_many_children_refuted.
Print Assumptions C38_nested_refuted.
Print Assumptions C38_nested_serial_partial.
Print Assumptions C47_recent_slots_distinct_partial.
Print Assumptions C47_slot_in_array.
Print Assumptions C47_slot_reused_refuted.
