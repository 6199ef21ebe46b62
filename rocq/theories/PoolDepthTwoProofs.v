(** Proofs about the depth of the stacks of at most two workers. *)
From Verif Require Import Base Task ThreadPool ThreadPoolProofs ThreadPoolRun PoolTrace PoolTraceProofs PoolDepth PoolDepthProofs.
Local Open Scope nat_scope.

Section two.
(** The level of main. *)
Context (D : nat).

(** The level of a task; [lv] has one entry for each task. *)
Definition lev (lv : list nat) (o : option nat) : nat := match o with None => D | Some v => default 0 (lv !! v) end.
Definition toplev (lv : list nat) (st : list frame) : nat := match st with [] => S D | fr :: _ => lev lv (f_task fr) end.
(** [v] was submitted by [o]. *)
Definition owned (ow : list (option nat)) (v o : option nat) : Prop := ∃ u, v = Some u ∧ ow !! u = Some o.
Definition below (lv : list nat) (d : nat) (q : list nat) : Prop := ∀ u, u ∈ q → lev lv (Some u) < d.

(** Calls nest less and less deep, and so do the tasks queued since each of them began; a call that began above queued tasks
    has not been split between the workers: neither its submitter nor a task it submitted is among the calls [T] of the other one. *)
Inductive stk2 (ow : list (option nat)) (lv : list nat) (T : list (option nat)) : list frame → list nat → Prop :=
  | stk2_nil q : below lv (S D) q → stk2 ow lv T [] q
  | stk2_cons fr st q q' : stk2 ow lv T st q → lev lv (f_task fr) < toplev lv st →
      (∀ v, v ∈ q → ow !! v ≠ Some (f_task fr)) →
      (q = [] ∨ ∀ y, y ∈ T → ¬ owned ow y (f_task fr) ∧ ¬ owned ow (f_task fr) y) →
      below lv (lev lv (f_task fr)) q' → stk2 ow lv T (fr :: st) (q ++ q').

Lemma below_app lv d q q' : below lv d q → below lv d q' → below lv d (q ++ q').
Proof. intros H1 H2 u [Hu|Hu]%elem_of_app; auto. Qed.
Lemma below_mono lv d e q : d ≤ e → below lv d q → below lv e q.
Proof. intros Hd H u Hu. specialize (H u Hu). lia. Qed.

Lemma stk2_push ow lv T st q q' : stk2 ow lv T st q → below lv (toplev lv st) q' → stk2 ow lv T st (q ++ q').
Proof.
  intros H Hq. destruct H as [q Hs|fr st q q0 Hst Hde Ho HT Hs].
  - constructor. by apply below_app.
  - rewrite <- app_assoc. constructor; try done. by apply below_app.
Qed.
Lemma stk2_top ow lv T fr fr' st q : stk2 ow lv T (fr :: st) q → f_task fr' = f_task fr → stk2 ow lv T (fr' :: st) q.
Proof. intros H Ht. inversion H as [|? ? qa qb Hst Hde Ho HT Hs]; subst. constructor; rewrite ?Ht; done. Qed.
Lemma stk2_pop ow lv T fr st q : stk2 ow lv T (fr :: st) q → stk2 ow lv T st q.
Proof. inversion 1 as [|? ? qa qb Hst Hde Ho HT Hs]; subst. apply stk2_push; [done|]. eapply below_mono; [|done]. lia. Qed.
Lemma stk2_length ow lv T st q : stk2 ow lv T st q → toplev lv st + length st ≤ S D.
Proof. induction 1 as [|fr st q q' Hst IH Hde Ho HT Hs]; cbn in *; lia. Qed.
Lemma stk2_sub ow lv T T' st q : T' ⊆ T → stk2 ow lv T st q → stk2 ow lv T' st q.
Proof.
  intros HT. induction 1 as [|fr st q q' Hst IH Hde Ho HTs Hs]; [by constructor|]. constructor; try done.
  destruct HTs as [->|HTs]; [by left|right; auto].
Qed.
(** The other worker begins a task that is in none of our queues. *)
Lemma stk2_other ow lv T st q u : stk2 ow lv T st q → (∀ fr, fr ∈ st → ow !! u ≠ Some (f_task fr)) → (∀ v, ow !! v ≠ Some (Some u)) →
  stk2 ow lv (Some u :: T) st q.
Proof.
  intros H Hu Hf. induction H as [|fr st q q' Hst IH Hde Ho HTs Hs]; [by constructor|].
  constructor; try done; [apply IH; intros fr' ?; apply Hu; by right|]. destruct HTs as [->|HTs]; [by left|right].
  intros y [->|Hy]%elem_of_cons; [|auto]. split.
  - intros (? & [= <-] & E). by apply (Hu fr); [left|].
  - intros (? & ? & E). by apply (Hf _ E).
Qed.
Lemma stk2_empty ow lv T T' st : stk2 ow lv T st [] → stk2 ow lv T' st [].
Proof.
  intros H. remember [] as q eqn:Eq. induction H as [q Hs|fr st qa qb Hst IH Hde Ho HTs Hs]; [by constructor|].
  apply app_eq_nil in Eq as [-> ->]. apply (stk2_cons _ _ _ _ _ [] []); [by apply IH|done|done|by left|done].
Qed.
(** The other worker steals our oldest task. *)
Lemma stk2_steal ow lv T st u q : stk2 ow lv T st (u :: q) → (∀ v, ow !! v ≠ Some (Some u)) → stk2 ow lv (Some u :: T) st q.
Proof.
  intros H Hf. remember (u :: q) as q0 eqn:Eq. revert q Eq. induction H as [q0 Hs|fr st qa qb Hst IH Hde Ho HTs Hs]; intros q Eq.
  { subst q0. constructor. intros v Hv. apply Hs. by right. }
  destruct qa as [|a qa].
  - cbn in Eq. subst qb. apply (stk2_cons _ _ _ _ _ [] q); [by eapply stk2_empty|done|done|by left|]. intros v Hv. apply Hs. by right.
  - cbn in Eq. injection Eq as -> <-. constructor; [by apply IH|done|intros v Hv; apply Ho; by right| |done].
    right. destruct HTs as [?|HTs]; [done|]. intros y [->|Hy]%elem_of_cons; [|auto]. split.
    + intros (? & [= <-] & E). by apply (Ho u); [left|].
    + intros (? & ? & E). by apply (Hf _ E).
Qed.
Lemma stk2_grow ow ow' lv lv' T st q : stk2 ow lv T st q → length ow = length lv → (∀ v, v ∈ q → v < length lv) →
  (∀ v, Some v ∈ (f_task <$> st) ∨ Some v ∈ T → v < length lv) → stk2 (ow ++ ow') (lv ++ lv') T st q.
Proof.
  intros H Hl Hq Hs. assert (∀ o, (∀ v, o = Some v → v < length lv) → lev (lv ++ lv') o = lev lv o) as Hlev.
  { intros [v|] Hv; [|done]. cbn. by rewrite lookup_app_l by auto. }
  induction H as [q0 Hs0|fr st qa qb Hst IH Hde Ho HTs Hs0].
  { constructor. intros v Hv. rewrite Hlev; [auto|]. intros ? [= <-]. auto. }
  assert (lev (lv ++ lv') (f_task fr) = lev lv (f_task fr)) as E1.
  { apply Hlev. intros v Hv. apply Hs. left. rewrite <- Hv. left. }
  assert (toplev (lv ++ lv') st = toplev lv st) as E2.
  { destruct st as [|f st]; [done|]. cbn. apply Hlev. intros v Hv. apply Hs. left. rewrite <- Hv. right. left. }
  assert (∀ v, v < length lv → (ow ++ ow') !! v = ow !! v) as E3 by (intros v Hv; apply lookup_app_l; lia).
  constructor.
  - apply IH; [set_solver|]. intros v [Hv|Hv]; apply Hs; [left; by right|by right].
  - by rewrite E1, E2.
  - intros v Hv. rewrite E3 by (apply Hq; set_solver). by apply Ho.
  - destruct HTs as [->|HTs]; [by left|right]. intros y Hy. destruct (HTs y Hy) as [H1 H2]. split; intros (u & Eu & Hu).
    + apply H1. exists u. split; [done|]. rewrite E3 in Hu; [done|]. apply Hs. right. by rewrite <- Eu.
    + apply H2. exists u. split; [done|]. rewrite E3 in Hu; [done|]. apply Hs. left. rewrite <- Eu. left.
  - rewrite E1. intros v Hv. rewrite Hlev; [auto|]. intros ? [= <-]. apply Hq. set_solver.
Qed.
(** The newest task of the queue is nested deeper than the innermost call if that call owns a queued task. *)
Lemma stk2_take ow lv T fr st q v : stk2 ow lv T (fr :: st) q → v ∈ q → ow !! v = Some (f_task fr) →
  ∃ q0 u, q = q0 ++ [u] ∧ lev lv (Some u) < lev lv (f_task fr) ∧ stk2 ow lv T (fr :: st) q0.
Proof.
  intros H Hv Hov. inversion H as [|? ? qa qb Hst Hde Ho HT Hs]; subst.
  apply elem_of_app in Hv as [Hv|Hv]; [by destruct (Ho v Hv)|].
  destruct qb as [|u q0 _] using rev_ind; [by apply elem_of_nil in Hv|].
  exists (qa ++ q0), u. split_and!; [by rewrite app_assoc|apply Hs; set_solver|]. constructor; try done. intros y Hy. apply Hs. set_solver.
Qed.
(** The same if the call owns a task that the other worker runs. *)
Lemma stk2_take' ow lv T fr st q0 u y : stk2 ow lv T (fr :: st) (q0 ++ [u]) → y ∈ T → owned ow y (f_task fr) →
  lev lv (Some u) < lev lv (f_task fr) ∧ stk2 ow lv T (fr :: st) q0.
Proof.
  intros H Hy Hov. inversion H as [|? ? qa qb Hst Hde Ho HT Hs E]; subst.
  destruct HT as [->|HT]; [|by destruct (HT y Hy)]. cbn in *. subst qb. split; [apply Hs; set_solver|].
  apply (stk2_cons _ _ _ _ _ [] q0); try done; [by left|]. intros v Hv. apply Hs. set_solver.
Qed.
(** All that is queued is nested deeper than a call whose submitter is a call of the other worker. *)
Lemma stk2_stolen ow lv T st q fr y : stk2 ow lv T st q → fr ∈ st → y ∈ T → owned ow (f_task fr) y → below lv (lev lv (f_task fr)) q ∧ toplev lv st ≤ lev lv (f_task fr).
Proof.
  intros H Hfr Hy Hov. induction H as [q0 Hs0|fr' st qa qb Hst IH Hde Ho HTs Hs]; [by apply elem_of_nil in Hfr|].
  apply elem_of_cons in Hfr as [<-|Hfr].
  - destruct HTs as [->|HTs]; [split; [done|cbn; lia]|]. by destruct (HTs y Hy) as [_ ?].
  - destruct (IH Hfr) as [H1 H2]. split; [|cbn; lia]. apply below_app; [done|]. eapply below_mono; [|done]. lia.
Qed.
(** A new call. *)
Lemma stk2_call ow lv T st q u pc : stk2 ow lv T st q → lev lv (Some u) < toplev lv st → (∀ v, ow !! v ≠ Some (Some u)) →
  (q = [] ∨ ∀ y, y ∈ T → ow !! u ≠ Some y) → stk2 ow lv T (Frame (Some u) pc :: st) q.
Proof.
  intros H Hl Hf HT. replace q with (q ++ []) by apply app_nil_r. constructor; try done.
  - destruct HT as [->|HT]; [by left|right]. intros y Hy. cbn. split.
    + intros (v & -> & E). by apply (Hf v).
    + intros (v & [= <-] & E). by apply (HT y).
  - intros v Hv. by apply elem_of_nil in Hv.
Qed.

(** * The invariant *)
Record tinv (ow : list (option nat)) (lv : list nat) (s : tpool) : Prop := {
  t_p : pinv ow (core_of s);
  t_two : length (p_workers s) = 2;
  t_len : length lv = length ow;
  t_own : ∀ v o, ow !! v = Some o → lev lv (Some v) < lev lv o;
  t_progs : ∀ v c, p_progs s !! v = Some c → nests (lev lv (Some v)) c;
  t_run : ∀ (i : nat) x fr p, p_workers s !! i = Some x → fr ∈ w_stack x → f_pc fr = FRun p → nests (lev lv (f_task fr)) p;
  t_stk : ∀ (i : nat) x y, p_workers s !! i = Some x → p_workers s !! (1 - i) = Some y → stk2 ow lv (f_task <$> w_stack y) (w_stack x) (w_queue x) }.

Lemma two_split (ws : list worker) (i : nat) x : length ws = 2 → ws !! i = Some x →
  i < 2 ∧ ∃ y, ws !! (1 - i) = Some y ∧ (∀ B (f : worker → list B), concat (f <$> ws) ≡ₚ f x ++ f y).
Proof.
  intros Hl Hx. destruct ws as [|a [|b [|]]]; cbn in Hl; try lia. destruct i as [|[|i]]; cbn in Hx; [| |done]; injection Hx as ->.
  - split; [lia|]. exists b. split; [done|]. intros B f. cbn. by rewrite app_nil_r.
  - split; [lia|]. exists a. split; [done|]. intros B f. cbn. rewrite app_nil_r. apply Permutation_app_comm.
Qed.
Lemma tinv_mk ow lv s (i : nat) x y : pinv ow (core_of s) → length (p_workers s) = 2 → i < 2 → length lv = length ow →
  (∀ v o, ow !! v = Some o → lev lv (Some v) < lev lv o) → (∀ v c, p_progs s !! v = Some c → nests (lev lv (Some v)) c) →
  p_workers s !! i = Some x → p_workers s !! (1 - i) = Some y →
  (∀ fr p, fr ∈ w_stack x ++ w_stack y → f_pc fr = FRun p → nests (lev lv (f_task fr)) p) →
  stk2 ow lv (f_task <$> w_stack y) (w_stack x) (w_queue x) → stk2 ow lv (f_task <$> w_stack x) (w_stack y) (w_queue y) → tinv ow lv s.
Proof.
  intros I Hl Hi Hlv Hown Hpr Hx Hy Hrun Hsx Hsy.
  assert (∀ j z, p_workers s !! j = Some z → (j = i ∧ z = x) ∨ (j = 1 - i ∧ z = y)) as Hc.
  { intros j z Hz. assert (j < 2) by (rewrite <- Hl; by eapply lookup_lt_Some).
    destruct (decide (j = i)) as [->|]; [left; split; [done|congruence]|right]. assert (j = 1 - i) as -> by lia. split; [done|congruence]. }
  split; try done.
  - intros j z fr p Hz Hf Hp. destruct (Hc j z Hz) as [[-> ->]|[-> ->]]; apply Hrun; set_solver.
  - intros j z z' Hz Hz'. destruct (Hc j z Hz) as [[-> ->]|[-> ->]].
    + assert (z' = y) as -> by congruence. done.
    + replace (1 - (1 - i)) with i in Hz' by lia. assert (z' = x) as -> by congruence. done.
Qed.
Lemma before_irrefl (sd : list nat) a b : NoDup sd → before sd a b → before sd b a → False.
Proof.
  intros Hnd (l1 & l2 & E & Ha) Hb. apply (before_later sd l1 l2 b a Hnd E) in Hb. subst sd. apply NoDup_app in Hnd as (_ & Hd & _). apply (Hd a Ha). by right.
Qed.
Lemma pinv_sub2 ow s i v s' x o c p k st : pinv ow (core_of s) → pool_step s i v = Some s' → p_workers s !! i = Some x → w_stack x = Frame o (FRun (PSubmit c p k)) :: st →
  length (p_tasks s') = S (length (p_tasks s)) → pinv (ow ++ [o]) (core_of s').
Proof.
  intros I Hst Hws Hx Hl. destruct (pool_step_core _ _ _ _ Hst) as [E|(l & Hc)].
  { exfalso. apply (f_equal (λ c, length (c_tasks c))) in E. cbn in E. lia. }
  destruct (cstep_label _ _ _ _ Hc) as [E Ho]. cbn in E. destruct l as [o'|]; [|cbn in E; lia].
  destruct (Ho o' eq_refl) as (cc & pp & kk & st' & Hs). cbn in Hs. rewrite list_lookup_fmap, Hws in Hs. cbn in Hs. rewrite Hx in Hs. injection Hs as -> _.
  exact (pinv_step _ _ _ _ _ Hc I).
Qed.

(** A call that waits for an unfinished task owns a task in its worker's queue or among the calls of the other worker. *)
Lemma wait_somewhere ow s i x y o t k st z : pinv ow (core_of s) → length (p_workers s) = 2 → p_workers s !! i = Some x → p_workers s !! (1 - i) = Some y →
  w_stack x = Frame o (FRun (PWait t k)) :: st → p_tasks s !! t = Some z → t_ctr z ≠ 0%N →
  ∃ v, ow !! v = Some o ∧ (v ∈ w_queue x ∨ ∃ fr, fr ∈ w_stack y ∧ f_task fr = Some v).
Proof.
  intros I H2 Hx Hy Hst Hz Hc. pose proof (p_f _ _ I) as If. pose proof (i_g _ _ If) as G.
  destruct (two_split _ _ _ H2 Hx) as (Hi & y' & Hy' & Hcat). assert (y' = y) as -> by congruence. clear Hy'.
  assert (fl_f (flat_of (core_of s)) ≡ₚ w_stack x ++ w_stack y) as Ess by apply (Hcat _ w_stack).
  assert (fl_q (flat_of (core_of s)) ≡ₚ w_queue x ++ w_queue y) as Eqs by apply (Hcat _ w_queue).
  assert (NoDup (p_started s ++ fl_q (flat_of (core_of s)))) as Hnd.
  { pose proof (g_perm _ G) as Hp. cbn [flat_of fl_started] in Hp. change (c_started (core_of s)) with (p_started s) in Hp. rewrite Hp. apply NoDup_seq. }
  assert (Frame o (FRun (PWait t k)) ∈ fl_f (flat_of (core_of s))) as Hfr by (rewrite Ess, Hst; left).
  destruct (i_run _ _ If o _ Hfr) as (own & [Ht Hfj] & Hown). destruct (Hown t Ht) as [Hto Htp].
  assert (t_parent z = None) as Hzp. { unfold parent_of in Htp. cbn in Htp. by rewrite Hz in Htp. }
  rewrite (i_root _ _ If t z Hz Hzp) in Hc.
  assert (∀ v, (v = t ∨ parent_of (p_tasks s) v = Some t) → ow !! v = Some o) as Hov.
  { intros v [->|Hv]; [done|]. destruct (i_parent _ _ If v t Hv) as (_ & -> & _). done. }
  destruct (cnt (wq (p_tasks s) t) (fl_q (flat_of (core_of s)))) eqn:Eq.
  - change (fl_tasks (flat_of (core_of s))) with (p_tasks s) in Hc. rewrite Eq in Hc.
    destruct (cnt (wf (p_tasks s) t) (fl_f (flat_of (core_of s)))) eqn:Ef; [done|].
    destruct (cnt_pos (wf (p_tasks s) t) (fl_f (flat_of (core_of s)))) as ([ov pcv] & Hin & Hp); [lia|].
    assert (∃ v, ov = Some v ∧ (v = t ∨ parent_of (p_tasks s) v = Some t)) as (v & -> & Hv).
    { unfold wf in Hp. cbn in Hp. destruct ov as [v|]; [|lia]. exists v. split; [done|]. unfold wq in Hp.
      destruct pcv as [?|w|w]; (case_decide as E; [|lia]); [done| |naive_solver]. destruct E as [->|[_ E]]; [|by right].
      destruct (i_pc _ _ If v t) as [->|?]; [by left|by left|by right]. }
    exists v. split; [auto|]. right. rewrite Ess in Hin. apply elem_of_app in Hin as [Hin|Hin]; [exfalso|by exists (Frame (Some v) pcv)].
    assert (Some v ∈ (f_task <$> fl_f (flat_of (core_of s)))) as HvF.
    { apply elem_of_list_fmap. exists (Frame (Some v) pcv). split; [done|]. rewrite Ess. set_solver. }
    pose proof (g_started _ G v HvF) as Hvs. specialize (Hov v Hv).
    assert ((f_task <$> w_stack x) !! 0 = Some o) as H0 by (by rewrite Hst).
    assert (Some v ∈ (f_task <$> w_stack x)) as Hvx by (apply elem_of_list_fmap; by exists (Frame (Some v) pcv)).
    apply elem_of_list_lookup in Hvx as [j Hj].
    assert (NoDup (p_started s)) as Hnd' by (by apply NoDup_app in Hnd as [? _]).
    destruct j as [|j].
    + assert (o = Some v) as -> by congruence. destruct (i_order _ _ If v v Hov) as [_ Hb]. specialize (Hb Hvs). by apply (before_irrefl _ v v Hnd').
    + assert (c_ss (core_of s) !! i = Some (w_stack x)) as Hcs by (cbn; by rewrite list_lookup_fmap, Hx).
      destruct (p_stack _ _ I i _ Hcs 0 (S j) o (Some v)) as (va & -> & Hb); [lia|done|done|].
      destruct (i_order _ _ If v va Hov) as [_ Hb']. apply (before_irrefl _ v va Hnd'); [by apply Hb|by apply Hb'].
  - destruct (cnt_pos (wq (p_tasks s) t) (fl_q (flat_of (core_of s)))) as (v & Hin & Hp); [lia|].
    assert (ow !! v = Some o) as Hv. { apply Hov. unfold wq in Hp. case_decide; [done|lia]. }
    exists v. split; [done|]. left.
    apply (p_queue _ _ I i (w_stack x) (w_queue x) o v); [cbn; by rewrite list_lookup_fmap, Hx|cbn; by rewrite list_lookup_fmap, Hx|rewrite Hst; left|done|].
    intros Hs. apply NoDup_app in Hnd as (_ & Hd & _). by apply (Hd v Hs).
Qed.

Lemma stk2_below ow lv T st q : stk2 ow lv T st q → below lv (S D) q ∧ toplev lv st ≤ S D.
Proof.
  induction 1 as [q Hs|fr st qa qb Hst [IH1 IH2] Hde Ho HT Hs]; [split; [done|cbn; lia]|].
  split; [|cbn; lia]. apply below_app; [done|]. eapply below_mono; [|done]. lia.
Qed.

(** What the invariant of the pool says about queued tasks. *)
Lemma queued_facts ow s i x y : pinv ow (core_of s) → length (p_workers s) = 2 → p_workers s !! i = Some x → p_workers s !! (1 - i) = Some y →
  (∀ u, u ∈ w_queue x → u < length ow ∧ (∀ v, ow !! v ≠ Some (Some u)) ∧ ∀ o, o ∈ (f_task <$> w_stack y) → ow !! u ≠ Some o) ∧
  (∀ v, Some v ∈ (f_task <$> w_stack x) → v < length ow).
Proof.
  intros I H2 Hx Hy. pose proof (p_f _ _ I) as If. pose proof (i_g _ _ If) as G.
  destruct (two_split _ _ _ H2 Hx) as (Hi & y' & Hy' & Hcat). assert (y' = y) as -> by congruence. clear Hy'.
  assert (fl_f (flat_of (core_of s)) ≡ₚ w_stack x ++ w_stack y) as Ess by apply (Hcat _ w_stack).
  assert (fl_q (flat_of (core_of s)) ≡ₚ w_queue x ++ w_queue y) as Eqs by apply (Hcat _ w_queue).
  pose proof (g_perm _ G) as Hp. change (fl_started (flat_of (core_of s))) with (p_started s) in Hp. rewrite Eqs in Hp.
  pose proof (NoDup_seq 0 (length (fl_tasks (flat_of (core_of s))))) as Hnd. rewrite <- Hp in Hnd. apply NoDup_app in Hnd as (_ & Hd & Hnd). apply NoDup_app in Hnd as (_ & Hdq & _).
  assert (∀ u, u ∈ p_started s ++ w_queue x ++ w_queue y → u < length ow) as Hlt.
  { intros u Hu. rewrite Hp in Hu. apply elem_of_seq in Hu. rewrite (i_ow _ _ If). lia. }
  split.
  - intros u Hu. assert (u ∉ p_started s) as Hns by (intros Hs; apply (Hd u Hs); set_solver). split_and!.
    + apply Hlt. set_solver.
    + intros v Hv. by destruct (i_order _ _ If v u Hv) as [? _].
    + intros o Ho Hu'. apply (Hdq u Hu). apply (p_queue _ _ I (1 - i) (w_stack y) (w_queue y) o u); [cbn; by rewrite list_lookup_fmap, Hy|cbn; by rewrite list_lookup_fmap, Hy|done|done|done].
  - intros v Hv. apply Hlt. apply elem_of_app. left. apply (g_started _ G). rewrite Ess, fmap_app. set_solver.
Qed.

(** A worker calls a task. *)
Lemma tinv_call ow lv s i v s' x y x' y' u c : tinv ow lv s → pool_step s i v = Some s' → p_workers s !! i = Some x → p_workers s !! (1 - i) = Some y →
  p_tasks s' = p_tasks s → p_progs s' = p_progs s → p_progs s !! u = Some c → length (p_workers s') = 2 →
  p_workers s' !! i = Some x' → p_workers s' !! (1 - i) = Some y' → w_stack x' = Frame (Some u) (FRun c) :: w_stack x → w_stack y' = w_stack y →
  lev lv (Some u) < toplev lv (w_stack x) →
  (w_queue y' = w_queue y ∧ w_queue x = w_queue x' ++ [u] ∧ stk2 ow lv (f_task <$> w_stack y) (w_stack x) (w_queue x')) ∨
  (w_queue x = [] ∧ w_queue x' = [] ∧ w_queue y = u :: w_queue y') → tinv ow lv s'.
Proof.
  intros [I H2 Hlen Hown Hpr Hrun Hstk] Hstep Hx Hy Ets Eps Hc H2' Hx' Hy' Esx Esy Hlev Hq.
  destruct (two_split _ _ _ H2 Hx) as (Hi & _). assert (1 - (1 - i) = i) as Ei by lia.
  destruct (queued_facts _ _ i x y I H2 Hx Hy) as [Hqx _]. destruct (queued_facts _ _ (1 - i) y x I H2 Hy) as [Hqy _]; [by rewrite Ei|].
  pose proof (Hstk i x y Hx Hy) as Sx. assert (stk2 ow lv (f_task <$> w_stack x) (w_stack y) (w_queue y)) as Sy by (apply (Hstk (1 - i)); [done|by rewrite Ei]).
  apply (tinv_mk ow lv s' i x' y'); try done.
  - eapply pinv_same; [exact I|exact Hstep|by rewrite Ets].
  - by rewrite Eps.
  - intros fr p. rewrite Esx, Esy. intros [Hf|Hf]%elem_of_app Hp; [apply elem_of_cons in Hf as [->|Hf]|].
    + cbn in Hp. injection Hp as <-. cbn [f_task]. by apply Hpr.
    + by eapply (Hrun i x).
    + by eapply (Hrun (1 - i) y).
  - rewrite Esx, Esy. destruct Hq as [(Ey & Ex & Hs)|(Ex & Ex' & Ey)].
    + destruct (Hqx u) as (_ & Hf & Ho); [rewrite Ex; set_solver|]. apply stk2_call; [done|done|done|by right].
    + destruct (Hqy u) as (_ & Hf & Ho); [rewrite Ey; set_solver|]. rewrite Ex'. rewrite Ex in Sx. apply stk2_call; [done|done|done|by left].
  - rewrite Esx, Esy. cbn [fmap list_fmap f_task]. destruct Hq as [(Ey & Ex & Hs)|(Ex & Ex' & Ey)].
    + destruct (Hqx u) as (_ & Hf & Ho); [rewrite Ex; set_solver|]. rewrite Ey. apply stk2_other; [done| |done].
      intros fr Hfr. apply Ho. apply elem_of_list_fmap. by exists fr.
    + destruct (Hqy u) as (_ & Hf & Ho); [rewrite Ey; set_solver|]. rewrite Ey in Sy. by apply stk2_steal.
Qed.

(** A call goes on or ends. *)
Lemma tinv_same ow lv s i v s' x y x' y' : tinv ow lv s → pool_step s i v = Some s' → p_workers s !! i = Some x → p_workers s !! (1 - i) = Some y →
  length (p_tasks s') = length (p_tasks s) → p_progs s' = p_progs s → length (p_workers s') = 2 →
  p_workers s' !! i = Some x' → p_workers s' !! (1 - i) = Some y' → w_queue x' = w_queue x → w_queue y' = w_queue y → w_stack y' = w_stack y →
  (w_stack x' = w_stack x ∨ (∃ fr, w_stack x = fr :: w_stack x') ∨
   ∃ o pc pc' st, w_stack x = Frame o pc :: st ∧ w_stack x' = Frame o pc' :: st ∧ ∀ p, pc' = FRun p → nests (lev lv o) p) → tinv ow lv s'.
Proof.
  intros [I H2 Hlen Hown Hpr Hrun Hstk] Hstep Hx Hy Ets Eps H2' Hx' Hy' Eqx Eqy Esy Hst.
  destruct (two_split _ _ _ H2 Hx) as (Hi & _). assert (1 - (1 - i) = i) as Ei by lia.
  pose proof (Hstk i x y Hx Hy) as Sx. assert (stk2 ow lv (f_task <$> w_stack x) (w_stack y) (w_queue y)) as Sy by (apply (Hstk (1 - i)); [done|by rewrite Ei]).
  assert ((f_task <$> w_stack x') ⊆ (f_task <$> w_stack x)) as Hsub.
  { destruct Hst as [->|[[fr ->]|(o & pc & pc' & st & -> & -> & _)]]; set_solver. }
  apply (tinv_mk ow lv s' i x' y'); try done.
  - eapply pinv_same; [exact I|exact Hstep|done].
  - by rewrite Eps.
  - intros fr p. rewrite Esy. intros [Hf|Hf]%elem_of_app Hp; [|by eapply (Hrun (1 - i) y)].
    destruct Hst as [E|[[fr' E]|(o & pc & pc' & st & E & E' & Hn)]].
    + rewrite E in Hf. by eapply (Hrun i x).
    + eapply (Hrun i x); [done|rewrite E; by right|done].
    + rewrite E' in Hf. apply elem_of_cons in Hf as [->|Hf]; [cbn; by apply Hn|]. eapply (Hrun i x); [done|rewrite E; by right|done].
  - rewrite Esy, Eqx. destruct Hst as [->|[[fr E]|(o & pc & pc' & st & E & -> & Hn)]]; [done| |].
    + rewrite E in Sx. by eapply stk2_pop.
    + rewrite E in Sx. by eapply stk2_top.
  - rewrite Esy, Eqy. by eapply stk2_sub.
Qed.

(** What get_task takes. *)
Lemma get_cases s (i : nat) v x r : p_workers s !! i = Some x → get_task s i v = Some r →
  (r = (None, s)) ∨ (∃ q u, w_queue x = q ++ [u] ∧ r = (Some u, upd_worker (set_queue q) i s)) ∨
  (∃ j y q u, w_queue x = [] ∧ j ≠ i ∧ p_workers s !! j = Some y ∧ w_queue y = u :: q ∧ r = (Some u, upd_worker (set_queue q) j s)).
Proof.
  intros Hx. unfold get_task. rewrite Hx. cbn. destruct (w_queue x) as [|u q _] using rev_ind.
  - cbn. destruct v as [j|]; [|intros [= <-]; by left]. case_decide as Hj; [done|]. destruct (p_workers s !! j) as [y|] eqn:Hy; [|done]. cbn.
    destruct (w_queue y) as [|u q] eqn:Eq; intros [= <-]; [by left|]. right. right. exists j, y, q, u. done.
  - rewrite last_snoc. intros [= <-]. right. left. exists q, u. split; [done|]. unfold pop_back. by rewrite app_length, Nat.add_sub, take_app.
Qed.

Lemma tinv_take ow lv s i v s' x y r u s1 : tinv ow lv s → pool_step s i v = Some s' → p_workers s !! i = Some x → p_workers s !! (1 - i) = Some y →
  get_task s i v = Some r → r.1 = Some u → (s1 = r.2 ∨ s1 = wake_worker r.2) → wk_execute s1 i u = Some s' →
  (∀ q, w_queue x = q ++ [u] → lev lv (Some u) < toplev lv (w_stack x) ∧ stk2 ow lv (f_task <$> w_stack y) (w_stack x) q) →
  (∀ q, w_queue x = [] → w_queue y = u :: q → lev lv (Some u) < toplev lv (w_stack x)) → tinv ow lv s'.
Proof.
  intros T Hstep Hx Hy Hr Hu Hs1 He Hown Hsteal. pose proof (t_two _ _ _ T) as H2.
  destruct (two_split _ _ _ H2 Hx) as (Hi & _).
  assert (∃ c, p_progs s1 !! u = Some c ∧ s' = TPool (p_tasks s1) (p_progs s1) (alter (λ x, set_stack (Frame (Some u) (FRun c) :: w_stack x) x) i (p_workers s1)) (p_sem s1) (p_started s1 ++ [u])) as (c & Hc & ->).
  { unfold wk_execute in He. destruct (p_progs s1 !! u) as [c|]; [|done]. cbn in He. injection He as <-. by exists c. }
  assert (p_workers s1 = p_workers r.2 ∧ p_tasks s1 = p_tasks r.2 ∧ p_progs s1 = p_progs r.2) as (Ew & Et & Ep) by (by destruct Hs1 as [->| ->]).
  destruct (get_cases _ _ _ _ _ Hx Hr) as [->|[(q & u' & Eq & ->)|(j & y' & q & u' & Eq & Hj & Hy' & Eqy & ->)]]; [done| |]; cbn in Hu; injection Hu as ->; cbn in Ew, Et, Ep.
  - destruct (Hown q Eq) as [Hlev Hs].
    eapply (tinv_call ow lv s i v _ x y _ _ u c T Hstep Hx Hy); cbn.
    + done.
    + done.
    + by rewrite <- Ep.
    + by rewrite Ew, !alter_length.
    + rewrite Ew, !list_lookup_alter, Hx. reflexivity.
    + rewrite Ew, !list_lookup_alter_ne by lia. exact Hy.
    + done.
    + done.
    + done.
    + left. done.
  - assert (j = 1 - i) as ->. { assert (j < 2) by (rewrite <- H2; by eapply lookup_lt_Some). lia. }
    assert (y' = y) as -> by congruence.
    eapply (tinv_call ow lv s i v _ x y _ _ u c T Hstep Hx Hy); cbn.
    + done.
    + done.
    + by rewrite <- Ep.
    + by rewrite Ew, !alter_length.
    + rewrite Ew, list_lookup_alter, list_lookup_alter_ne, Hx by lia. reflexivity.
    + rewrite Ew, list_lookup_alter_ne, list_lookup_alter, Hy by lia. reflexivity.
    + done.
    + done.
    + by apply (Hsteal q).
    + right. done.
Qed.

Lemma tinv_step ow lv s i v s' : tinv ow lv s → pool_step s i v = Some s' → ∃ ow' lv', tinv ow' lv' s'.
Proof.
  intros T Hstep. pose proof Hstep as Hstep0. destruct (p_workers s !! i) as [x|] eqn:Hx; [|unfold pool_step in Hstep; by rewrite Hx in Hstep].
  pose proof T as [I H2 Hlen Hown Hpr Hrun Hstk].
  destruct (two_split _ _ _ H2 Hx) as (Hi & y & Hy & _). assert (1 - (1 - i) = i) as Ei by lia.
  pose proof (Hstk i x y Hx Hy) as Sx. assert (stk2 ow lv (f_task <$> w_stack x) (w_stack y) (w_queue y)) as Sy by (apply (Hstk (1 - i)); [done|by rewrite Ei]).
  unfold pool_step in Hstep. rewrite Hx in Hstep. cbn in Hstep.
  assert (∀ f ts sm sd, length ts = length (p_tasks s) → Some (TPool ts (p_progs s) (alter f i (p_workers s)) sm sd) = Some s' → w_queue (f x) = w_queue x →
    (w_stack (f x) = w_stack x ∨ (∃ fr, w_stack x = fr :: w_stack (f x)) ∨
    ∃ o pc pc' st, w_stack x = Frame o pc :: st ∧ w_stack (f x) = Frame o pc' :: st ∧ ∀ p, pc' = FRun p → nests (lev lv o) p) → ∃ ow' lv', tinv ow' lv' s') as Hsame.
  { intros f ts sm sd Hts [= <-] Hq Hs. exists ow, lv. eapply (tinv_same ow lv s i v _ x y (f x) y T Hstep0 Hx Hy); cbn; try done.
    - by rewrite alter_length.
    - by rewrite list_lookup_alter, Hx.
    - by rewrite list_lookup_alter_ne by lia. }
  destruct (w_stack x) as [|[o pc] st] eqn:Est.
  - destruct (w_base x).
    + destruct (get_task s i v) as [r|] eqn:Hr; [|done]. cbn in Hstep. destruct (r.1) as [u|] eqn:Eu.
      * exists ow, lv. eapply (tinv_take ow lv s i v s' x y r u r.2); try done; [by left| |].
        -- intros q Eq. rewrite Est. rewrite Eq in Sx. inversion Sx as [? Hb|]; subst. split; [apply Hb; set_solver|]. constructor. intros w Hw. apply Hb. set_solver.
        -- intros q _ Eq. rewrite Est. cbn. destruct (stk2_below _ _ _ _ _ Sy) as [Hb _]. apply Hb. rewrite Eq. left.
      * destruct (get_cases _ _ _ _ _ Hx Hr) as [->|[(q & u' & Eq & ->)|(j & y' & q & u' & Eq & Hj & Hy' & Eqy & ->)]]; [|done|done].
        eapply Hsame; [|exact Hstep|done|left; done]. done.
    + eapply Hsame; [|exact Hstep|done|left; done]. done.
    + done.
  - assert (∀ p, pc = FRun p → nests (lev lv o) p) as Hn.
    { intros p ->. apply (Hrun i x (Frame o (FRun p)) p Hx); [rewrite Est; left|done]. }
    assert (∀ ts pc', length ts = length (p_tasks s) → (∀ p, pc' = FRun p → nests (lev lv o) p) →
      Some (upd_worker (set_stack (Frame o pc' :: st)) i (p_set_tasks s ts)) = Some s' → ∃ ow' lv', tinv ow' lv' s') as Hgo.
    { intros ts pc' Hts Hn' E. eapply Hsame; [exact Hts|exact E|done|]. right. right. exists o, pc, pc', st. done. }
    assert (Some (upd_worker (set_stack st) i s) = Some s' → ∃ ow' lv', tinv ow' lv' s') as Hpop.
    { intros E. eapply Hsame; [|exact E|done|]; [done|]. right. left. by eexists. }
    assert (p_set_tasks s (p_tasks s) = s) as Hid by (by destruct s).
    unfold frame_step in Hstep. cbn [f_pc f_task] in Hstep. destruct pc as [[|c p k|t k|k|a k]|t|t].
    + destruct o as [t|]; [|by apply Hpop]. refine (Hgo _ _ _ _ Hstep); [by rewrite alter_length|done].
    + specialize (Hn _ eq_refl). inversion Hn as [|d0 ? ? ? Hc Hk E| | |]; subst. injection Hstep as <-.
      destruct (queued_facts _ _ i x y I H2 Hx Hy) as [Hqx Hsx]. destruct (queued_facts _ _ (1 - i) y x I H2 Hy) as [Hqy Hsy]; [by rewrite Ei|].
      pose proof (p_f _ _ I) as If. pose proof (i_g _ _ If) as G.
      assert (length lv = length (p_tasks s)) as El by (rewrite Hlen; apply (i_ow _ _ If)).
      assert (length (p_progs s) = length (p_tasks s)) as Elp by apply (g_len _ G).
      assert (∀ o', (∀ v, o' = Some v → v < length lv) → lev (lv ++ [d0]) o' = lev lv o') as Hlev.
      { intros [w|] Hw; [|done]. cbn. by rewrite lookup_app_l by auto. }
      assert (lev (lv ++ [d0]) (Some (length lv)) = d0) as Hnew by (cbn; by rewrite lookup_app_r, Nat.sub_diag by lia).
      assert (∀ w, Some w ∈ (f_task <$> w_stack x) ∨ Some w ∈ (f_task <$> w_stack y) → w < length lv) as Hst'.
      { rewrite Est, Hlen. intros w [Hw|Hw]; [by apply Hsx; rewrite Est|by apply Hsy]. }
      assert (lev (lv ++ [d0]) o = lev lv o) as Hlo. { apply Hlev. intros w ->. apply Hst'. left. rewrite Est. left. }
      exists (ow ++ [o]), (lv ++ [d0]).
      apply (tinv_mk _ _ _ i (set_stack (Frame o (FRun (k (length (p_tasks s)))) :: st) (set_queue (w_queue x ++ [length (p_tasks s)]) x)) y).
      * eapply pinv_sub2; [exact I|exact Hstep0|exact Hx|exact Est|]. cbn. rewrite app_length. destruct p; cbn; rewrite ?alter_length; lia.
      * cbn. by rewrite !alter_length.
      * done.
      * rewrite !app_length. cbn. lia.
      * intros w o' Hw. apply lookup_app_Some in Hw as [Hw|[Hle Hw]].
        -- assert (w < length lv) as Hwl by (rewrite Hlen; by eapply lookup_lt_Some).
           rewrite (Hlev (Some w)) by (intros ? [= <-]; done). rewrite Hlev; [by apply Hown|]. intros o1 ->.
           destruct (i_order _ _ If w o1 Hw) as [Hs _]. pose proof (g_perm _ G) as Hp. assert (o1 ∈ seq 0 (length (p_tasks s))) as Hin.
           { change (fl_tasks (flat_of (core_of s))) with (p_tasks s) in Hp. rewrite <- Hp. apply elem_of_app. by left. }
           apply elem_of_seq in Hin. lia.
        -- apply list_lookup_singleton_Some in Hw as [E0 <-]. replace w with (length lv) by lia. rewrite Hnew, Hlo. lia.
      * cbn [p_progs upd_worker wk_submit wake_worker]. intros w c' Hw. apply lookup_app_Some in Hw as [Hw|[Hle Hw]].
        -- rewrite Hlev; [by apply Hpr|]. intros ? [= <-]. rewrite El, <- Elp. by eapply lookup_lt_Some.
        -- apply list_lookup_singleton_Some in Hw as [E0 <-]. replace w with (length lv) by lia. rewrite Hnew. done.
      * cbn. rewrite !list_lookup_alter, Hx. done.
      * cbn. rewrite !list_lookup_alter_ne by lia. done.
      * cbn [w_stack set_stack]. intros fr p' Hf Hp'. assert (f_task fr = o ∧ p' = k (length (p_tasks s)) ∨ fr ∈ w_stack x ++ w_stack y) as [[-> ->]|Hf'].
        { rewrite Est. cbn in Hf. apply elem_of_cons in Hf as [->|Hf]; [left; cbn in Hp'; by injection Hp' as <-|right; by right]. }
        { rewrite Hlo, <- E. apply Hk. }
        rewrite Hlev.
        -- apply elem_of_app in Hf' as [Hf'|Hf']; [by eapply (Hrun i x)|by eapply (Hrun (1 - i) y)].
        -- intros w Hw. apply Hst'. apply elem_of_app in Hf' as [Hf'|Hf']; [left|right]; apply elem_of_list_fmap; by exists fr.
      * cbn [w_stack set_stack w_queue set_queue]. apply stk2_push.
        -- eapply (stk2_top _ _ _ (Frame o (FRun (PSubmit c p k)))); [|done]. apply stk2_grow; [done|done| |].
           ++ intros w Hw. rewrite Hlen. by apply Hqx.
           ++ rewrite <- Est. exact Hst'.
        -- intros w ->%elem_of_list_singleton. rewrite <- El, Hnew. cbn [toplev f_task]. rewrite Hlo. lia.
      * cbn [w_stack set_stack]. cbn [fmap list_fmap f_task]. cbn [fmap list_fmap f_task] in Sy. apply stk2_grow; [done|done| |].
        -- intros w Hw. rewrite Hlen. by apply Hqy.
        -- intros w [Hw|Hw]; apply Hst'; [by right|left]. by rewrite Est.
    + specialize (Hn _ eq_refl). destruct (p_tasks s !! t) as [z|] eqn:Hz; [|done]. cbn in Hstep. case_bool_decide as Hc.
      { rewrite <- Hid in Hstep at 1. refine (Hgo _ _ _ _ Hstep); [done|]. intros p [= <-]. by inversion Hn. }
      destruct (wait_somewhere ow s i x y o t k st z I H2 Hx Hy Est Hz Hc) as (w & Hw & Hwq).
      destruct (get_task s i v) as [r|] eqn:Hr; [|done]. cbn in Hstep. destruct (r.1) as [u|] eqn:Eu.
      * exists ow, lv. eapply (tinv_take ow lv s i v s' x y r u (wake_worker r.2)); try done; [by right| |].
        -- intros q Eq. rewrite Est. rewrite Eq in Sx. cbn [toplev f_task]. destruct Hwq as [Hwq|(fr & Hfr & Hft)].
           ++ rewrite Eq in Hwq. destruct (stk2_take _ _ _ _ _ _ w Sx Hwq Hw) as (q0 & u0 & E0 & Hlt & Hs). apply app_inj_2 in E0 as [-> [= ->]]; [|done]. done.
           ++ apply (stk2_take' _ _ _ _ _ _ _ (Some w) Sx); [|by exists w]. apply elem_of_list_fmap. by exists fr.
        -- intros q Eq Eqy. rewrite Est. cbn [toplev f_task]. destruct Hwq as [Hwq|(fr & Hfr & Hft)]; [rewrite Eq in Hwq; by apply elem_of_nil in Hwq|].
           destruct (stk2_stolen _ _ _ _ _ fr o Sy Hfr) as [Hb _]; [left|by exists w|]. rewrite Hft in Hb. pose proof (Hown _ _ Hw). specialize (Hb u). rewrite Eqy in Hb.
           etrans; [apply Hb; left|done].
      * destruct (get_cases _ _ _ _ _ Hx Hr) as [->|[(q & u' & Eq & ->)|(j & y' & q & u' & Eq & Hj & Hy' & Eqy & ->)]]; [|done|done].
        cbn in Hstep. injection Hstep as <-. exists ow, lv. eapply (tinv_same ow lv s i v _ x y x y T Hstep0 Hx Hy); cbn; try done. by left.
    + specialize (Hn _ eq_refl). injection Hstep as <-. exists ow, lv.
      set (f := λ (i : nat) x, if decide (i = 0) then x else set_active false x).
      eapply (tinv_same ow lv s i v _ x y (set_stack (Frame o (FRun k) :: st) (f i x)) (f (1 - i) y) T Hstep0 Hx Hy); cbn.
      * done.
      * done.
      * by rewrite alter_length, imap_length.
      * by rewrite list_lookup_alter, list_lookup_imap, Hx.
      * by rewrite list_lookup_alter_ne, list_lookup_imap, Hy by lia.
      * unfold f. by case_decide.
      * unfold f. by case_decide.
      * unfold f. by case_decide.
      * right. right. exists o, (FRun (PStop k)), (FRun k), st. split_and!; [done|done|]. intros p [= <-]. by inversion Hn.
    + specialize (Hn _ eq_refl). rewrite <- Hid in Hstep at 1. refine (Hgo _ _ _ _ Hstep); [done|]. intros p [= <-]. by inversion Hn.
    + refine (Hgo _ _ _ _ Hstep); [by rewrite alter_length|done].
    + destruct (p_tasks s !! t) as [z|] eqn:Hz; [|done]. cbn in Hstep. case_bool_decide as Hc.
      * destruct (t_parent z); [|by apply Hpop]. rewrite <- Hid in Hstep at 1. refine (Hgo _ _ _ _ Hstep); done.
      * by apply Hpop.
Qed.

Lemma two_depth main s x : fork_join [] main → nests D main → pool_reach 2 main s → x ∈ p_workers s → length (w_stack x) ≤ S D.
Proof.
  intros Hfj Hn Hr Hx. assert (∃ ow lv, tinv ow lv s) as (ow & lv & T).
  { clear Hx. induction Hr as [|s i v s' _ (ow & lv & IH) Hst]; [|by eapply tinv_step].
    exists [], []. apply (tinv_mk _ _ _ 0 (Worker [] [Frame None (FRun main)] BExit true) (Worker [] [] BGet true)); try done; [by apply pinv_start|lia| | |].
    - intros fr p Hf. cbn in Hf. apply elem_of_list_singleton in Hf as ->. intros [= <-]. exact Hn.
    - apply (stk2_cons _ _ _ _ _ [] []); [constructor; intros u Hu; by apply elem_of_nil in Hu|cbn; lia|by intros v ?%elem_of_nil|by left|].
      intros u Hu. by apply elem_of_nil in Hu.
    - constructor. intros u Hu. by apply elem_of_nil in Hu. }
  apply elem_of_list_lookup in Hx as [i Hx]. destruct (two_split _ _ _ (t_two _ _ _ T) Hx) as (_ & y & Hy & _).
  pose proof (stk2_length _ _ _ _ _ (t_stk _ _ _ T i x y Hx Hy)). lia.
Qed.
End two.
