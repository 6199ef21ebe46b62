(** Proofs about the depth of the stacks of the workers. *)
From Verif Require Import Base Task ThreadPool ThreadPoolProofs ThreadPoolRun PoolTrace PoolTraceProofs PoolDepth.
Local Open Scope nat_scope.

Lemma nests_mono d p : nests d p → ∀ e, d ≤ e → nests e p.
Proof.
  induction 1 as [d|d c o k Hc IHc Hk IHk|d t k Hk IH|d k Hk IH|d a k Hk IH]; intros e He; try (constructor; auto; fail).
  destruct e as [|e]; [lia|]. constructor; [apply IHc; lia|]. intros t. by apply IHk.
Qed.
Lemma nests_seq p q d : nests d p → nests d q → nests d (seq_prog p q).
Proof. induction 1 as [d|d c o k Hc IHc Hk IHk|d t k Hk IH|d k Hk IH|d a k Hk IH]; intros Hq; cbn; [done|constructor; auto..]. Qed.
Lemma nests_submit_all d bs k : Forall (nests d) bs → (∀ o, nests (S d) (k o)) → ∀ o, nests (S d) (submit_all o bs k).
Proof. intros Hb Hk. induction Hb as [|b bs Hb _ IH]; intros o; cbn; [apply Hk|]. constructor; [done|]. intros t. apply IH. Qed.
Lemma deepest_le (c : code) cs : c ∈ cs → code_depth c ≤ foldr (λ c, Nat.max (code_depth c)) 0 cs.
Proof. induction 1 as [c cs|c x cs _ IH]; cbn; lia. Qed.
Lemma code_nests c : nests (code_depth c) (comp c).
Proof.
  induction c as [|a k IH|cs ms k Hcs Hms IH] using code_ind'; [constructor|by constructor|]. cbn [comp code_depth].
  set (D := foldr (λ c, Nat.max (code_depth c)) 0). set (d := Nat.max _ _).
  apply nests_seq; [|eapply nests_mono; [exact IH|unfold d; lia]].
  assert (∀ q, nests d q → nests d (foldr seq_prog q (comp <$> ms))) as Hm.
  { intros q Hq. assert (∀ l, (∀ m, m ∈ l → m ∈ ms) → nests d (foldr seq_prog q (comp <$> l))) as H; [|by apply H].
    induction l as [|m l IHl]; intros Hl; [done|]. cbn. apply nests_seq; [|apply IHl; set_solver].
    rewrite Forall_forall in Hms. assert (m ∈ ms) as Hin by set_solver. eapply nests_mono; [by apply Hms|]. pose proof (deepest_le m ms Hin). unfold d, D. lia. }
  assert (∀ o, nests d (wait_parent o)) as Hw by (intros [t|]; repeat constructor).
  unfold batch_call. destruct cs as [|c cs]; [by apply Hm|].
  assert (∃ e, d = S e ∧ ∀ x, x ∈ c :: cs → code_depth x ≤ e) as (e & Ed & He).
  { exists (pred d). split; [unfold d; lia|]. intros x Hx. pose proof (deepest_le x _ Hx). unfold d, D. lia. }
  rewrite Ed in *. apply nests_submit_all; [|intros o; by apply Hm]. apply Forall_fmap, Forall_forall. intros x Hx. rewrite Forall_forall in Hcs.
  eapply nests_mono; [by apply Hcs|]. by apply He.
Qed.

(** * One worker *)
Definition lvl (d : nat) (fr : frame) : Prop := match f_pc fr with FRun p => nests d p | _ => True end.
Definition shallow (ps : list prog) (d : nat) (q : list nat) : Prop := ∀ u, u ∈ q → ∃ c e, ps !! u = Some c ∧ nests e c ∧ e < d.

(** The calls on the stack nest less and less deep, and so do the tasks submitted since each of them began. *)
Inductive stk (ow : list (option nat)) (ps : list prog) (D : nat) : nat → list frame → list nat → Prop :=
  | stk_one d fr q : d ≤ D → lvl d fr → shallow ps d q → stk ow ps D d [fr] q
  | stk_cons d e fr st q q' : stk ow ps D e st q → d < e → lvl d fr → (∀ v, v ∈ q → ow !! v ≠ Some (f_task fr)) → shallow ps d q' →
      stk ow ps D d (fr :: st) (q ++ q').

Lemma shallow_app ps d q q' : shallow ps d q → shallow ps d q' → shallow ps d (q ++ q').
Proof. intros H1 H2 u [Hu|Hu]%elem_of_app; auto. Qed.
Lemma shallow_mono ps d e q : d ≤ e → shallow ps d q → shallow ps e q.
Proof. intros Hd H u Hu. destruct (H u Hu) as (c & x & ? & ? & ?). exists c, x. split_and!; [done|done|lia]. Qed.
Lemma stk_push ow ps D d st q q' : stk ow ps D d st q → shallow ps d q' → stk ow ps D d st (q ++ q').
Proof.
  intros H Hq. destruct H as [d fr q Hd Hl Hs|d e fr st q q0 Hst Hde Hl Ho Hs].
  - constructor; [done|done|]. by apply shallow_app.
  - rewrite <- app_assoc. econstructor; [done|done|done|done|]. by apply shallow_app.
Qed.
Lemma stk_grow ow ow' ps ps' D d st q : stk ow ps D d st q → (∀ v, v ∈ q → v < length ow) → stk (ow ++ ow') (ps ++ ps') D d st q.
Proof.
  assert (∀ d q, shallow ps d q → shallow (ps ++ ps') d q) as Hsh.
  { intros d' q' H u Hu. destruct (H u Hu) as (c & e & Hc & He & Hl). exists c, e. split; [by apply lookup_app_l_Some|done]. }
  induction 1 as [d fr q Hd Hl Hs|d e fr st q q' Hst IH Hde Hl Ho Hs]; intros Hq.
  - constructor; auto.
  - apply (stk_cons _ _ _ d e); [apply IH; set_solver|done|done| |auto]. intros v Hv. rewrite lookup_app_l by (apply Hq; set_solver). by apply Ho.
Qed.
Lemma stk_top ow ps D d fr fr' st q : stk ow ps D d (fr :: st) q → f_task fr' = f_task fr → lvl d fr' → stk ow ps D d (fr' :: st) q.
Proof.
  intros H Ht Hl'. inversion H as [? ? ? Hd Hl Hs|? e ? ? q0 q' Hst Hde Hl Ho Hs]; subst; [by constructor|].
  econstructor; [done|done|done| |done]. by rewrite Ht.
Qed.
Lemma stk_lvl ow ps D d fr st q : stk ow ps D d (fr :: st) q → lvl d fr.
Proof. inversion 1; done. Qed.
Lemma stk_pop ow ps D d fr st q : stk ow ps D d (fr :: st) q → st = [] ∨ ∃ e, stk ow ps D e st q.
Proof.
  inversion 1 as [|? e ? ? q0 q' Hst Hde Hl Ho Hs]; subst; [by left|]. right. exists e. apply stk_push; [done|]. eapply shallow_mono; [|done]. lia.
Qed.
Lemma stk_length ow ps D d st q : stk ow ps D d st q → d + length st ≤ S D.
Proof. induction 1; cbn in *; lia. Qed.
Lemma stk_take ow ps D d fr st q v : stk ow ps D d (fr :: st) q → v ∈ q → ow !! v = Some (f_task fr) →
  ∃ q0 u c e, q = q0 ++ [u] ∧ ps !! u = Some c ∧ nests e c ∧ e < d ∧ stk ow ps D d (fr :: st) q0.
Proof.
  intros H Hv Hov. inversion H as [? ? ? Hd Hl Hs|? e ? ? qa qb Hst Hde Hl Ho Hs]; subst.
  - destruct q as [|u q0 _] using rev_ind; [by apply elem_of_nil in Hv|]. destruct (Hs u) as (c & e & Hc & He & Hlt); [set_solver|].
    exists q0, u, c, e. split_and!; try done. constructor; [done|done|]. intros x Hx. apply Hs. set_solver.
  - apply elem_of_app in Hv as [Hv|Hv]; [by destruct (Ho v Hv)|].
    destruct qb as [|u q0 _] using rev_ind; [by apply elem_of_nil in Hv|]. destruct (Hs u) as (c & x & Hc & Hx & Hlt); [set_solver|].
    exists (qa ++ q0), u, c, x. split_and!; try done; [by rewrite app_assoc|]. econstructor; try done. intros y Hy. apply Hs. set_solver.
Qed.

(** The call that waits owns a queued task. *)
Lemma wait_queued ow s x o t k st y : pinv ow (core_of s) → p_workers s = [x] → w_stack x = Frame o (FRun (PWait t k)) :: st →
  p_tasks s !! t = Some y → t_ctr y ≠ 0%N → ∃ v, v ∈ w_queue x ∧ ow !! v = Some o.
Proof.
  intros I Hws Hst Hy Hc. pose proof (p_f _ _ I) as If. pose proof (i_g _ _ If) as G.
  assert (concat (c_ss (core_of s)) = w_stack x) as Ess by (cbn; rewrite Hws; cbn; by rewrite app_nil_r).
  assert (concat (c_qs (core_of s)) = w_queue x) as Eqs by (cbn; rewrite Hws; cbn; by rewrite app_nil_r).
  destruct (latest_top ow _ I) as (w & o' & pc' & st' & Hw & Hlast); [by rewrite Ess, Hst|].
  assert (o' = o) as ->.
  { cbn in Hw. rewrite Hws in Hw. destruct w; [|done]. cbn in Hw. injection Hw as Hw. rewrite Hst in Hw. congruence. }
  assert (Frame o (FRun (PWait t k)) ∈ fl_f (flat_of (core_of s))) as Hfr by (unfold flat_of; cbn [fl_f]; rewrite Ess, Hst; left).
  destruct (i_run _ _ If o _ Hfr) as (own & [Ht Hfj] & Hown). destruct (Hown t Ht) as [Hto Htp].
  assert (t_parent y = None) as Hyp. { unfold parent_of in Htp. cbn in Htp. by rewrite Hy in Htp. }
  rewrite (i_root _ _ If t y Hy Hyp) in Hc. unfold flat_of in Hc. cbn [fl_q fl_f fl_tasks] in Hc. change (c_tasks (core_of s)) with (p_tasks s) in Hc. rewrite Ess, Eqs in Hc.
  destruct (cnt (wq (p_tasks s) t) (w_queue x)) eqn:Eq.
  - exfalso. destruct (cnt (wf (p_tasks s) t) (w_stack x)) eqn:Ef; [done|].
    destruct (cnt_pos (wf (p_tasks s) t) (w_stack x)) as ([ov pcv] & Hin & Hp); [lia|].
    assert (Frame ov pcv ∈ fl_f (flat_of (core_of s))) as Hin' by (unfold flat_of; cbn [fl_f]; by rewrite Ess).
    assert (∃ v, ov = Some v ∧ (v = t ∨ parent_of (p_tasks s) v = Some t)) as (v & -> & Hv).
    { unfold wf in Hp. cbn in Hp. destruct ov as [v|]; [|lia]. exists v. split; [done|]. unfold wq in Hp.
      destruct pcv as [?|z|z]; (case_decide as E; [|lia]); [done| |naive_solver]. destruct E as [->|[_ E]]; [|by right].
      destruct (i_pc _ _ If v t) as [->|?]; [by left|by left|by right]. }
    assert (ow !! v = Some o) as Hov.
    { destruct Hv as [->|Hv]; [done|]. destruct (i_parent _ _ If v t Hv) as (_ & -> & _). done. }
    assert (Some v ∈ (f_task <$> concat (c_ss (core_of s)))) as HvF.
    { rewrite Ess. apply elem_of_list_fmap. by exists (Frame (Some v) pcv). }
    pose proof (Hlast v HvF) as Hl. destruct o as [o|]; [|done]. apply Hl.
    apply (i_order _ _ If v o Hov). by apply (g_started _ G).
  - destruct (cnt_pos (wq (p_tasks s) t) (w_queue x)) as (v & Hin & Hp); [lia|].
    exists v. unfold wq in Hp. case_decide as Hv; [|lia]. split; [done|].
    destruct Hv as [->|Hv]; [done|]. destruct (i_parent _ _ If v t Hv) as (_ & -> & _). done.
Qed.

Record oinv (D : nat) (ow : list (option nat)) (s : tpool) (x : worker) : Prop := {
  o_p : pinv ow (core_of s);
  o_one : p_workers s = [x];
  o_base : w_base x = BExit;
  o_stk : w_stack x = [] ∨ ∃ d, stk ow (p_progs s) D d (w_stack x) (w_queue x) }.

Lemma cstep_label l c w c' : cstep l c w c' → length (c_tasks c') = length (c_tasks c) + length (option_list l) ∧
  ∀ o, l = Some o → ∃ cc p k st, c_ss c !! w = Some (Frame o (FRun (PSubmit cc p k)) :: st).
Proof.
  destruct 1 as [ts ps sd qs ss w o c p k st q Hs Hq|ts ps sd qs ss w st j q1 u q2 c Hs Hq Hp|ts ps sd qs ss w o pc st ts' pc' Hs Hg|ts ps sd qs ss w fr st Hs Hp];
    cbn.
  - split; [|intros o' [= <-]; eauto]. rewrite app_length. destruct p; cbn; [by rewrite alter_length|done].
  - split; [lia|done].
  - split; [|done]. destruct Hg; rewrite ?alter_length; lia.
  - split; [lia|done].
Qed.
Lemma pinv_same ow s w v s' : pinv ow (core_of s) → pool_step s w v = Some s' → length (p_tasks s') = length (p_tasks s) → pinv ow (core_of s').
Proof.
  intros I Hst Hl. destruct (pool_step_core _ _ _ _ Hst) as [->|(l & Hc)]; [done|].
  destruct (cstep_label _ _ _ _ Hc) as [E _]. cbn in E. destruct l as [o|]; [cbn in E; lia|]. pose proof (pinv_step _ _ _ _ _ Hc I) as H. cbn in H. by rewrite app_nil_r in H.
Qed.
Lemma pinv_sub ow s v s' x o c p k st : pinv ow (core_of s) → pool_step s 0 v = Some s' → p_workers s = [x] → w_stack x = Frame o (FRun (PSubmit c p k)) :: st →
  length (p_tasks s') = S (length (p_tasks s)) → pinv (ow ++ [o]) (core_of s').
Proof.
  intros I Hst Hws Hx Hl. destruct (pool_step_core _ _ _ _ Hst) as [E|(l & Hc)].
  { exfalso. apply (f_equal (λ c, length (c_tasks c))) in E. cbn in E. lia. }
  destruct (cstep_label _ _ _ _ Hc) as [E Ho]. cbn in E. destruct l as [o'|]; [|cbn in E; lia].
  destruct (Ho o' eq_refl) as (cc & pp & kk & st' & Hs). cbn in Hs. rewrite Hws in Hs. cbn in Hs. rewrite Hx in Hs. injection Hs as -> _.
  exact (pinv_step _ _ _ _ _ Hc I).
Qed.

Lemma oinv_step D ow s x w v s' : oinv D ow s x → pool_step s w v = Some s' → ∃ ow' x', oinv D ow' s' x'.
Proof.
  intros [I Hws Hb Hstk] Hstep. pose proof Hstep as Hstep0. unfold pool_step in Hstep.
  destruct w as [|w]; [|by rewrite Hws in Hstep]. rewrite Hws in Hstep. cbn in Hstep.
  pose proof (p_f _ _ I) as If. pose proof (i_g _ _ If) as G.
  assert (concat (c_qs (core_of s)) = w_queue x) as Eqs by (cbn; rewrite Hws; cbn; by rewrite app_nil_r).
  assert (∀ u, u ∈ w_queue x → u < length ow ∧ u ∉ p_started s) as Hq.
  { intros u Hu. pose proof (g_perm _ G) as Hp. unfold flat_of in Hp. cbn [fl_started fl_q fl_tasks] in Hp. rewrite Eqs in Hp. split.
    - rewrite (i_ow _ _ If). cbn. assert (u ∈ seq 0 (length (c_tasks (core_of s)))) as H by (rewrite <- Hp; set_solver). apply elem_of_seq in H. cbn in H. lia.
    - intros Hs. pose proof (NoDup_seq 0 (length (c_tasks (core_of s)))) as Hn. rewrite <- Hp in Hn. apply NoDup_app in Hn as (_ & Hn & _). by apply (Hn u). }
  destruct (w_stack x) as [|fr st] eqn:Hst.
  { rewrite Hb in Hstep. done. }
  destruct Hstk as [?|[d Hstk]]; [done|]. destruct fr as [o pc]. pose proof (stk_lvl _ _ _ _ _ _ _ Hstk) as Hl. unfold lvl in Hl. cbn in Hl.
  assert (∀ s1, s1 = upd_worker (set_stack st) 0 s → Some s1 = Some s' → ∃ ow' x', oinv D ow' s' x') as Hpop.
  { intros s1 -> [= <-]. exists ow, (set_stack st x). constructor.
    - by eapply pinv_same.
    - cbn. by rewrite Hws.
    - done.
    - cbn. destruct (stk_pop _ _ _ _ _ _ _ Hstk) as [->|[e He]]; [by left|right; by exists e]. }
  assert (∀ ts pc', length ts = length (p_tasks s) → lvl d (Frame o pc') →
    Some (upd_worker (set_stack (Frame o pc' :: st)) 0 (p_set_tasks s ts)) = Some s' → ∃ ow' x', oinv D ow' s' x') as Hgo.
  { intros ts pc' Hts Hl' [= <-]. exists ow, (set_stack (Frame o pc' :: st) x). constructor.
    - by eapply pinv_same.
    - cbn. by rewrite Hws.
    - done.
    - right. exists d. cbn. by eapply stk_top. }
  assert (p_set_tasks s (p_tasks s) = s) as Hid by (by destruct s).
  unfold frame_step in Hstep. cbn [f_pc f_task] in Hstep. destruct pc as [[|c p k|t k|k|a k]|t|t].
  - destruct o as [t|]; [|by eapply Hpop]. refine (Hgo _ _ _ _ Hstep); [by rewrite alter_length|exact Logic.I].
  - inversion Hl as [|d0 ? ? ? Hc Hk| | |]; subst. injection Hstep as <-.
    exists (ow ++ [o]), (set_stack (Frame o (FRun (k (length (p_tasks s)))) :: st) (set_queue (w_queue x ++ [length (p_tasks s)]) x)).
    constructor.
    + eapply pinv_sub; [done|exact Hstep0|done|exact Hst|]. cbn. rewrite app_length. destruct p; cbn; rewrite ?alter_length; lia.
    + cbn. by rewrite Hws.
    + done.
    + right. exists (S d0). cbn. eapply stk_top with (fr := Frame o (FRun (PSubmit c p k))); [|done|apply Hk].
      apply stk_push; [apply stk_grow; [done|intros u Hu; by apply Hq]|].
      intros u ->%elem_of_list_singleton. exists c, d0. split_and!; [|done|lia].
      pose proof (g_len _ G) as E. unfold flat_of in E. cbn in E. rewrite <- E. by rewrite lookup_app_r, Nat.sub_diag by lia.
  - destruct (p_tasks s !! t) as [y|] eqn:Hy; [|done]. cbn in Hstep. case_bool_decide as Hc.
    { rewrite <- Hid in Hstep at 1. refine (Hgo _ _ _ _ Hstep); [done|by inversion Hl]. }
    destruct (wait_queued _ _ _ _ _ _ _ _ I Hws Hst Hy Hc) as (v0 & Hv0 & Hov0).
    destruct (stk_take _ _ _ _ _ _ _ _ Hstk Hv0 Hov0) as (q0 & u & c & e & Eq & Hu & He & Hed & Hstk').
    unfold get_task in Hstep. rewrite Hws in Hstep. cbn in Hstep. rewrite Eq, last_snoc in Hstep. cbn in Hstep.
    unfold wk_execute in Hstep. cbn in Hstep. rewrite Hu in Hstep. cbn in Hstep. rewrite Hws in Hstep. cbn in Hstep. injection Hstep as <-.
    exists ow, (Worker q0 (Frame (Some u) (FRun c) :: w_stack x) (w_base x) (w_active x)). constructor.
    + by eapply pinv_same.
    + cbn. unfold set_stack, set_queue. cbn. unfold pop_back. by rewrite app_length, Nat.add_sub, take_app.
    + done.
    + right. exists e. cbn. rewrite Hst. replace q0 with (q0 ++ []) by apply app_nil_r. eapply stk_cons; [exact Hstk'|done|done| |].
      * intros v1 Hv1 Hov. cbn in Hov. destruct (i_order _ _ If _ _ Hov) as [Hs _]. destruct (Hq u) as [_ Hn]; [rewrite Eq; set_solver|]. by apply Hn.
      * intros z Hz. by apply elem_of_nil in Hz.
  - injection Hstep as <-. exists ow, (set_stack (Frame o (FRun k) :: st) x). constructor.
    + by eapply pinv_same.
    + cbn. by rewrite Hws.
    + done.
    + right. exists d. cbn. eapply stk_top; [done|done|]. cbn. by inversion Hl.
  - rewrite <- Hid in Hstep at 1. refine (Hgo _ _ _ _ Hstep); [done|by inversion Hl].
  - refine (Hgo _ _ _ _ Hstep); [by rewrite alter_length|exact Logic.I].
  - destruct (p_tasks s !! t) as [y|] eqn:Hy; [|done]. cbn in Hstep. case_bool_decide as Hc.
    + destruct (t_parent y); [|by eapply Hpop]. rewrite <- Hid in Hstep at 1. refine (Hgo _ _ _ _ Hstep); [done|exact Logic.I].
    + by eapply Hpop.
Qed.

Lemma one_depth main D s : fork_join [] main → nests D main → pool_reach 1 main s → ∃ x, p_workers s = [x] ∧ length (w_stack x) ≤ S D.
Proof.
  intros Hfj Hn Hr. assert (∃ ow x, oinv D ow s x) as (ow & x & [_ Hws _ Hs]).
  { induction Hr as [|s w v s' _ (ow & x & IH) Hst]; [|by eapply oinv_step].
    exists [], (Worker [] [Frame None (FRun main)] BExit true). constructor; [by apply pinv_start|done|done|]. right. exists D. constructor; [lia|done|].
    intros u Hu. by apply elem_of_nil in Hu. }
  exists x. split; [done|]. destruct Hs as [->|[d Hs]]; [cbn; lia|]. apply stk_length in Hs. lia.
Qed.

(** * Any number of workers: as many calls as there are tasks, and main *)
Lemma all_depth n main s : pool_reach n main s → fork_join [] main → length (concat (w_stack <$> p_workers s)) ≤ S (length (p_tasks s)).
Proof.
  intros Hr Hfj. destruct (reach_pinv n main s Hfj Hr) as [ow I]. pose proof (i_g _ _ (p_f _ _ I)) as G.
  pose proof (g_nodup _ G) as Hn. pose proof (g_started _ G) as Hs. unfold flat_of in Hn, Hs. cbn in Hn, Hs.
  rewrite <- (fmap_length f_task).
  assert ((f_task <$> concat (w_stack <$> p_workers s)) ⊆ None :: (Some <$> seq 0 (length (p_tasks s)))) as Hsub.
  { intros [v|] Hv; [|by left]. right. apply elem_of_list_fmap. exists v. split; [done|]. pose proof (g_perm _ G) as Hp. cbn in Hp. rewrite <- Hp.
    apply elem_of_app. left. by apply Hs. }
  pose proof (submseteq_length _ _ (NoDup_submseteq _ _ Hn Hsub)) as H. cbn in H. by rewrite (fmap_length Some), seq_length in H.
Qed.

(** * More workers: a worker that waits may begin all the tasks of a fork inside one another *)
Definition leaf : code := CAct 0 CDone.
Definition twig : code := CFork [leaf] [] CDone.
Definition bush (n : nat) : code := CFork (replicate n twig) [] CDone.
Definition tree (n : nat) : code := CFork [bush n] [] CDone.

Lemma tree_depth n : code_depth (tree (S n)) = 3.
Proof.
  assert (∀ m, foldr (λ c, Nat.max (code_depth c)) 0 (replicate (S m) twig) = 1) as H.
  { induction m as [|m IH]; [done|]. change (replicate (S (S m)) twig) with (twig :: replicate (S m) twig). cbn [foldr]. by rewrite IH. }
  unfold tree, bush. cbn [code_depth foldr]. rewrite H. done.
Qed.

Definition pC : prog := PAct 0 PDone.
Definition pT : prog := PSubmit pC None (λ t, PWait t PDone).
Lemma comp_twig : comp twig = pT.
Proof. reflexivity. Qed.
Definition pR (n : nat) : prog := comp (bush n).
Lemma comp_tree n : comp (tree n) = PSubmit (pR n) None (λ t, PWait t PDone).
Proof. reflexivity. Qed.
Definition rest (o : option nat) (j : nat) : prog := seq_prog (submit_all o (replicate j pT) wait_parent) PDone.
Lemma comp_bush n : pR n = rest None n.
Proof. unfold pR, bush, rest. cbn [comp]. rewrite fmap_replicate, comp_twig. reflexivity. Qed.

Lemma rest_S o j : rest o (S j) = PSubmit pT o (λ t, rest (Some (default t o)) j).
Proof. reflexivity. Qed.
Arguments rest : simpl never.
Arguments pR : simpl never.
Arguments tree : simpl never.

Section Tree.
Context (n z : nat).
Notation reach := (pool_reach (3 + z) (comp (tree n))).
Notation idle := (Worker [] [] BGet true).

Lemma go s w v s' : reach s → pool_step s w v = Some s' → reach s'.
Proof. intros. by eapply pr_step. Qed.

(** Steps of the model in terms of the parts of the state. *)
Lemma st_submit ts ps ws sm sd w q b c p k st ba a : ws !! w = Some (Worker q (Frame b (FRun (PSubmit c p k)) :: st) ba a) →
  pool_step (TPool ts ps ws sm sd) w None = Some (TPool (count_in p ts ++ [Task p 1 false]) (ps ++ [c])
    (<[w := Worker (q ++ [length ts]) (Frame b (FRun (k (length ts))) :: st) ba a]> ws) (sm + 1) sd).
Proof.
  intros H. unfold pool_step. cbn. rewrite H. cbn. unfold frame_step, upd_worker, wk_submit, wake_worker. cbn. do 2 f_equal.
  apply list_eq. intros i. destruct (decide (i = w)) as [->|].
  - rewrite !list_lookup_alter, H, list_lookup_insert by (by eapply lookup_lt_Some). done.
  - by rewrite !list_lookup_alter_ne, list_lookup_insert_ne by done.
Qed.
Lemma st_steal ts ps ws sm sd w j a u q st ba a' c : ws !! w = Some (Worker [] [] BGet a) → ws !! j = Some (Worker (u :: q) st ba a') → j ≠ w → ps !! u = Some c →
  pool_step (TPool ts ps ws sm sd) w (Some j) = Some (TPool ts ps
    (<[w := Worker [] [Frame (Some u) (FRun c)] BGet a]> (<[j := Worker q st ba a']> ws)) sm (sd ++ [u])).
Proof.
  intros H Hj Hne Hc. unfold pool_step. cbn. rewrite H. cbn. unfold get_task. cbn. rewrite H. cbn. rewrite decide_False by done. rewrite Hj. cbn.
  unfold wk_execute. cbn. rewrite Hc. cbn. do 2 f_equal. apply list_eq. intros i. destruct (decide (i = w)) as [->|Hi].
  - rewrite list_lookup_alter, list_lookup_alter_ne, H, list_lookup_insert; [done| |done]. rewrite insert_length. by eapply lookup_lt_Some.
  - rewrite list_lookup_alter_ne, list_lookup_insert_ne by done. destruct (decide (i = j)) as [->|].
    + rewrite list_lookup_alter, Hj, list_lookup_insert by (by eapply lookup_lt_Some). done.
    + by rewrite list_lookup_alter_ne, list_lookup_insert_ne by done.
Qed.
Lemma st_help ts ps ws sm sd w j a b t k st ba u q st' ba' a' c y : ws !! w = Some (Worker [] (Frame b (FRun (PWait t k)) :: st) ba a) → ts !! t = Some y → t_ctr y ≠ 0%N →
  ws !! j = Some (Worker (u :: q) st' ba' a') → j ≠ w → ps !! u = Some c →
  pool_step (TPool ts ps ws sm sd) w (Some j) = Some (TPool ts ps
    (<[w := Worker [] (Frame (Some u) (FRun c) :: Frame b (FRun (PWait t k)) :: st) ba a]> (<[j := Worker q st' ba' a']> ws)) (sm + 1) (sd ++ [u])).
Proof.
  intros H Ht Hy Hj Hne Hc. unfold pool_step. cbn. rewrite H. cbn. unfold frame_step. cbn. rewrite Ht. cbn. rewrite bool_decide_eq_false_2 by done.
  unfold get_task. cbn. rewrite H. cbn. rewrite decide_False by done. rewrite Hj. cbn.
  unfold wk_execute. cbn. rewrite Hc. cbn. do 2 f_equal. apply list_eq. intros i. destruct (decide (i = w)) as [->|Hi].
  - rewrite list_lookup_alter, list_lookup_alter_ne, H, list_lookup_insert; [done| |done]. rewrite insert_length. by eapply lookup_lt_Some.
  - rewrite list_lookup_alter_ne, list_lookup_insert_ne by done. destruct (decide (i = j)) as [->|].
    + rewrite list_lookup_alter, Hj, list_lookup_insert by (by eapply lookup_lt_Some). done.
    + by rewrite list_lookup_alter_ne, list_lookup_insert_ne by done.
Qed.

Definition main_waits : list frame := [Frame None (FRun (PWait 0 PDone))].
Definition unfinished : task := Task None 1 false.

Lemma tree_fill j : ∀ o i ts ps W0 W1 Z q b sm sd, reach (TPool ts ps (W0 :: W1 :: Worker q [Frame b (FRun (rest o j))] BGet true :: Z) sm sd) →
  length ts = i → 0 < i → o ≠ Some 0 → ts !! 0 = Some unfinished → ∃ ts' st sm' sd', length ts' = i + j ∧ ts' !! 0 = Some unfinished ∧
  reach (TPool ts' (ps ++ replicate j pT) (W0 :: W1 :: Worker (q ++ seq i j) st BGet true :: Z) sm' sd').
Proof.
  induction j as [|j IH]; intros o i ts ps W0 W1 Z q b sm sd H Hi Hpos Ho H0.
  { exists ts. do 3 eexists. rewrite Nat.add_0_r. cbn. rewrite !app_nil_r. split; [done|]. split; [done|]. exact H. }
  rewrite rest_S in H. eapply go in H; [|by apply (st_submit _ _ _ _ _ 2)]. cbn in H.
  apply (IH _ (S i)) in H as (ts' & st & sm' & sd' & Hl & H0' & H).
  - exists ts', st, sm', sd'. split; [lia|]. split; [done|]. rewrite <- !app_assoc in H. subst i. exact H.
  - rewrite app_length. destruct o; cbn; rewrite ?alter_length; lia.
  - lia.
  - destruct o; cbn; [done|]. intros [= ?]. lia.
  - apply lookup_app_l_Some. destruct o as [[|t]|]; cbn; [done| |done]. by rewrite list_lookup_alter_ne.
Qed.

(** [k] of the tasks run inside one another on worker 1, each waiting for a task of its own; main runs the newest of these. *)
Definition nested (k : nat) : Prop := ∃ ts st sm sd t o W2 Z,
  reach (TPool ts (pR n :: replicate n pT ++ replicate k pC)
    (Worker [] (Frame (Some t) (FRun pC) :: main_waits) BExit true :: Worker [] (Frame o (FRun (PWait t PDone)) :: st) BGet true :: Worker (seq (S k) (n - k)) W2 BGet true :: Z) sm sd) ∧
  length ts = 1 + n + k ∧ t = n + k ∧ ts !! t = Some unfinished ∧ ts !! 0 = Some unfinished ∧ S (length st) = k.

(** Worker 1 has begun a task of the fork; main waits. *)
Lemma nested_tail k ts o st W2 Z sm sd : k < n →
  reach (TPool ts (pR n :: replicate n pT ++ replicate k pC)
    (Worker [] main_waits BExit true :: Worker [] (Frame o (FRun pT) :: st) BGet true :: Worker (seq (S (S k)) (n - S k)) W2 BGet true :: Z) sm sd) →
  length ts = 1 + n + k → ts !! 0 = Some unfinished → length st = k → nested (S k).
Proof.
  intros Hk H Hl H0 Hst. eapply go in H; [|by apply (st_submit _ _ _ _ _ 1)]. cbn in H.
  assert ((pR n :: (replicate n pT ++ replicate k pC) ++ [pC]) !! length ts = Some pC) as Hc.
  { apply (list_lookup_middle (pR n :: replicate n pT ++ replicate k pC) []). cbn. rewrite app_length, !replicate_length. lia. }
  assert ((ts ++ [Task None 1 false]) !! 0 = Some unfinished) as H0' by (by apply lookup_app_l_Some).
  eapply go in H; [|eapply (st_help _ _ _ _ _ 0 1); [reflexivity|exact H0'|done|reflexivity|done|exact Hc]]. cbn in H.
  eexists _, st, _, _, (length ts), o, W2, Z. split_and!.
  - rewrite <- app_assoc in H. replace (replicate k pC ++ [pC]) with (replicate (S k) pC) in H; [exact H|]. cbn. by rewrite replicate_cons_app.
  - rewrite app_length. cbn. lia.
  - lia.
  - by rewrite lookup_app_r, Nat.sub_diag by lia.
  - done.
  - lia.
Qed.

Lemma nested_S k : k < n → nested k → nested (S k).
Proof.
  intros Hk (ts & st & sm & sd & t & o & W2 & Z & H & Hl & Et & Ht & H0 & Hst).
  replace (n - k) with (S (n - S k)) in H by lia. cbn [seq] in H.
  eapply go in H; [|eapply (st_help _ _ _ _ _ 1 2); [reflexivity|exact Ht|done|reflexivity|done|]]; [cbn in H|].
  2:{ apply (lookup_app_l_Some (replicate n pT)), lookup_replicate_2. lia. }
  eapply (go _ 0 None) in H; [|reflexivity]. cbn in H.
  eapply (go _ 0 None) in H; [|reflexivity]. cbn in H.
  eapply (go _ 0 None) in H; [|reflexivity]. cbn in H.
  eapply (go _ 0 None) in H; [|cbn; rewrite list_lookup_alter, list_lookup_alter, Ht; cbn; reflexivity]. cbn in H.
  unfold upd_worker, p_set_tasks, set_stack in H. cbn in H.
  eapply nested_tail; [done|exact H|by rewrite !alter_length| |cbn; lia]. by rewrite !list_lookup_alter_ne by lia.
Qed.

Lemma nested_1 : 0 < n → nested 1.
Proof.
  intros Hn. pose proof (pr_init (3 + z) (comp (tree n))) as H. rewrite comp_tree in H at 2. unfold pool_start in H. cbn [Nat.sub Nat.add replicate] in H.
  eapply go in H; [|by apply (st_submit _ _ _ _ _ 0)]. cbn in H.
  eapply go in H; [|by apply (st_steal _ _ _ _ _ 2 0)]. cbn in H. rewrite comp_bush in H at 2.
  apply (tree_fill _ _ 1) in H as (ts & st & sm & sd & Hl & H0 & H); [|done|lia|done|done]. cbn [app] in H.
  destruct n as [|m] eqn:En; [lia|]. rewrite <- En in *. replace (seq 1 n) with (1 :: seq 2 (n - 1)) in H by (rewrite En; cbn; by rewrite Nat.sub_0_r).
  eapply go in H; [|eapply (st_steal _ _ _ _ _ 1 2); [reflexivity|reflexivity|done|]]; [cbn in H|].
  2:{ cbn. rewrite En. reflexivity. }
  eapply (nested_tail 0); [lia|cbn [replicate]; rewrite app_nil_r; exact H|lia|done|done].
Qed.

Lemma nested_all k : 0 < k → k ≤ n → nested k.
Proof. intros H0. induction k as [|k IH]; [lia|]. intros Hk. destruct (decide (k = 0)) as [->|]; [apply nested_1; lia|]. apply nested_S; [lia|]. apply IH; lia. Qed.
End Tree.

Lemma tree_stack w n : 2 < w → 0 < n → ∃ s x, pool_reach w (comp (tree n)) s ∧ p_workers s !! 1 = Some x ∧ length (w_stack x) = n.
Proof.
  intros Hw Hn. replace w with (3 + (w - 3)) by lia. destruct (nested_all n (w - 3) n Hn) as (ts & st & sm & sd & t & o & W2 & Z & H & _ & _ & _ & _ & Hl); [lia|].
  eexists _, _. split; [exact H|]. split; [reflexivity|]. cbn. lia.
Qed.
