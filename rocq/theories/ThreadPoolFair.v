(** Lemmas about executions in which every worker gets its turn again and again. *)
From Verif Require Import Base Task ThreadPool ThreadPoolProofs ThreadPoolRun.
Local Open Scope nat_scope.

(** An execution: [σ i] is the pool after [i] turns, [sch i] is the worker whose turn it is then, with its choice of a
    victim.  A worker that has no step in any case (it has left its loop, or the main program is over) lets its turn pass. *)
Definition execution (σ : nat → tpool) (sch : nat → nat * option nat) : Prop :=
  ∀ i, pool_step (σ i) (sch i).1 (sch i).2 = Some (σ (S i)) ∨
       ((∀ v, pool_step (σ i) (sch i).1 v = None) ∧ σ (S i) = σ i).
(** No thread is kept from running for ever; nothing is said about the order of the turns or the victims. *)
Definition fair (n : nat) (sch : nat → nat * option nat) : Prop := ∀ w, w < n → ∀ i, ∃ j, i ≤ j ∧ (sch j).1 = w.

(** The program gets to the stop loop of the destructor. *)
Fixpoint stops (p : prog) : Prop :=
  match p with
  | PDone => False
  | PSubmit _ _ k => ∀ n, stops (k n)
  | PWait _ k => stops k
  | PStop _ => True
  | PAct _ k => stops k
  end.

(** * What a step changes of the workers *)

Definition wrel (w i : nat) (x x' : worker) : Prop :=
  (w_active x' = true → w_active x = true) ∧ (i ≠ w → w_stack x' = w_stack x ∧ w_base x' = w_base x).
Definition wsrel (w : nat) (ws ws' : list worker) : Prop :=
  length ws' = length ws ∧ ∀ (i : nat) x x', ws !! i = Some x → ws' !! i = Some x' → wrel w i x x'.

Lemma wsrel_refl w ws : wsrel w ws ws.
Proof. split; [done|]. intros i x x' H1 H2. rewrite H1 in H2. injection H2 as <-. by split. Qed.
Lemma wsrel_trans w ws1 ws2 ws3 : wsrel w ws1 ws2 → wsrel w ws2 ws3 → wsrel w ws1 ws3.
Proof.
  intros [L1 H1] [L2 H2]. split; [congruence|]. intros i x x' Hx Hx'.
  destruct (lookup_lt_is_Some_2 ws2 i) as [y Hy]; [rewrite L1; by eapply lookup_lt_Some|].
  destruct (H1 i x y Hx Hy) as [A1 B1], (H2 i y x' Hy Hx') as [A2 B2]. split; [tauto|]. intros Hi.
  destruct (B1 Hi), (B2 Hi). split; congruence.
Qed.
Lemma wsrel_alter w f j ws : (∀ x, w_active (f x) = true → w_active x = true) →
  (j ≠ w → ∀ x, w_stack (f x) = w_stack x ∧ w_base (f x) = w_base x) → wsrel w ws (alter f j ws).
Proof.
  intros Ha Hs. split; [apply alter_length|]. intros i x x' Hx Hx'. destruct (decide (i = j)) as [->|Hij].
  - rewrite list_lookup_alter, Hx in Hx'. injection Hx' as <-. split; [apply Ha|]. intros Hj. by apply Hs.
  - rewrite list_lookup_alter_ne, Hx in Hx' by done. injection Hx' as <-. by split.
Qed.
Lemma wsrel_stop w ws : wsrel w ws (imap (λ i x, if decide (i = 0) then x else set_active false x) ws).
Proof.
  split; [apply imap_length|]. intros i x x' Hx Hx'. rewrite list_lookup_imap, Hx in Hx'. cbn in Hx'. injection Hx' as <-.
  by case_decide.
Qed.
Lemma get_task_wsrel s w v r : get_task s w v = Some r → wsrel w (p_workers s) (p_workers r.2).
Proof.
  unfold get_task. destruct (p_workers s !! w) as [x|]; [|done]. cbn.
  destruct (last (w_queue x)) as [t|]; [intros [= <-]; by apply wsrel_alter|].
  destruct v as [j|]; [|intros [= <-]; apply wsrel_refl]. case_decide; [done|].
  destruct (p_workers s !! j) as [y|]; [|done]. cbn. destruct (w_queue y); intros [= <-]; [apply wsrel_refl|by apply wsrel_alter].
Qed.
Lemma execute_wsrel s w t s' : wk_execute s w t = Some s' → wsrel w (p_workers s) (p_workers s').
Proof. unfold wk_execute. destruct (p_progs s !! t) as [c|]; [|done]. cbn. intros [= <-]. by apply wsrel_alter. Qed.

Lemma step_wsrel s w v s' : pool_step s w v = Some s' → wsrel w (p_workers s) (p_workers s').
Proof.
  intros Hst. unfold pool_step in Hst. destruct (p_workers s !! w) as [x|] eqn:Hx; [|done]. cbn in Hst.
  destruct (w_stack x) as [|[o pc] st] eqn:Hs.
  - destruct (w_base x) eqn:Hb; [| |done].
    + destruct (get_task s w v) as [[r s1]|] eqn:Hr; [|done]. apply get_task_wsrel in Hr. cbn in Hst, Hr. destruct r as [u|].
      * apply execute_wsrel in Hst. by eapply wsrel_trans.
      * injection Hst as <-. eapply wsrel_trans; [exact Hr|]. by apply wsrel_alter.
    + injection Hst as <-. by apply wsrel_alter.
  - unfold frame_step in Hst. cbn in Hst. destruct pc as [[|c p k|t k|k|a k]|t|t].
    + destruct o; injection Hst as <-; by apply wsrel_alter.
    + injection Hst as <-. eapply wsrel_trans; [|by apply wsrel_alter]. by apply wsrel_alter.
    + destruct (p_tasks s !! t) as [y|]; [|done]. cbn in Hst. case_bool_decide.
      * injection Hst as <-. by apply wsrel_alter.
      * destruct (get_task s w v) as [[r s1]|] eqn:Hr; [|done]. apply get_task_wsrel in Hr. cbn in Hst, Hr. destruct r as [u|].
        -- apply execute_wsrel in Hst. by eapply wsrel_trans.
        -- by injection Hst as <-.
    + injection Hst as <-. eapply wsrel_trans; [|by apply wsrel_alter]. apply wsrel_stop.
    + injection Hst as <-. by apply wsrel_alter.
    + injection Hst as <-. by apply wsrel_alter.
    + destruct (p_tasks s !! t) as [y|]; [|done]. cbn in Hst. destruct (if bool_decide (t_ctr y = 0%N) then t_parent y else None).
      * injection Hst as <-. by apply wsrel_alter.
      * injection Hst as <-. by apply wsrel_alter.
Qed.

(** * After the stop loop no background worker is active *)

Definition stopped (s : tpool) : Prop := ∀ (w : nat) x, p_workers s !! w = Some x → w ≠ 0 → w_active x = false.
Definition stopping (st : list frame) : Prop := ∃ q, Frame None (FRun q) ∈ st ∧ stops q.

Lemma stopped_wsrel w s s' : wsrel w (p_workers s) (p_workers s') → stopped s → stopped s'.
Proof.
  intros [L H] Hs i x' Hx' Hi. destruct (lookup_lt_is_Some_2 (p_workers s) i) as [x Hx]; [rewrite <-L; by eapply lookup_lt_Some|].
  destruct (H i x x' Hx Hx') as [Ha _]. pose proof (Hs i x Hx Hi) as Hf. destruct (w_active x'); [|done]. rewrite Ha in Hf; done.
Qed.

Lemma get_task_stack s w v r i : get_task s w v = Some r → w_stack <$> p_workers r.2 !! i = w_stack <$> p_workers s !! i.
Proof.
  assert (∀ q j, w_stack <$> p_workers (upd_worker (set_queue q) j s) !! i = w_stack <$> p_workers s !! i) as Hq.
  { intros q j. cbn. destruct (decide (i = j)) as [->|?]; [|by rewrite list_lookup_alter_ne]. rewrite list_lookup_alter. by destruct (p_workers s !! j). }
  unfold get_task. destruct (p_workers s !! w) as [x|]; [|done]. cbn.
  destruct (last (w_queue x)) as [t|]; [intros [= <-]; apply Hq|].
  destruct v as [j|]; [|by intros [= <-]]. case_decide; [done|].
  destruct (p_workers s !! j) as [y|]; [|done]. cbn. destruct (w_queue y); intros [= <-]; [done|apply Hq].
Qed.
Lemma execute_stack s w t s' x : wk_execute s w t = Some s' → w_stack <$> p_workers s !! w = Some x →
  ∃ fr, w_stack <$> p_workers s' !! w = Some (fr :: x).
Proof.
  unfold wk_execute. destruct (p_progs s !! t) as [c|]; [|done]. cbn. intros [= <-] Hx. cbn. rewrite list_lookup_alter.
  destruct (p_workers s !! w) as [y|]; [|done]. injection Hx as <-. by eexists.
Qed.

(** The call of the main program stays on the stack until it has gone through the stop loop. *)
Lemma step_stopping s w v s' x : pool_step s w v = Some s' → p_workers s !! w = Some x → stopping (w_stack x) →
  (∃ st', w_stack <$> p_workers s' !! w = Some st' ∧ stopping st') ∨ stopped s'.
Proof.
  intros Hst Hx Hg. unfold pool_step in Hst. rewrite Hx in Hst. cbn in Hst.
  destruct (w_stack x) as [|[o pc] st] eqn:Hs; [by destruct Hg as (q & ?%elem_of_nil & _)|].
  assert (stopping st ∨ (o = None ∧ ∃ q, pc = FRun q ∧ stops q)) as Hg'.
  { destruct Hg as (q & [E|Hin]%elem_of_cons & Hq); [|by left; exists q]. injection E as <- <-. right. split; [done|]. by exists q. }
  assert (∀ fr l, stopping l → stopping (fr :: l)) as Hcons.
  { intros fr l (q & Hin & Hq). exists q. split; [by right|done]. }
  assert (∀ (ts : list worker) pc', is_Some (ts !! w) → (∀ q, o = None → pc = FRun q → stops q → ∃ q', pc' = FRun q' ∧ stops q') →
    ∃ st', w_stack <$> alter (set_stack (Frame o pc' :: st)) w ts !! w = Some st' ∧ stopping st') as Hgo.
  { intros ts pc' [y Ey] H. exists (Frame o pc' :: st). rewrite list_lookup_alter, Ey. split; [done|].
    destruct Hg' as [?|(-> & q & -> & Hq)]; [by apply Hcons|]. destruct (H q eq_refl eq_refl Hq) as (q' & -> & Hq').
    exists q'. split; [left|done]. }
  unfold frame_step in Hst. cbn in Hst. destruct pc as [[|c p k|t k|k|a k]|t|t].
  - destruct o as [u|].
    + injection Hst as <-. left. cbn. by apply Hgo.
    + injection Hst as <-. left. exists st. cbn. rewrite list_lookup_alter, Hx. split; [done|].
      destruct Hg' as [?|(_ & q & [= <-] & [])]. done.
  - injection Hst as <-. left. cbn. apply Hgo; [rewrite list_lookup_alter, Hx; by eexists|].
    intros q _ [= <-] Hq. eexists. split; [done|]. apply Hq.
  - destruct (p_tasks s !! t) as [y|]; [|done]. cbn in Hst. case_bool_decide.
    + injection Hst as <-. left. cbn. apply Hgo; [by eexists|]. intros q _ [= <-] Hq. by eexists.
    + destruct (get_task s w v) as [[r s1]|] eqn:Hr; [|done]. apply (get_task_stack _ _ _ _ w) in Hr. cbn in Hst, Hr. left.
      rewrite Hx in Hr. cbn in Hr. rewrite Hs in Hr. destruct r as [u|].
      * destruct (execute_stack _ _ _ _ _ Hst Hr) as [fr Hfr]. eexists. split; [exact Hfr|]. by apply Hcons.
      * injection Hst as <-. cbn. by eexists.
  - destruct Hg' as [Hg'|(-> & _)].
    + injection Hst as <-. left. cbn. eexists. split; [by rewrite list_lookup_alter, list_lookup_imap, Hx|]. by apply Hcons.
    + right. injection Hst as <-. intros i z Hz Hi. cbn in Hz.
      assert (∀ z, imap (λ i x, if decide (i = 0) then x else set_active false x) (p_workers s) !! i = Some z → w_active z = false) as Hf.
      { intros z0 Hz0. rewrite list_lookup_imap in Hz0. apply fmap_Some in Hz0 as (z1 & _ & ->). by rewrite decide_False. }
      destruct (decide (i = w)) as [->|Hiw].
      * rewrite list_lookup_alter in Hz. apply fmap_Some in Hz as (z1 & Hz1 & ->). exact (Hf z1 Hz1).
      * rewrite list_lookup_alter_ne in Hz by done. exact (Hf z Hz).
  - injection Hst as <-. left. cbn. apply Hgo; [by eexists|]. intros q _ [= <-] Hq. by eexists.
  - injection Hst as <-. left. cbn. by apply Hgo.
  - destruct (p_tasks s !! t) as [y|]; [|done]. cbn in Hst. left.
    destruct (if bool_decide (t_ctr y = 0%N) then t_parent y else None).
    + injection Hst as <-. cbn. by apply Hgo.
    + injection Hst as <-. cbn. rewrite list_lookup_alter, Hx. eexists. split; [done|]. by destruct Hg' as [?|(_ & q & ? & _)].
Qed.

Lemma reach_stopping n main s : stops main → pool_reach n main s →
  (∃ (w : nat) st, w_stack <$> p_workers s !! w = Some st ∧ stopping st) ∨ stopped s.
Proof.
  intros Hm. induction 1 as [|s w v s' _ IH Hst].
  { left. exists 0, [Frame None (FRun main)]. split; [done|]. exists main. split; [left|done]. }
  pose proof (step_wsrel _ _ _ _ Hst) as [L Hrel]. destruct IH as [(i & st & Hi & Hg)|Hs]; [|right; by eapply stopped_wsrel].
  apply fmap_Some in Hi as (x & Hx & ->). destruct (decide (i = w)) as [->|Hiw].
  - destruct (step_stopping _ _ _ _ _ Hst Hx Hg) as [(st' & ? & ?)|?]; [|by right]. left. by exists w, st'.
  - left. destruct (lookup_lt_is_Some_2 (p_workers s') i) as [x' Hx']; [rewrite L; by eapply lookup_lt_Some|].
    exists i, (w_stack x). destruct (Hrel i x x' Hx Hx') as [_ He]. destruct (He Hiw) as [E _]. split; [by rewrite Hx', <-E|done].
Qed.

(** * Executions *)

Section Execution.
  Context (n : nat) (main : prog) (σ : nat → tpool) (sch : nat → nat * option nat).
  Context (Hfj : fork_join [] main) (Hn : 1 ≤ n) (H0 : σ 0 = pool_start n main) (Hex : execution σ sch) (Hfair : fair n sch).

  Lemma exec_reach i : pool_reach n main (σ i).
  Proof.
    induction i as [|i IH]; [rewrite H0; constructor|]. destruct (Hex i) as [Hst|[_ ->]]; [by econstructor|done].
  Qed.
  Lemma exec_length i : length (p_workers (σ i)) = n.
  Proof.
    induction i as [|i IH]; [rewrite H0; cbn; rewrite replicate_length; lia|].
    destruct (Hex i) as [Hst|[_ ->]]; [|done]. destruct (step_wsrel _ _ _ _ Hst) as [L _]. congruence.
  Qed.
  Lemma main_scoped : scoped 0 main.
  Proof. by eapply fork_join_scoped; [|exact Hfj]; intros u ?%elem_of_nil. Qed.
  Notation items_at i := (items (flat_of (core_of (σ i)))).

  Lemma exec_items i : core_of (σ (S i)) = core_of (σ i) ∨ mlt item_lt (items_at (S i)) (items_at i).
  Proof.
    destruct (Hex i) as [Hst|[_ ->]]; [|by left].
    by destruct (step_items _ _ _ _ Hst (reach_sinv n main _ main_scoped (exec_reach i))) as [_ ?].
  Qed.

  (** A turn of a worker whose step changes the stacks comes, unless they change before. *)
  Lemma exec_turn w d : ∀ i, (sch (i + d)).1 = w →
    (∀ s, core_of s = core_of (σ i) → ∀ v, ∃ s', pool_step s w v = Some s' ∧ w_stack <$> p_workers s' ≠ w_stack <$> p_workers s) →
    ∃ k, i < k ∧ mlt item_lt (items_at k) (items_at i).
  Proof.
    induction d as [|d IH]; intros i Hw Hgo.
    - rewrite Nat.add_0_r in Hw. exists (S i). split; [lia|]. destruct (exec_items i) as [E|]; [|done]. exfalso.
      destruct (Hgo (σ i) eq_refl (sch i).2) as (s' & Hs' & Hne). destruct (Hex i) as [Hst|[Hno _]]; rewrite Hw in *.
      + rewrite Hst in Hs'. injection Hs' as <-. apply (f_equal c_ss) in E. by cbn in E.
      + by rewrite Hno in Hs'.
    - destruct (exec_items i) as [E|?]; [|exists (S i); split; [lia|done]].
      destruct (IH (S i)) as (k & Hk & Hlt); [by replace (S i + d) with (i + S d) by lia|intros s Hs; apply Hgo; congruence|].
      exists k. split; [lia|]. by rewrite E in Hlt.
  Qed.

  (** Again and again all calls have returned. *)
  Lemma exec_calls_end i : ∃ j, i ≤ j ∧ concat (w_stack <$> p_workers (σ j)) = [].
  Proof.
    remember (items_at i) as l eqn:El. revert i El. induction (mlt_wf item_lt item_acc l) as [l _ IH]. intros i ->.
    destruct (concat (w_stack <$> p_workers (σ i))) as [|fr r] eqn:Ec; [by exists i|].
    destruct (reach_pinv n main (σ i) Hfj (exec_reach i)) as [ow I].
    destruct (must_go_on ow _ I) as (w & Hw & Hgo); [cbn; by rewrite Ec|]. cbn in Hw. rewrite fmap_length, exec_length in Hw.
    destruct (Hfair w Hw i) as (j & Hj & Hsch). destruct (exec_turn w (j - i) i) as (k & Hk & Hlt); [by replace (i + (j - i)) with j by lia|done|].
    destruct (IH _ Hlt k eq_refl) as (m & Hm & He). exists m. split; [lia|done].
  Qed.

  (** What only a worker's own steps change. *)
  Lemma exec_keep w x d : ∀ i, p_workers (σ i) !! w = Some x →
    (∃ k x', i ≤ k ∧ p_workers (σ k) !! w = Some x' ∧ w_stack x' = w_stack x ∧ w_base x' = w_base x ∧ (sch k).1 = w) ∨
    (∃ x', p_workers (σ (i + d)) !! w = Some x' ∧ w_stack x' = w_stack x ∧ w_base x' = w_base x).
  Proof.
    revert x. induction d as [|d IH]; intros x i Hx; [right; exists x; by rewrite Nat.add_0_r|].
    destruct (decide ((sch i).1 = w)) as [Hw|Hw]; [by left; exists i, x|].
    assert (∃ x1, p_workers (σ (S i)) !! w = Some x1 ∧ w_stack x1 = w_stack x ∧ w_base x1 = w_base x) as (x1 & Hx1 & Es & Eb).
    { destruct (Hex i) as [Hst|[_ ->]]; [|by exists x]. destruct (step_wsrel _ _ _ _ Hst) as [L Hrel].
      destruct (lookup_lt_is_Some_2 (p_workers (σ (S i))) w) as [x1 Hx1]; [rewrite L; by eapply lookup_lt_Some|].
      exists x1. split; [done|]. apply (Hrel w x x1 Hx Hx1). done. }
    destruct (IH x1 (S i) Hx1) as [(k & x' & Hk & Hx' & ? & ? & ?)|(x' & Hx' & ? & ?)].
    - left. exists k, x'. split_and!; [lia|done|congruence|congruence|done].
    - right. exists x'. replace (i + S d) with (S i + d) by lia. split_and!; [done|congruence|congruence].
  Qed.
  Lemma exec_next w x i : w < n → p_workers (σ i) !! w = Some x →
    ∃ k x', i ≤ k ∧ p_workers (σ k) !! w = Some x' ∧ w_stack x' = w_stack x ∧ w_base x' = w_base x ∧ (sch k).1 = w.
  Proof.
    intros Hw Hx. destruct (Hfair w Hw i) as (j & Hj & Hs). destruct (exec_keep w x (j - i) i Hx) as [?|(x' & Hx' & ? & ?)]; [done|].
    exists j, x'. replace (i + (j - i)) with j in Hx' by lia. done.
  Qed.

  Lemma exec_items_le i k : i ≤ k → items_at k = items_at i ∨ tc (λ a b, mlt item_lt b a) (items_at i) (items_at k).
  Proof.
    intros Hik. induction Hik as [|k _ IH]; [by left|]. destruct (exec_items k) as [E|Hlt]; [by rewrite E|]. right.
    destruct IH as [<-|Htc]; [by apply tc_once|]. by eapply tc_r; [|exact Hlt].
  Qed.
  Lemma items_wf l : Acc (λ a b, tc (λ a b, mlt item_lt b a) b a) l.
  Proof.
    induction (mlt_wf item_lt item_acc l) as [l _ IH]. constructor. intros l' Hl'. inversion Hl' as [? ? H1|? l1 ? H1 H2]; subst.
    - by apply IH.
    - specialize (IH _ H1). destruct IH as [IH]. by apply IH.
  Qed.

  (** A worker that has left its loop stays out of it. *)
  Definition left_loop (w j : nat) : Prop := ∃ x, p_workers (σ j) !! w = Some x ∧ w_stack x = [] ∧ w_base x = BExit.
  Lemma exec_left w j : left_loop w j → ∀ k, j ≤ k → left_loop w k.
  Proof.
    intros Hl k Hk. induction Hk as [|k _ IH]; [done|]. destruct IH as (x & Hx & Hs & Hb).
    destruct (Hex k) as [Hst|[_ E]]; [|unfold left_loop; rewrite E; by exists x]. destruct (step_wsrel _ _ _ _ Hst) as [L Hrel].
    destruct (lookup_lt_is_Some_2 (p_workers (σ (S k))) w) as [x1 Hx1]; [rewrite L; by eapply lookup_lt_Some|].
    destruct (Hrel w x x1 Hx Hx1) as [_ He]. destruct (decide (w = (sch k).1)) as [->|Hw].
    - exfalso. unfold pool_step in Hst. rewrite Hx in Hst. cbn in Hst. by rewrite Hs, Hb in Hst.
    - destruct (He Hw) as [E1 E2]. exists x1. split_and!; [done|congruence|congruence].
  Qed.

  (** A stopped background worker leaves its loop. *)
  Lemma exec_leaves w i : 1 ≤ w < n → stopped (σ i) → ∃ j, i ≤ j ∧ left_loop w j.
  Proof.
    intros Hw Hstop.
    assert (∀ k, i ≤ k → stopped (σ k)) as Hst.
    { intros k Hk. induction Hk as [|k _ IH]; [done|]. destruct (Hex k) as [H|[_ ->]]; [|done]. eapply stopped_wsrel; [by eapply step_wsrel|done]. }
    clear Hstop. remember (items_at i) as l eqn:El. revert i Hst El. induction (items_wf l) as [l _ IH]. intros i Hst ->.
    destruct (exec_calls_end i) as (i1 & Hi1 & He).
    assert (∀ i2 x, i1 ≤ i2 → p_workers (σ i2) !! w = Some x → w_stack x = [] → w_base x ≠ BGet → ∃ j, i ≤ j ∧ left_loop w j) as Hcheck.
    { intros i2 x Hi2 Hx Hs Hb. destruct (w_base x) eqn:Eb; [done| |exists i2; split; [lia|by exists x]].
      destruct (exec_next w x i2) as (k & x' & Hk & Hx' & Es & Eb' & Hsch); [lia|done|]. exists (S k). split; [lia|].
      destruct (Hex k) as [H|[H _]]; rewrite Hsch in H; unfold pool_step in H; rewrite Hx' in H; cbn in H; rewrite Es, Hs, Eb', Eb in H;
        [|by specialize (H None)].
      injection H as H. exists (set_base (if w_active x' then BGet else BExit) x'). rewrite <-H. cbn. rewrite list_lookup_alter, Hx'.
      split; [done|]. cbn. rewrite (Hst k ltac:(lia) w x' Hx' ltac:(lia)). split; [congruence|done]. }
    destruct (lookup_lt_is_Some_2 (p_workers (σ i1)) w) as [x Hx]; [rewrite exec_length; lia|].
    assert (w_stack x = []) as Hs.
    { destruct (w_stack x) as [|fr st] eqn:E; [done|]. assert (fr ∈ concat (w_stack <$> p_workers (σ i1))) as Hin.
      { apply elem_of_concat. exists w, (fr :: st). rewrite list_lookup_fmap, Hx. cbn. rewrite E. split; [done|left]. }
      rewrite He in Hin. by apply elem_of_nil in Hin. }
    destruct (exec_next w x i1) as (k & x' & Hk & Hx' & Es & Eb' & Hsch); [lia|done|]. rewrite Hs in Es.
    assert (w_base x' = BGet ∨ w_base x' ≠ BGet) as [Eb|Hne]; [destruct (w_base x'); [by left|by right|by right]| |by apply (Hcheck k x' ltac:(lia) Hx' Es Hne)].
    destruct (Hex k) as [H|[H _]]; rewrite Hsch in H; unfold pool_step in H; rewrite Hx' in H; cbn in H; rewrite Es, Eb in H; cycle 1.
    { exfalso. specialize (H None). unfold get_task in H. rewrite Hx' in H. cbn in H.
      destruct (last (w_queue x')) as [t|] eqn:El; cbn in H; [|done]. unfold wk_execute in H. cbn in H.
      pose proof (reach_ginv n main _ (exec_reach k)) as G.
      destruct (lookup_lt_is_Some_2 (p_progs (σ k)) t) as [c Hc]; [|by rewrite Hc in H].
      pose proof (g_len _ G) as Hl. cbn in Hl. rewrite Hl. apply (ginv_q_lt _ t G). cbn. apply elem_of_concat.
      exists w, (w_queue x'). rewrite list_lookup_fmap, Hx'. split; [done|]. apply last_Some in El as (q & ->). apply elem_of_app. right. left. }
    destruct (get_task (σ k) w (sch k).2) as [[[u|] s1]|] eqn:Hg; [| |done]; cbn in H.
    - assert (mlt item_lt (items_at (S k)) (items_at k)) as Hlt.
      { destruct (exec_items k) as [E|?]; [|done]. exfalso. apply (get_task_stack _ _ _ _ w) in Hg. cbn in Hg. rewrite Hx' in Hg. cbn in Hg.
        destruct (execute_stack _ _ _ _ _ H Hg) as [fr Hfr]. apply (f_equal (λ c, c_ss c !! w)) in E. cbn in E.
        rewrite !list_lookup_fmap, Hx', Hfr in E. cbn in E. injection E as E. symmetry in E. by apply cons_not_self in E. }
      assert (tc (λ a b, mlt item_lt b a) (items_at i) (items_at (S k))) as Htc.
      { destruct (exec_items_le i k ltac:(lia)) as [<-|?]; [by apply tc_once|]. by eapply tc_r. }
      destruct (IH _ Htc (S k)) as (j & Hj & Hl); [intros k' Hk'; apply Hst; lia|done|]. exists j. split; [lia|done].
    - injection H as H. pose proof (get_task_stack _ _ _ _ w Hg) as Hg'. cbn in Hg'. rewrite Hx' in Hg'. cbn in Hg'.
      apply fmap_Some in Hg' as (y & Hy & Ey). eapply (Hcheck (S k) (set_base BCheck y)); [lia| | |done].
      + rewrite <-H. cbn. by rewrite list_lookup_alter, Hy.
      + cbn. congruence.
  Qed.

  Lemma exec_joins : stops main → ∃ i, ∀ j w, i ≤ j → 1 ≤ w < n → left_loop w j.
  Proof.
    intros Hm. destruct (exec_calls_end 0) as (i & _ & He).
    assert (stopped (σ i)) as Hs.
    { destruct (reach_stopping n main _ Hm (exec_reach i)) as [(w & st & Hw & q & Hq & _)|?]; [|done]. exfalso.
      assert (Frame None (FRun q) ∈ concat (w_stack <$> p_workers (σ i))) as Hin.
      { apply elem_of_concat. exists w, st. by rewrite list_lookup_fmap. }
      rewrite He in Hin. by apply elem_of_nil in Hin. }
    assert (∀ m, ∃ i, ∀ j w, i ≤ j → 1 ≤ w < n → w < m → left_loop w j) as Hall.
    { induction m as [|m (i1 & IH)]; [exists 0; intros; lia|]. destruct (decide (1 ≤ m < n)) as [Hm'|Hm'].
      - destruct (exec_leaves m i Hm' Hs) as (i2 & _ & Hl). exists (i1 + i2). intros j w Hj Hw Hwm. destruct (decide (w = m)) as [->|].
        + apply (exec_left m i2 Hl). lia.
        + apply IH; lia.
      - exists i1. intros j w Hj Hw Hwm. apply IH; lia. }
    destruct (Hall n) as (i1 & H). exists i1. intros j w Hj Hw. apply H; lia.
  Qed.
End Execution.

(** * Tasks that nobody waits for *)

(** thread_pool.hpp:155-159: a background worker whose own queue is empty tries to steal from the main worker; it fails
    only if that queue is empty, or if another thread was faster: something happened since the worker's last turn. *)
Definition tries_main (σ : nat → tpool) (sch : nat → nat * option nat) : Prop :=
  ∀ i x y, (sch i).1 ≠ 0 → p_workers (σ i) !! (sch i).1 = Some x → w_stack x = [] → w_base x = BGet → w_queue x = [] →
    p_workers (σ i) !! 0 = Some y → w_queue y ≠ [] →
    (sch i).2 = Some 0 ∨
    ∃ k, k < i ∧ (∀ m, k ≤ m < i → (sch m).1 ≠ (sch i).1) ∧ core_of (σ (S k)) ≠ core_of (σ k).

Section Running.
  Context (n : nat) (main : prog) (σ : nat → tpool) (sch : nat → nat * option nat).
  Context (Hfj : fork_join [] main) (Hns : no_stop main) (Hn : 2 ≤ n) (H0 : σ 0 = pool_start n main) (Hex : execution σ sch)
    (Hfair : fair n sch) (Htry : tries_main σ sch).
  Notation items_at i := (items (flat_of (core_of (σ i)))).
  Definition gets_on (i : nat) : Prop := ∃ k, i < k ∧ mlt item_lt (items_at k) (items_at i).

  Lemma gets_on_later i k : i ≤ k → core_of (σ k) = core_of (σ i) → gets_on k → gets_on i.
  Proof. intros Hk E (m & Hm & Hlt). exists m. split; [lia|]. by rewrite E in Hlt. Qed.

  Let Hn1 : 1 ≤ n. Proof. lia. Qed.

  (** Until the next turn of [w] nothing happens, or something is done. *)
  Lemma run_next w x i : w < n → p_workers (σ i) !! w = Some x →
    gets_on i ∨ ∃ k x', i ≤ k ∧ (sch k).1 = w ∧ p_workers (σ k) !! w = Some x' ∧ w_base x' = w_base x ∧
      (∀ m, i ≤ m ≤ k → core_of (σ m) = core_of (σ i)) ∧ (∀ m, i ≤ m < k → (sch m).1 ≠ w).
  Proof.
    intros Hw Hx. destruct (Hfair w Hw i) as (j & Hj & Hs). remember (j - i) as d eqn:Ed. revert i x Hx Hj Ed.
    induction d as [|d IH]; intros i x Hx Hj Ed.
    - assert (j = i) as -> by lia. right. exists i, x. split_and!; [done|done|done|done| |intros; lia].
      intros m Hm. by assert (m = i) as -> by lia.
    - destruct (decide ((sch i).1 = w)) as [Hiw|Hiw].
      { right. exists i, x. split_and!; [done|done|done|done| |intros; lia]. intros m Hm. by assert (m = i) as -> by lia. }
      destruct (exec_items n main σ sch Hfj H0 Hex i) as [E|Hlt]; [|left; exists (S i); split; [lia|done]].
      assert (∃ x1, p_workers (σ (S i)) !! w = Some x1 ∧ w_base x1 = w_base x) as (x1 & Hx1 & Eb).
      { destruct (Hex i) as [Hst|[_ ->]]; [|by exists x]. destruct (step_wsrel _ _ _ _ Hst) as [L Hrel].
        destruct (lookup_lt_is_Some_2 (p_workers (σ (S i))) w) as [x1 Hx1]; [rewrite L; by eapply lookup_lt_Some|].
        exists x1. split; [done|]. by apply (Hrel w x x1 Hx Hx1). }
      destruct (IH (S i) x1 Hx1) as [Hg|(k & x' & Hk & Hsk & Hx' & Eb' & Hcore & Hno)]; [lia|lia| |].
      + left. apply (gets_on_later i (S i)); [lia|done|done].
      + right. exists k, x'. split_and!; [lia|done|done|congruence| |].
        * intros m Hm. destruct (decide (m = i)) as [->|]; [done|]. rewrite <-E. apply Hcore. lia.
        * intros m Hm. destruct (decide (m = i)) as [->|]; [done|]. apply Hno. lia.
  Qed.

  Lemma run_wok w x i : 1 ≤ w → p_workers (σ i) !! w = Some x → wok x.
  Proof.
    intros Hw Hx. pose proof (reach_ninv n main _ Hns (exec_reach n main σ sch H0 Hex i)) as N. apply (n_good _ _ N w x Hx). lia.
  Qed.
  Lemma run_stack w x i : concat (w_stack <$> p_workers (σ i)) = [] → p_workers (σ i) !! w = Some x → w_stack x = [].
  Proof.
    intros He Hx. destruct (w_stack x) as [|fr st] eqn:E; [done|]. assert (fr ∈ concat (w_stack <$> p_workers (σ i))) as Hin.
    { apply elem_of_concat. exists w, (fr :: st). rewrite list_lookup_fmap, Hx. cbn. rewrite E. split; [done|left]. }
    rewrite He in Hin. by apply elem_of_nil in Hin.
  Qed.
  Lemma run_execute w u s1 k : wk_execute s1 w u = Some (σ (S k)) → w_stack <$> p_workers s1 !! w = w_stack <$> p_workers (σ k) !! w →
    is_Some (p_workers (σ k) !! w) → gets_on k.
  Proof.
    intros H Hg [x Hx]. destruct (exec_items n main σ sch Hfj H0 Hex k) as [E|?]; [|exists (S k); split; [lia|done]]. exfalso.
    rewrite Hx in Hg. cbn in Hg. destruct (execute_stack _ _ _ _ _ H Hg) as [fr Hfr]. apply (f_equal (λ c, c_ss c !! w)) in E. cbn in E.
    rewrite !list_lookup_fmap, Hx, Hfr in E. cbn in E. injection E as E. symmetry in E. by apply cons_not_self in E.
  Qed.

  (** A turn of a background worker without calls. *)
  Lemma run_turn w x k : 1 ≤ w < n → (sch k).1 = w → concat (w_stack <$> p_workers (σ k)) = [] → p_workers (σ k) !! w = Some x →
    gets_on k ∨ (core_of (σ (S k)) = core_of (σ k) ∧ ∃ x', p_workers (σ (S k)) !! w = Some x' ∧
      match w_base x with
      | BGet => w_base x' = BCheck ∧ ∃ s1, get_task (σ k) w (sch k).2 = Some (None, s1)
      | _ => w_base x' = BGet
      end).
  Proof.
    intros Hw Hsch He Hx. pose proof (run_stack w x k He Hx) as Hs. destruct (run_wok w x k ltac:(lia) Hx) as [Ha Hb].
    destruct (Hex k) as [H|[H _]]; rewrite Hsch in H; unfold pool_step in H; rewrite Hx in H; cbn in H; rewrite Hs in H; cycle 1.
    { exfalso. specialize (H None). destruct (w_base x); [|done|done]. unfold get_task in H. rewrite Hx in H. cbn in H.
      destruct (last (w_queue x)) as [t|] eqn:El; cbn in H; [|done]. unfold wk_execute in H. cbn in H.
      pose proof (reach_ginv n main _ (exec_reach n main σ sch H0 Hex k)) as G.
      destruct (lookup_lt_is_Some_2 (p_progs (σ k)) t) as [c Hc]; [|by rewrite Hc in H].
      pose proof (g_len _ G) as Hl. cbn in Hl. rewrite Hl. apply (ginv_q_lt _ t G). cbn. apply elem_of_concat.
      exists w, (w_queue x). rewrite list_lookup_fmap, Hx. split; [done|]. apply last_Some in El as (q & ->). apply elem_of_app. right. left. }
    destruct (w_base x) eqn:Eb; [| |done].
    - destruct (get_task (σ k) w (sch k).2) as [[[u|] s1]|] eqn:Hg; [| |done]; cbn in H.
      + left. eapply run_execute; [exact H| |by eexists]. by apply (get_task_stack _ _ _ _ w) in Hg.
      + destruct (exec_items n main σ sch Hfj H0 Hex k) as [E|?]; [|left; exists (S k); split; [lia|done]]. right. split; [done|].
        injection H as H. pose proof (get_task_stack _ _ _ _ w Hg) as Hg'. cbn in Hg'. rewrite Hx in Hg'. cbn in Hg'.
        apply fmap_Some in Hg' as (y & Hy & Ey). exists (set_base BCheck y). split; [rewrite <-H; cbn; by rewrite list_lookup_alter, Hy|].
        split; [done|]. by exists s1.
    - destruct (exec_items n main σ sch Hfj H0 Hex k) as [E|?]; [|left; exists (S k); split; [lia|done]]. right. split; [done|].
      injection H as H. exists (set_base (if w_active x then BGet else BExit) x). rewrite <-H. cbn. rewrite list_lookup_alter, Hx.
      split; [done|]. by rewrite Ha.
  Qed.

  Lemma core_stacks i k : core_of (σ k) = core_of (σ i) → concat (w_stack <$> p_workers (σ i)) = [] → concat (w_stack <$> p_workers (σ k)) = [].
  Proof. intros E. apply (f_equal c_ss) in E. cbn in E. by rewrite E. Qed.
  Lemma core_queue i k w : core_of (σ k) = core_of (σ i) → w_queue <$> p_workers (σ k) !! w = w_queue <$> p_workers (σ i) !! w.
  Proof. intros E. apply (f_equal (λ c, c_qs c !! w)) in E. cbn in E. by rewrite !list_lookup_fmap in E. Qed.

  (** A background worker gets a task if its own queue or the main worker's holds one. *)
  Lemma run_takes w i x y : 1 ≤ w < n → concat (w_stack <$> p_workers (σ i)) = [] → p_workers (σ i) !! w = Some x →
    p_workers (σ i) !! 0 = Some y → w_queue x ≠ [] ∨ w_queue y ≠ [] → gets_on i.
  Proof.
    intros Hw He Hx Hy Hq.
    (* the third turn *)
    assert (∀ k0 k x1, i ≤ k0 → k0 < k → core_of (σ k) = core_of (σ i) → p_workers (σ k) !! w = Some x1 → w_base x1 = BGet →
      S k0 = k → (sch k0).1 = w → gets_on i) as Hthird.
    { intros k0 k x1 Hk0 _ Ec Hx1 Eb <- Hs0. apply (gets_on_later i (S k0)); [lia|done|].
      destruct (run_next w x1 (S k0) ltac:(lia) Hx1) as [?|(k & x2 & Hk & Hsk & Hx2 & Eb2 & Hc & Hno)]; [done|].
      assert (core_of (σ k) = core_of (σ (S k0))) as Ek by (apply Hc; lia). apply (gets_on_later (S k0) k); [lia|done|].
      assert (concat (w_stack <$> p_workers (σ k)) = []) as Hek by (apply (core_stacks i k); congruence).
      destruct (run_turn w x2 k Hw Hsk Hek Hx2) as [?|(_ & x3 & _ & Hr)]; [done|]. rewrite Eb2, Eb in Hr. destruct Hr as (_ & s1 & Hg). exfalso.
      pose proof (core_queue i k w ltac:(congruence)) as Q1. rewrite Hx, Hx2 in Q1. cbn in Q1. injection Q1 as Q1.
      pose proof (core_queue i k 0 ltac:(congruence)) as Q2. rewrite Hy in Q2. cbn in Q2. apply fmap_Some in Q2 as (y2 & Hy2 & Q2).
      unfold get_task in Hg. rewrite Hx2 in Hg. cbn in Hg. destruct (last (w_queue x2)) as [t|] eqn:El; [done|]. apply last_None in El.
      destruct Hq as [Hq|Hq]; [congruence|]. destruct (Htry k x2 y2) as [E|(k' & Hk' & Hno' & Hne)].
      - rewrite Hsk. lia.
      - by rewrite Hsk.
      - by eapply run_stack.
      - congruence.
      - done.
      - done.
      - congruence.
      - rewrite E in Hg. case_decide; [lia|]. rewrite Hy2 in Hg. cbn in Hg. rewrite <-Q2 in Hg. by destruct (w_queue y).
      - rewrite Hsk in Hno'. destruct (decide (k' ≤ k0)) as [Hle|Hgt].
        + apply (Hno' k0); [lia|done].
        + apply Hne. rewrite (Hc (S k')), (Hc k') by lia. done. }
    assert (∀ k x1, i ≤ k → core_of (σ k) = core_of (σ i) → p_workers (σ k) !! w = Some x1 → w_base x1 = BCheck → gets_on i) as Hsecond.
    { intros k x1 Hk Ec Hx1 Eb.
      destruct (run_next w x1 k ltac:(lia) Hx1) as [?|(k1 & x2 & Hk1 & Hsk & Hx2 & Eb2 & Hc & Hno)]; [by apply (gets_on_later i k)|].
      assert (core_of (σ k1) = core_of (σ i)) as Ek by (rewrite <-Ec; apply Hc; lia).
      destruct (run_turn w x2 k1 Hw Hsk) as [?|(E & x3 & Hx3 & Hr)]; [by apply (core_stacks i k1)|done|apply (gets_on_later i k1); [lia|done|done]|].
      rewrite Eb2, Eb in Hr. apply (Hthird k1 (S k1) x3); [lia|lia|congruence|done|done|done|done]. }
    destruct (run_next w x i ltac:(lia) Hx) as [?|(k1 & x2 & Hk1 & Hsk & Hx2 & Eb2 & Hc & Hno)]; [done|].
    assert (core_of (σ k1) = core_of (σ i)) as Ek by (apply Hc; lia).
    destruct (run_turn w x2 k1 Hw Hsk) as [?|(E & x3 & Hx3 & Hr)]; [by apply (core_stacks i k1)|done|apply (gets_on_later i k1); [lia|done|done]|].
    destruct (w_base x2) eqn:Eb.
    - destruct Hr as [Hr _]. apply (Hsecond (S k1) x3); [lia|congruence|done|done].
    - apply (Hthird k1 (S k1) x3); [lia|lia|congruence|done|done|done|done].
    - destruct (run_wok w x2 k1 ltac:(lia) Hx2) as [_ Hb]. congruence.
  Qed.

  (** Every task is taken and every call returns. *)
  Lemma run_all i : ∃ j, i ≤ j ∧ concat (w_stack <$> p_workers (σ j)) = [] ∧ concat (w_queue <$> p_workers (σ j)) = [].
  Proof.
    remember (items_at i) as l eqn:El. revert i El. induction (items_wf l) as [l _ IH]. intros i ->.
    destruct (exec_calls_end n main σ sch Hfj Hn1 H0 Hex Hfair i) as (j & Hj & He).
    destruct (concat (w_queue <$> p_workers (σ j))) as [|u q] eqn:Eq; [by exists j|].
    assert (u ∈ concat (w_queue <$> p_workers (σ j))) as Hu by (rewrite Eq; left).
    apply elem_of_concat in Hu as (v & qv & Hv & Hu). rewrite list_lookup_fmap in Hv. apply fmap_Some in Hv as (xv & Hxv & ->).
    pose proof (exec_length n main σ sch Hn1 H0 Hex j) as Hlen.
    assert (gets_on j) as (k & Hk & Hlt).
    { destruct (lookup_lt_is_Some_2 (p_workers (σ j)) 0) as [y Hy]; [lia|]. destruct (decide (v = 0)) as [->|Hv].
      - destruct (lookup_lt_is_Some_2 (p_workers (σ j)) 1) as [x Hx]; [lia|]. rewrite Hy in Hxv. injection Hxv as ->.
        apply (run_takes 1 j x xv); [lia|done|done|done|]. right. intros E. rewrite E in Hu. by apply elem_of_nil in Hu.
      - apply (run_takes v j xv y); [|done|done|done|].
        + split; [lia|]. rewrite <-Hlen. by eapply lookup_lt_Some.
        + left. intros E. rewrite E in Hu. by apply elem_of_nil in Hu. }
    assert (tc (λ a b, mlt item_lt b a) (items_at i) (items_at k)) as Htc.
    { destruct (exec_items_le n main σ sch Hfj H0 Hex i j Hj) as [<-|?]; [by apply tc_once|]. by eapply tc_r. }
    destruct (IH _ Htc k eq_refl) as (m & Hm & ?). exists m. split; [lia|done].
  Qed.

  (** Then nothing happens any more. *)
  Lemma exec_rest i : concat (w_stack <$> p_workers (σ i)) = [] → concat (w_queue <$> p_workers (σ i)) = [] →
    ∀ j, i ≤ j → core_of (σ j) = core_of (σ i).
  Proof.
    intros Hs Hq j Hj. induction Hj as [|j Hj IH]; [done|]. destruct (Hex j) as [Hst|[_ ->]]; [|done].
    apply pool_step_core in Hst as [->|[l Hc]]; [done|]. exfalso. rewrite IH in Hc.
    assert (∀ fr st, (w_stack <$> p_workers (σ i)) !! (sch j).1 ≠ Some (fr :: st)) as Hst.
    { intros fr st E. assert (fr ∈ concat (w_stack <$> p_workers (σ i))) as Hin by (apply elem_of_concat; eexists _, _; split; [exact E|left]).
      rewrite Hs in Hin. by apply elem_of_nil in Hin. }
    unfold core_of in Hc at 1. inversion Hc; subst; try (by eapply Hst).
    assert (u ∈ concat (w_queue <$> p_workers (σ i))) as Hin.
    { apply elem_of_concat. eexists _, _. split; [eassumption|]. apply elem_of_app. right. left. }
    rewrite Hq in Hin. by apply elem_of_nil in Hin.
  Qed.
End Running.
