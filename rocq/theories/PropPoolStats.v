(** C89: the statistics of workers. *)
From Verif Require Import Base Task ThreadPool ThreadPoolProofs PropThreadPool PoolStats.
Local Open Scope nat_scope.

Definition cnt_inc (i : inc) (l : list inc) : nat := length (filter (λ j, j = i) l).

Lemma begun_app s l w : omap (λ e : nat * option nat, if decide (e.1 = w) then e.2 else None) (sp_log s ++ l) = begun s w ++ omap (λ e, if decide (e.1 = w) then e.2 else None) l.
Proof. apply omap_app. Qed.

(** What get_task takes. *)
Lemma get_task_view s w v x r : p_workers s !! w = Some x → get_task s w v = Some r →
  p_tasks r.2 = p_tasks s ∧ p_progs r.2 = p_progs s ∧ p_started r.2 = p_started s ∧ length (p_workers r.2) = length (p_workers s) ∧
  (∀ i y', p_workers r.2 !! i = Some y' → ∃ y, p_workers s !! i = Some y ∧ w_stack y' = w_stack y ∧ (∀ t, t ∈ w_queue y' → t ∈ w_queue y)) ∧
  match r.1 with
  | None => True
  | Some u => ∃ j y, p_workers s !! j = Some y ∧ u ∈ w_queue y ∧ (j = w ↔ w_queue x ≠ [])
  end.
Proof.
  intros Hx E. unfold get_task in E. rewrite Hx in E. cbn [mbind option_bind] in E.
  assert (∀ j q y, p_workers s !! j = Some y → (∀ t, t ∈ q → t ∈ w_queue y) → let s' := upd_worker (set_queue q) j s in
    p_tasks s' = p_tasks s ∧ p_progs s' = p_progs s ∧ p_started s' = p_started s ∧ length (p_workers s') = length (p_workers s) ∧
    ∀ i y', p_workers s' !! i = Some y' → ∃ y, p_workers s !! i = Some y ∧ w_stack y' = w_stack y ∧ (∀ t, t ∈ w_queue y' → t ∈ w_queue y)) as Hu.
  { intros j q y Hj Hq. cbn [upd_worker p_tasks p_progs p_started p_workers]. split; [done|]. split; [done|]. split; [done|]. split; [apply alter_length|].
    intros i y' Hi. destruct (decide (i = j)) as [->|Hn].
    - rewrite list_lookup_alter, Hj in Hi. cbn in Hi. injection Hi as <-. exists y. done.
    - rewrite list_lookup_alter_ne in Hi by done. exists y'. done. }
  destruct (last (w_queue x)) as [t|] eqn:El.
  - injection E as <-. cbn [fst snd]. apply last_Some in El as [l' El]. destruct (Hu w (pop_back (w_queue x)) x Hx) as (?&?&?&?&?).
    { intros u Hin. rewrite El. rewrite El, pop_back_snoc in Hin. set_solver. }
    split_and!; try done. exists w, x. split; [done|]. split; [rewrite El; set_solver|]. rewrite El. split; [|done]. intros _ Hc. by destruct l'.
  - apply last_None in El. destruct v as [j|].
    2:{ injection E as <-. cbn [fst snd]. split_and!; try done. intros i y' Hi. exists y'. done. }
    destruct (decide (j = w)) as [|Hjw]; [done|]. destruct (p_workers s !! j) as [y|] eqn:Hj; [|done]. cbn [mbind option_bind] in E.
    destruct (w_queue y) as [|t q] eqn:Eq.
    + injection E as <-. cbn [fst snd]. split_and!; try done. intros i y' Hi. exists y'. done.
    + injection E as <-. cbn [fst snd]. destruct (Hu j q y Hj) as (?&?&?&?&?). { intros u Hin. rewrite Eq. by right. }
      split_and!; try done. exists j, y. split; [done|]. rewrite Eq. split; [by left|]. rewrite El. split; [by intros ->|done].
Qed.

(** What a step does to the stacks and queues, and what it has to count. *)
Definition nexec (l : list (nat * option nat)) (w : nat) : nat := length (omap (λ e : nat * option nat, if decide (e.1 = w) then e.2 else None) l).
Record view (s s' : tpool) (w : nat) (pe : list inc) (lg : list (nat * option nat)) : Prop := {
  vw_len : length (p_workers s') = length (p_workers s);
  vw_tasks : length (p_tasks s) ≤ length (p_tasks s');
  vw_started : p_started s' = p_started s ++ omap snd lg;
  vw_stack : ∀ i y', p_workers s' !! i = Some y' → ∃ y, p_workers s !! i = Some y ∧
    (if decide (i = w) then length (on_stack y') + cnt_inc ITask pe = length (on_stack y) + nexec lg w else on_stack y' = on_stack y) ∧
    (∀ t, t ∈ w_queue y' → t ∈ w_queue y ∨ i = w ∧ length (p_tasks s) ≤ t < length (p_tasks s'));
  vw_log : match lg with
    | [] => pe = [] ∨ pe = [ITask]
    | [(i, None)] => i = w ∧ pe = [IIdle]
    | [(i, Some u)] => i = w ∧ ∃ j y, p_workers s !! j = Some y ∧ u ∈ w_queue y ∧ (pe = [] ∧ j = w ∨ pe = [ISteal] ∧ j ≠ w)
    | _ => False
    end }.

Lemma view_keep s s' w n : length (p_tasks s) = length (p_tasks s') → p_started s' = p_started s → length (p_workers s') = length (p_workers s) →
  (∀ i y', p_workers s' !! i = Some y' → ∃ y, p_workers s !! i = Some y ∧ w_queue y' = w_queue y ∧
    if decide (i = w) then length (on_stack y') + n = length (on_stack y) else on_stack y' = on_stack y) →
  n = 0 ∨ n = 1 → view s s' w (replicate n ITask) [].
Proof.
  intros Ht Hs Hl Hw Hn. split; [done|lia|by rewrite app_nil_r| |destruct Hn as [-> | ->]; [by left|by right]].
  assert (cnt_inc ITask (replicate n ITask) = n) as Hc by (by destruct Hn as [-> | ->]).
  intros i y' Hi. destruct (Hw i y' Hi) as (y & Hy & Hq & Hst). exists y. split; [done|]. rewrite Hq. split; [|by left].
  case_decide; [|done]. rewrite Hc. unfold nexec. cbn [omap list_omap length]. lia.
Qed.

(** The innermost frame is replaced by [st']. *)
Lemma view_goto s ts w x st' n : p_workers s !! w = Some x → length ts = length (p_tasks s) → length (omap f_task st') + n = length (on_stack x) → n = 0 ∨ n = 1 →
  view s (upd_worker (set_stack st') w (p_set_tasks s ts)) w (replicate n ITask) [].
Proof.
  intros Hx Ht Hst Hn. apply view_keep; cbn [upd_worker p_set_tasks p_tasks p_started p_workers]; [done|done|apply alter_length| |done].
  intros i y' Hi. destruct (decide (i = w)) as [->|Hd].
  - rewrite list_lookup_alter, Hx in Hi. cbn in Hi. injection Hi as <-. exists x. done.
  - rewrite list_lookup_alter_ne in Hi by done. exists y'. done.
Qed.

(** get_task and, if it gave a task, the begin of its execution. *)
Lemma view_get s w v x r s' s1 (b : base) : p_workers s !! w = Some x → get_task s w v = Some r →
  p_tasks s1 = p_tasks r.2 → p_progs s1 = p_progs r.2 → p_started s1 = p_started r.2 → p_workers s1 = p_workers r.2 →
  match r.1 with Some u => wk_execute s1 w u = Some s' | None => s' = s1 ∨ s' = upd_worker (set_base b) w s1 end →
  ∃ e, get_events s w v x = Some e ∧ view s s' w e.1 e.2.
Proof.
  intros Hx Eg Et Ep Es Ew E. destruct (get_task_view s w v x r Hx Eg) as (H1 & H2 & H3 & H4 & H5 & H6). unfold get_events. rewrite Eg. cbn [mbind option_bind].
  eexists. split; [done|]. destruct (r.1) as [u|].
  - cbn [fst snd]. unfold wk_execute in E. destruct (p_progs s1 !! u) as [c|]; [|done]. cbn [mbind option_bind upd_worker p_tasks p_progs p_workers p_sem p_started] in E. injection E as <-.
    split; cbn [p_tasks p_workers p_started].
    + rewrite alter_length. by rewrite Ew.
    + rewrite Et, H1. done.
    + cbn [omap list_omap snd]. by rewrite Es, H3.
    + intros i y' Hi. rewrite Ew in Hi. destruct (decide (i = w)) as [->|Hd].
      * rewrite list_lookup_alter in Hi. apply fmap_Some in Hi as (y1 & Hy1 & ->). destruct (H5 w y1 Hy1) as (y & Hy & Hst & Hq). exists y. split; [done|].
        unfold on_stack. cbn [set_stack w_stack w_queue omap list_omap f_task length]. rewrite Hst. split; [|intros t Ht; left; by apply Hq].
        unfold nexec. cbn [omap list_omap fst snd]. destruct (decide (w = w)); [|done]. cbn [length].
        assert (cnt_inc ITask (if decide (w_queue x = []) then [ISteal] else []) = 0) as -> by (by destruct (decide (w_queue x = []))). lia.
      * rewrite list_lookup_alter_ne in Hi by done. destruct (H5 i y' Hi) as (y & Hy & Hst & Hq). exists y. split; [done|]. unfold on_stack. rewrite Hst. split; [done|]. intros t Ht. left. by apply Hq.
    + split; [done|]. destruct H6 as (j & y & Hj & Hu & Hjw). exists j, y. split; [done|]. split; [done|]. case_decide as Hq; [right|left]; (split; [done|]); [intros ->; by apply Hjw|by apply Hjw].
  - cbn [fst snd]. assert (p_tasks s' = p_tasks s ∧ p_started s' = p_started s ∧ length (p_workers s') = length (p_workers s) ∧
      ∀ i y', p_workers s' !! i = Some y' → ∃ y1, p_workers r.2 !! i = Some y1 ∧ w_stack y' = w_stack y1 ∧ w_queue y' = w_queue y1) as (G1 & G2 & G3 & G4).
    { destruct E as [-> | ->]; cbn [upd_worker p_tasks p_started p_workers]; rewrite ?alter_length, ?Et, ?Es, ?Ew; (split; [done|]; split; [done|]; split; [done|]).
      - intros i y' Hi. exists y'. done.
      - intros i y' Hi. destruct (decide (i = w)) as [->|Hd]; [|rewrite list_lookup_alter_ne in Hi by done; by exists y'].
        rewrite list_lookup_alter in Hi. apply fmap_Some in Hi as (y1 & Hy1 & ->). by exists y1. }
    split; [done|by rewrite G1| | |].
    + rewrite G2. cbn. by rewrite app_nil_r.
    + intros i y' Hi. destruct (G4 i y' Hi) as (y1 & Hy1 & Ha & Hb). destruct (H5 i y1 Hy1) as (y & Hy & Hst & Hq). exists y. split; [done|]. unfold on_stack. rewrite Ha, Hst. split; [|rewrite Hb; intros t Ht; left; by apply Hq].
      case_decide; [|done]. unfold nexec. cbn [omap list_omap fst snd]. destruct (decide (w = w)); [|done]. change (cnt_inc ITask [IIdle]) with 0. cbn. lia.
    + done.
Qed.

Lemma step_view s w v s' : pool_step s w v = Some s' → ∃ e, st_events s w v = Some e ∧ view s s' w e.1 e.2.
Proof.
  intros E. unfold pool_step in E. unfold st_events. destruct (p_workers s !! w) as [x|] eqn:Hx; [|done]. cbn [mbind option_bind] in *.
  assert (∀ st' n, length (omap f_task st') + n = length (on_stack x) → n = 0 ∨ n = 1 → view s (upd_worker (set_stack st') w s) w (replicate n ITask) []) as Hgo.
  { intros st' n Hst Hn. pose proof (view_goto s (p_tasks s) w x st' n Hx eq_refl Hst Hn) as H. by destruct s. }
  destruct (w_stack x) as [|[o pc] st] eqn:Est.
  - destruct (w_base x) eqn:Eb.
    + destruct (get_task s w v) as [r|] eqn:Eg; [|done]. cbn [mbind option_bind] in E. destruct (r.1) as [u|] eqn:Er.
      * apply (view_get s w v x r s' r.2 BGet Hx Eg); try done. by rewrite Er.
      * injection E as <-. apply (view_get s w v x r _ (sem_wait r.2) BCheck Hx Eg); try done. rewrite Er. by right.
    + injection E as <-. eexists. split; [done|]. cbn [fst snd]. apply (view_keep _ _ w 0); [done|done|apply alter_length| |by left].
      intros i y' Hi. cbn [upd_worker p_workers] in Hi. destruct (decide (i = w)) as [->|Hd].
      * rewrite list_lookup_alter, Hx in Hi. cbn in Hi. injection Hi as <-. exists x. split; [done|]. split; [done|]. cbn. unfold on_stack. cbn. lia.
      * rewrite list_lookup_alter_ne in Hi by done. exists y'. done.
    + done.
  - unfold frame_step in E. cbn [f_pc f_task] in *. assert (on_stack x = omap f_task (Frame o pc :: st)) as Hos by (unfold on_stack; by rewrite Est).
    destruct pc as [p|t|t].
    + destruct p as [|c p k|t k|k|a k].
      * eexists. split; [done|]. cbn [fst snd]. destruct o as [t|]; injection E as <-.
        -- apply (view_goto s _ w x _ 0 Hx); [apply alter_length|rewrite Hos; cbn; lia|by left].
        -- apply (Hgo _ 0); [rewrite Hos; cbn; lia|by left].
      * eexists. split; [done|]. cbn [fst snd]. injection E as <-.
        split; unfold wk_submit, wake_worker; cbn [upd_worker p_tasks p_workers p_started].
        -- by rewrite !alter_length.
        -- rewrite app_length. destruct p; rewrite ?alter_length; lia.
        -- by rewrite app_nil_r.
        -- intros i y' Hi. destruct (decide (i = w)) as [->|Hd].
           ++ rewrite !list_lookup_alter, Hx in Hi. cbn in Hi. injection Hi as <-. exists x. split; [done|]. unfold on_stack. rewrite Est. cbn [set_stack w_stack set_queue w_queue].
              split; [unfold cnt_inc, nexec; destruct o; cbn; lia|]. intros t [Ht|Ht%elem_of_list_singleton]%elem_of_app; [by left|]. right. split; [done|]. rewrite app_length. cbn [length]. subst t. destruct p; rewrite ?alter_length; lia.
           ++ rewrite !list_lookup_alter_ne in Hi by done. exists y'. split; [done|]. split; [done|]. by left.
        -- by left.
      * destruct (p_tasks s !! t) as [y|] eqn:Et; [|done]. cbn [mbind option_bind] in *. case_bool_decide.
        -- eexists. split; [done|]. injection E as <-. cbn [fst snd]. apply (Hgo _ 0); [rewrite Hos; cbn; lia|by left].
        -- destruct (get_task s w v) as [r|] eqn:Eg; [|done]. cbn [mbind option_bind] in E. destruct (r.1) as [u|] eqn:Er.
           ++ apply (view_get s w v x r s' (wake_worker r.2) BGet Hx Eg); try done. by rewrite Er.
           ++ injection E as <-. apply (view_get s w v x r _ (wake_worker r.2) BCheck Hx Eg); try done. rewrite Er. by left.
      * eexists. split; [done|]. cbn [fst snd]. injection E as <-. apply (view_keep _ _ w 0); [done|done| | |by left]; cbn [upd_worker p_workers].
        -- by rewrite alter_length, imap_length.
        -- intros i y' Hi. assert (∀ j z, imap (λ (i : nat) x, if decide (i = 0) then x else set_active false x) (p_workers s) !! j = Some z → ∃ y, p_workers s !! j = Some y ∧ w_queue z = w_queue y ∧ w_stack z = w_stack y) as Him.
           { intros j z Hz. rewrite list_lookup_imap in Hz. apply fmap_Some in Hz as (y & Hy & ->). exists y. split; [done|]. by case_decide. }
           destruct (decide (i = w)) as [->|Hd].
           ++ rewrite list_lookup_alter in Hi. apply fmap_Some in Hi as (z & Hz & ->). destruct (Him w z Hz) as (y & Hy & Hq & Hst). rewrite Hx in Hy. injection Hy as <-. exists x. split; [done|]. split; [done|]. rewrite Hos. unfold on_stack. cbn. destruct o; cbn; lia.
           ++ rewrite list_lookup_alter_ne in Hi by done. destruct (Him i y' Hi) as (y & Hy & Hq & Hst). exists y. split; [done|]. split; [done|]. unfold on_stack. by rewrite Hst.
      * eexists. split; [done|]. injection E as <-. cbn [fst snd]. apply (Hgo _ 0); [rewrite Hos; cbn; lia|by left].
    + eexists. split; [done|]. injection E as <-. cbn [fst snd]. apply (view_goto s _ w x _ 0 Hx); [apply alter_length|rewrite Hos; cbn; destruct o; cbn; lia|by left].
    + destruct (p_tasks s !! t) as [y|] eqn:Et; [|done]. cbn [mbind option_bind] in *.
      destruct (if bool_decide (t_ctr y = 0%N) then t_parent y else None) as [p|].
      * eexists. split; [done|]. injection E as <-. cbn [fst snd]. apply (Hgo _ 0); [rewrite Hos; cbn; destruct o; cbn; lia|by left].
      * injection E as <-. destruct o as [u|]; (eexists; split; [done|]); cbn [fst snd]; [apply (Hgo _ 1)|apply (Hgo _ 0)]; try (rewrite Hos; cbn; lia); auto.
Qed.

Record sinv (s : spool) : Prop := {
  si_stats : length (sp_stats s) = length (p_workers (sp_pool s));
  si_pend : length (sp_pend s) = length (p_workers (sp_pool s));
  si_by : length (sp_by s) = length (p_tasks (sp_pool s));
  si_q : ∀ i y t, p_workers (sp_pool s) !! i = Some y → t ∈ w_queue y → sp_by s !! t = Some i;
  si_log : ∀ e, e ∈ sp_log s → e.1 < length (p_workers (sp_pool s)) ∧ ∀ t, e.2 = Some t → is_Some (sp_by s !! t);
  si_started : omap snd (sp_log s) = p_started (sp_pool s);
  si_cnt : ∀ i y st pe, p_workers (sp_pool s) !! i = Some y → sp_stats s !! i = Some st → sp_pend s !! i = Some pe →
    ws_task st + cnt_inc ITask pe + length (on_stack y) = length (begun s i) ∧
    ws_steal st + cnt_inc ISteal pe = length (stolen s i) ∧
    ws_idle st + cnt_inc IIdle pe = in_vain s i }.

Lemma filter_ext_in {A} (P Q : A → Prop) `{∀ x, Decision (P x), ∀ x, Decision (Q x)} (l : list A) : (∀ x, x ∈ l → P x ↔ Q x) → filter P l = filter Q l.
Proof.
  induction l as [|x l IH]; intros Hl; [done|]. rewrite !filter_cons, IH by (intros y Hy; apply Hl; by right).
  pose proof (Hl x (elem_of_list_here _ _)). repeat case_decide; tauto.
Qed.

Lemma elem_of_begun s i t : t ∈ begun s i → (i, Some t) ∈ sp_log s.
Proof.
  intros ([j o] & He & Ho)%elem_of_list_omap. cbn [fst snd] in Ho. case_decide; [|done]. subst. done.
Qed.

Lemma sinv_start n main : sinv (stat_start n main).
Proof.
  split; unfold stat_start; cbn [sp_pool sp_stats sp_pend sp_log sp_by]; rewrite ?fmap_length; try done.
  - intros i y t Hi Hin. exfalso. unfold pool_start in Hi. cbn [p_workers] in Hi. destruct i as [|i]; [injection Hi as <-; by apply elem_of_nil in Hin|].
    cbn in Hi. apply lookup_replicate in Hi as [-> _]. by apply elem_of_nil in Hin.
  - intros e He. by apply elem_of_nil in He.
  - intros i y st pe Hi Hst Hpe. rewrite list_lookup_fmap, Hi in Hst. rewrite list_lookup_fmap, Hi in Hpe. cbn in Hst, Hpe. injection Hst as <-. injection Hpe as <-.
    unfold begun, stolen, in_vain. cbn [sp_log]. unfold begun. cbn [sp_log]. cbn. split; [|done].
    unfold pool_start in Hi. cbn [p_workers] in Hi. destruct i as [|i]; [injection Hi as <-; done|]. cbn in Hi. apply lookup_replicate in Hi as [-> _]. done.
Qed.

Arguments cnt_inc : simpl never.
Ltac cnts :=
  change (cnt_inc ITask [ITask]) with 1 in *;
  change (cnt_inc ITask [ISteal]) with 0 in *;
  change (cnt_inc ITask [IIdle]) with 0 in *;
  change (cnt_inc ITask []) with 0 in *;
  change (cnt_inc ISteal [ITask]) with 0 in *;
  change (cnt_inc ISteal [ISteal]) with 1 in *;
  change (cnt_inc ISteal [IIdle]) with 0 in *;
  change (cnt_inc ISteal []) with 0 in *;
  change (cnt_inc IIdle [ITask]) with 0 in *;
  change (cnt_inc IIdle [ISteal]) with 0 in *;
  change (cnt_inc IIdle [IIdle]) with 1 in *;
  change (cnt_inc IIdle []) with 0 in *.

Lemma sinv_step s w v s' : sinv s → stat_step s w v = Some s' → sinv s'.
Proof.
  intros I E. unfold stat_step in E. destruct (sp_pend s !! w) as [pe|] eqn:Hpe; [|done]. cbn [mbind option_bind] in E. destruct pe as [|ic pe].
  2:{ injection E as <-. split; cbn [sp_pool sp_stats sp_pend sp_log sp_by].
      - rewrite alter_length. apply I.
      - rewrite insert_length. apply I.
      - apply I.
      - apply I.
      - apply I.
      - apply I.
      - intros i y st pe' Hy Hst Hpe'. unfold begun, stolen, in_vain. cbn [sp_log sp_by]. unfold begun. cbn [sp_log].
        destruct (decide (i = w)) as [->|Hn].
        + rewrite list_lookup_insert in Hpe' by (by eapply lookup_lt_Some). injection Hpe' as <-. rewrite list_lookup_alter in Hst. apply fmap_Some in Hst as (st0 & Hst0 & ->).
          destruct (si_cnt _ I w y st0 _ Hy Hst0 Hpe) as (H1 & H2 & H3). unfold stolen, begun, in_vain in *. unfold cnt_inc in *. rewrite !filter_cons in H1, H2, H3.
          destruct ic; cbn [add_inc ws_task ws_steal ws_idle]; repeat case_decide; try done; cbn [length] in *; lia.
        + rewrite list_lookup_insert_ne in Hpe' by done. rewrite list_lookup_alter_ne in Hst by done. exact (si_cnt _ I i y st pe' Hy Hst Hpe'). }
  destruct (pool_step (sp_pool s) w v) as [p'|] eqn:Ep; [|done]. cbn [mbind option_bind] in E.
  destruct (step_view _ _ _ _ Ep) as ([pe lg] & Ee & V). rewrite Ee in E. cbn [mbind option_bind fst snd] in *. injection E as <-.
  set (by' := sp_by s ++ replicate (length (p_tasks p') - length (p_tasks (sp_pool s))) w).
  assert (∀ t j, sp_by s !! t = Some j → by' !! t = Some j) as Hby by (intros t j Hj; by apply lookup_app_l_Some).
  assert (w < length (p_workers (sp_pool s))) as Hw by (rewrite <-(si_pend _ I); by eapply lookup_lt_Some).
  assert (∀ e, e ∈ lg → e.1 = w ∧ ∀ t, e.2 = Some t → ∃ j y, p_workers (sp_pool s) !! j = Some y ∧ t ∈ w_queue y) as Hlg.
  { intros e He. pose proof (vw_log _ _ _ _ _ V) as Hl. destruct lg as [|[i [u|]] [|? ?]]; try done; [by apply elem_of_nil in He| |]; apply elem_of_list_singleton in He as ->; cbn [fst snd].
    - destruct Hl as (-> & j & y & Hj & Hu & _). split; [done|]. intros t [= <-]. by exists j, y.
    - destruct Hl as [-> _]. done. }
  split; cbn [sp_pool sp_stats sp_pend sp_log sp_by].
  - rewrite (vw_len _ _ _ _ _ V). apply I.
  - rewrite insert_length, (vw_len _ _ _ _ _ V). apply I.
  - unfold by'. rewrite app_length, replicate_length, (si_by _ I). pose proof (vw_tasks _ _ _ _ _ V). lia.
  - intros i y' t Hi Hin. destruct (vw_stack _ _ _ _ _ V i y' Hi) as (y & Hy & _ & Hq). destruct (Hq t Hin) as [Hin'|[-> Ht]].
    + apply Hby. by eapply (si_q _ I).
    + unfold by'. rewrite lookup_app_r by (rewrite (si_by _ I); lia). apply lookup_replicate. split; [done|]. rewrite (si_by _ I). lia.
  - intros e [He|He]%elem_of_app.
    + destruct (si_log _ I e He) as [H1 H2]. rewrite (vw_len _ _ _ _ _ V). split; [done|]. intros t Ht. destruct (H2 t Ht) as [j Hj]. exists j. by apply Hby.
    + destruct (Hlg e He) as [-> H2]. rewrite (vw_len _ _ _ _ _ V). split; [done|]. intros t Ht. destruct (H2 t Ht) as (j & y & Hj & Hin). exists j. apply Hby. by eapply (si_q _ I).
  - rewrite omap_app, (vw_started _ _ _ _ _ V), (si_started _ I). done.
  - intros i y' st pe' Hy' Hst Hpe'. destruct (vw_stack _ _ _ _ _ V i y' Hy') as (y & Hy & Hs & _).
    assert (∃ pe0, sp_pend s !! i = Some pe0) as [pe0 Hpe0]. { apply lookup_lt_is_Some. rewrite (si_pend _ I). by eapply lookup_lt_Some. }
    destruct (si_cnt _ I i y st pe0 Hy Hst Hpe0) as (H1 & H2 & H3).
    set (s2 := SPool p' (sp_stats s) (<[w:=pe]> (sp_pend s)) (sp_log s ++ lg) by').
    assert (begun s2 i = begun s i ++ omap (λ e : nat * option nat, if decide (e.1 = i) then e.2 else None) lg) as Hb by (apply begun_app).
    assert (stolen s2 i = stolen s i ++ filter (λ t, by' !! t ≠ Some i) (omap (λ e : nat * option nat, if decide (e.1 = i) then e.2 else None) lg)) as Hst2.
    { unfold stolen at 1. rewrite Hb, filter_app. f_equal. unfold stolen. apply filter_ext_in. intros t Ht%elem_of_begun. destruct (si_log _ I _ Ht) as [_ Hx]. destruct (Hx t eq_refl) as [j Hj]. cbn [sp_by s2]. by rewrite Hj, (Hby _ _ Hj). }
    assert (in_vain s2 i = in_vain s i + length (filter (λ e, e = (i, None)) lg)) as Hv by (unfold in_vain; cbn [sp_log s2]; by rewrite filter_app, app_length).
    rewrite Hb, Hst2, Hv, !app_length. destruct (decide (i = w)) as [->|Hn].
    + rewrite list_lookup_insert in Hpe' by (rewrite (si_pend _ I); done). injection Hpe' as <-. rewrite Hpe in Hpe0. injection Hpe0 as <-.
      unfold nexec in Hs. change (cnt_inc ITask []) with 0 in H1. change (cnt_inc ISteal []) with 0 in H2. change (cnt_inc IIdle []) with 0 in H3.
      pose proof (vw_log _ _ _ _ _ V) as Hl. destruct lg as [|[i [u|]] [|? ?]]; try done.
      * destruct Hl as [-> | ->]; cnts; cbn in Hs |- *; lia.
      * destruct Hl as (-> & j & z & Hj & Hu & Hcase). cbn [omap list_omap fst snd] in Hs |- *. destruct (decide (w = w)); [|done]. rewrite !filter_cons, !filter_nil. 
        rewrite (decide_False (P := (w, Some u) = (w, None))) by done. pose proof (Hby _ _ (si_q _ I j z u Hj Hu)) as Hbu.
        destruct Hcase as [[-> ->] | [-> Hne]].
        -- rewrite decide_False by (rewrite Hbu; tauto). cnts. cbn in Hs |- *. lia.
        -- rewrite decide_True by (rewrite Hbu; congruence). cnts. cbn in Hs |- *. lia.
      * destruct Hl as [-> ->]. cbn [omap list_omap fst snd] in Hs |- *. destruct (decide (w = w)); [|done]. rewrite !filter_cons, !filter_nil. rewrite decide_True by done.
        cnts. cbn in Hs |- *. lia.
    + rewrite list_lookup_insert_ne in Hpe' by done. rewrite Hpe0 in Hpe'. injection Hpe' as <-. rewrite Hs.
      assert (omap (λ e : nat * option nat, if decide (e.1 = i) then e.2 else None) lg = []) as ->.
      { apply elem_of_nil_inv. intros t (e & He & Hte)%elem_of_list_omap. destruct (Hlg e He) as [Hew _]. rewrite decide_False in Hte by congruence. done. }
      assert (filter (λ e, e = (i, None)) lg = []) as ->. { apply elem_of_nil_inv. intros e [-> He]%elem_of_list_filter. destruct (Hlg _ He) as [Hew _]. done. }
      rewrite filter_nil. cbn [length]. lia.
Qed.

Lemma sinv_reach n main s : stat_reach n main s → sinv s.
Proof. induction 1; [apply sinv_start|by eapply sinv_step]. Qed.

Lemma stat_pool n main s : stat_reach n main s → pool_reach n main (sp_pool s).
Proof.
  induction 1 as [|s w v s' _ IH E]; [constructor|]. unfold stat_step in E. destruct (sp_pend s !! w) as [[|i pe]|]; cbn [mbind option_bind] in E; [| |done].
  - destruct (pool_step (sp_pool s) w v) as [p'|] eqn:Ep; [|done]. cbn [mbind option_bind] in E. destruct (st_events (sp_pool s) w v); [|done]. cbn [mbind option_bind] in E. injection E as <-. by econstructor.
  - injection E as <-. done.
Qed.

(** Each counter of a worker is at most what it counts, and is that number when the worker is in no task. *)
Theorem C89_worker_partial n main s w st : stat_reach n main s → sp_stats s !! w = Some st →
  ws_task st ≤ length (begun s w) ∧ ws_steal st ≤ length (stolen s w) ∧ ws_idle st ≤ in_vain s w ∧
  (at_rest s w → ws_task st = length (begun s w) ∧ ws_steal st = length (stolen s w) ∧ ws_idle st = in_vain s w).
Proof.
  intros I%sinv_reach Hst.
  assert (w < length (p_workers (sp_pool s))) as Hw by (rewrite <-(si_stats _ I); by eapply lookup_lt_Some).
  destruct (lookup_lt_is_Some_2 _ _ Hw) as [x Hx]. rewrite <-(si_pend _ I) in Hw. destruct (lookup_lt_is_Some_2 _ _ Hw) as [pe Hpe].
  destruct (si_cnt _ I w x st pe Hx Hst Hpe) as (H1 & H2 & H3). split; [lia|]. split; [lia|]. split; [lia|].
  intros [(x' & Hx' & Ho) Hp]. rewrite Hx in Hx'. injection Hx' as <-. rewrite Hpe in Hp. injection Hp as ->. rewrite Ho in H1. cnts. cbn [length] in H1. lia.
Qed.

(** Every execution is one of one worker. *)
Lemma begun_sum (l : list (nat * option nat)) n : (∀ e, e ∈ l → e.1 < n) →
  sum_list ((λ w, length (omap (λ e : nat * option nat, if decide (e.1 = w) then e.2 else None) l)) <$> seq 0 n) = length (omap snd l).
Proof.
  induction l as [|[i o] l IH]; intros Hl.
  - cbn [omap list_omap length]. clear. assert (∀ k m, sum_list ((λ _ : nat, 0) <$> seq k m) = 0) as H; [|apply H]. intros k m. revert k. induction m as [|m IH]; intros k; [done|]. apply (IH (S k)).
  - specialize (IH (λ e He, Hl e (elem_of_list_further _ _ _ He))). pose proof (Hl _ (elem_of_list_here _ _)) as Hi. cbn [fst] in Hi.
    assert (∀ k m, sum_list ((λ w, length (omap (λ e : nat * option nat, if decide (e.1 = w) then e.2 else None) ((i, o) :: l))) <$> seq k m) =
      sum_list ((λ w, length (omap (λ e : nat * option nat, if decide (e.1 = w) then e.2 else None) l)) <$> seq k m) + (if decide (k ≤ i < k + m) then length (option_list o) else 0)) as Hg.
    { intros k m. revert k. induction m as [|m IHm]; intros k; [cbn; case_decide; [lia|done]|]. cbn [seq fmap list_fmap sum_list]. rewrite IHm. cbn [omap list_omap fst snd].
      destruct (decide (i = k)) as [->|Hn].
      - rewrite (decide_False (P := S k ≤ k < S k + m)) by lia. rewrite (decide_True (P := k ≤ k < k + S m)) by lia. destruct o; cbn; lia.
      - assert (decide (S k ≤ i < S k + m) = decide (S k ≤ i < S k + m)) as _ by done. destruct (decide (S k ≤ i < S k + m)), (decide (k ≤ i < k + S m)); try lia. }
    rewrite Hg, IH. rewrite decide_True by lia. cbn [omap list_omap snd]. destruct o; cbn; lia.
Qed.

Lemma sum_fmap_lookup {A} (f : nat → nat) (g : A → nat) (l : list A) : (∀ i x, l !! i = Some x → g x = f i) → sum_list (g <$> l) = sum_list (f <$> seq 0 (length l)).
Proof.
  intros H. f_equal. apply list_eq. intros i. rewrite !list_lookup_fmap. destruct (l !! i) as [x|] eqn:E.
  - rewrite lookup_seq_lt by (by eapply lookup_lt_Some). cbn. by rewrite (H i x E).
  - rewrite lookup_seq_ge by (by apply lookup_ge_None). done.
Qed.

(** When no worker is in a task, the task counts sum up to the number of tasks submitted that are not in the queues. *)
Theorem C89_total_partial n main s : stat_reach n main s → (∀ w, w < length (sp_stats s) → at_rest s w) →
  sum_list (ws_task <$> sp_stats s) + length (queued (sp_pool s)) = length (p_tasks (sp_pool s)).
Proof.
  intros Hr Hall. pose proof (sinv_reach _ _ _ Hr) as I. pose proof (C54_each_task_once n main _ (stat_pool _ _ _ Hr)) as Hp.
  apply Permutation_length in Hp. rewrite app_length, seq_length in Hp. rewrite <-Hp. f_equal.
  rewrite (sum_fmap_lookup (λ w, length (begun s w))).
  - rewrite <-(si_started _ I). rewrite (si_stats _ I). unfold begun. apply begun_sum. intros e He. by apply (si_log _ I).
  - intros i st Hst. apply (C89_worker_partial n main s i st Hr Hst). apply Hall. by eapply lookup_lt_Some.
Qed.

(** wait returned, and the task is not counted by any worker. *)
Definition main89 : prog := PSubmit PDone None (λ t, PWait t PDone).
Fixpoint srun (s : spool) (l : list (nat * option nat)) : option spool :=
  match l with [] => Some s | (w, v) :: l => s' ← stat_step s w v; srun s' l end.
Lemma srun_reach n main l : ∀ s s', stat_reach n main s → srun s l = Some s' → stat_reach n main s'.
Proof.
  induction l as [|[w v] l IH]; intros s s' Hr E; cbn [srun] in E; [by simplify_eq|].
  destruct (stat_step s w v) as [s1|] eqn:Es; [|done]. cbn [mbind option_bind] in E. apply (IH s1); [by econstructor|done].
Qed.
Definition run89 : list (nat * option nat) := [(0, None); (1, Some 0); (1, None); (1, None); (1, None); (1, None); (0, None); (0, None)].
Theorem C89_wait_refuted : ∃ s, stat_reach 2 main89 s ∧ (w_stack <$> p_workers (sp_pool s)) = [[]; []] ∧
  (t_done <$> p_tasks (sp_pool s)) = [true] ∧ begun s 1 = [0] ∧ ws_task <$> sp_stats s = [0; 0].
Proof.
  destruct (srun (stat_start 2 main89) run89) as [s|] eqn:E; [|by vm_compute in E]. exists s. split; [eapply srun_reach; [constructor|exact E]|].
  assert (((λ s, (w_stack <$> p_workers (sp_pool s), t_done <$> p_tasks (sp_pool s), begun s 1, ws_task <$> sp_stats s)) <$> srun (stat_start 2 main89) run89) = Some ([[]; []], [true], [0], [0; 0])) as H by by vm_compute.
  rewrite E in H. clear E. cbn [fmap option_fmap option_map] in H. injection H as H1 H2 H3 H4. split; [exact H1|]. split; [exact H2|]. split; [exact H3|exact H4].
Qed.

(** One step later it is counted: a state with all workers at rest, a task executed by the worker that stole it, one search in vain. *)
Example ex_C89 : ((λ s, (sp_stats s, sp_pend s, begun s 1, stolen s 1, in_vain s 1)) <$> srun (stat_start 2 main89) (run89 ++ [(1, None); (1, None); (1, None)])) =
  Some ([WStat 0 0 0; WStat 1 1 1], [[]; []], [0], [0], 1).
Proof. by vm_compute. Qed.

Print Assumptions C89_worker_partial.
Print Assumptions C89_total_partial.
Print Assumptions C89_wait_refuted.
