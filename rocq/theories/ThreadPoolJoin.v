(** Code that waits for everything it submits leaves no task behind. *)
From Verif Require Import Base Task ThreadPool ThreadPoolProofs ThreadPoolRun.
Local Open Scope nat_scope.

(** Every task the function submits is waited for, or is a child of a task waited for after its submission; [P] are the
    tasks still to be waited for. *)
Fixpoint joined (P : list nat) (p : prog) : Prop :=
  match p with
  | PDone => P = []
  | PSubmit c None k => joined [] c ∧ ∀ n, joined (n :: P) (k n)
  | PSubmit c (Some q) k => joined [] c ∧ ∀ n, joined (q :: P) (k n)
  | PWait t k => joined (filter (λ u, u ≠ t) P) k
  | PStop k => joined P k
  | PAct _ k => joined P k
  end.

(** [u] is an unfinished task of [o] with root [r]. *)
Definition open_task (ow : list (option nat)) (ts : list task) (o : option nat) (u r : nat) : Prop :=
  ∃ z, ts !! u = Some z ∧ ow !! u = Some o ∧ t_done z = false ∧ default u (t_parent z) = r.

Record jinv (ow : list (option nat)) (x : flat) : Prop := {
  j_run : ∀ o p, Frame o (FRun p) ∈ fl_f x → ∃ P, joined P p ∧ ∀ u r, open_task ow (fl_tasks x) o u r → r ∈ P;
  j_progs : Forall (joined []) (fl_progs x);
  j_open : ∀ u o r, open_task ow (fl_tasks x) o u r → ∃ p, Frame o (FRun p) ∈ fl_f x }.

Lemma jinv_gen ow ts ps st q f ts' st' q' f' : jinv ow (Flat ts ps st q f) →
  (∀ o u r, open_task ow ts' o u r → open_task ow ts o u r) →
  (∀ o p, Frame o (FRun p) ∈ f' → Frame o (FRun p) ∈ f ∨ ∃ P, joined P p ∧ ∀ u r, open_task ow ts' o u r → r ∈ P) →
  (∀ o p, Frame o (FRun p) ∈ f → (∃ p', Frame o (FRun p') ∈ f') ∨ ∀ u r, ¬ open_task ow ts' o u r) →
  jinv ow (Flat ts' ps st' q' f').
Proof.
  intros [Hr Hp Ho] Ht Hf Hf'. split; cbn in *; [|done|].
  - intros o p Hin. destruct (Hf o p Hin) as [H|H]; [|done]. destruct (Hr o p H) as (P & HP & Hop).
    exists P. split; [done|]. intros u r Hu. by eapply Hop, Ht.
  - intros u o r Hu. destruct (Ho u o r (Ht _ _ _ Hu)) as [p Hpf]. destruct (Hf' o p Hpf) as [H|H]; [done|]. by apply H in Hu.
Qed.

Lemma open_alter ow g i ts o u r : (∀ z, t_parent (g z) = t_parent z) → (∀ z, t_done (g z) = false → t_done z = false) →
  open_task ow (alter g i ts) o u r → open_task ow ts o u r.
Proof.
  intros Hp Hd (z & Hz & Hw & Hdz & Hr). destruct (decide (u = i)) as [->|Hne].
  - rewrite list_lookup_alter in Hz. destruct (ts !! i) as [z0|] eqn:E; [|done]. injection Hz as <-.
    exists z0. rewrite Hp in Hr. split_and!; [done|done|by apply Hd|done].
  - rewrite list_lookup_alter_ne in Hz by done. by exists z.
Qed.

(** A function that waits goes on only when nothing is left to do for the task. *)
Definition waits_end (x : flat) : Prop := ∀ o t k y, Frame o (FRun (PWait t k)) ∈ fl_f x → fl_tasks x !! t = Some y →
  t_parent y = None → t_ctr y = 0%N → ∀ v z, fl_tasks x !! v = Some z → v = t ∨ t_parent z = Some t → t_done z = true.
Lemma waits_end_few ow x : finv ow x → (N.of_nat (length (fl_tasks x)) < ctr_mod)%N → waits_end x.
Proof. intros I Hlen o t k y _ Hy Hp Hz. exact (zero_done ow x t y I Hlen Hy Hp Hz). Qed.

Lemma jinv_step_gen l ow x y : fstep l x y → finv ow x → waits_end x → jinv ow x → jinv (ow ++ option_list l) y.
Proof.
  intros Hs I Hlen J. destruct Hs as [ts ps st q f o c p k f0 q' f' Hf Hq Hf'|ts ps st q f v c q' f' Hq Hc Hf'
    |ts ps st q f v f0 f' Hf Hf'|ts ps st q f f' Hf|ts ps st q f o t k f0 f' x Hf Hf' Hx Hz|ts ps st q f o k f0 f' Hf Hf'|ts ps st q f o a k f0 f' Hf Hf'
    |ts ps st q f o t f0 f' Hf Hf'|ts ps st q f o t f0 f' x p Hf Hf' Hx Hz Hp|ts ps st q f o t f' x Hf Hx Hz];
    pose proof (i_g _ _ I) as G; pose proof (g_nodup _ G) as Hnd; cbn in Hnd; cbn [option_list]; rewrite ?app_nil_r.
  - pose proof (i_ow _ _ I) as Hol. cbn in Hol.
    assert (Frame o (FRun (PSubmit c p k)) ∈ f) as Hin by (rewrite Hf; left).
    destruct (j_run _ _ J _ _ Hin) as (P & HP & HPo). cbn in HPo.
    assert (∀ o' u r, u ≠ length ts → open_task (ow ++ [o]) (count_in p ts ++ [Task p 1 false]) o' u r → open_task ow ts o' u r) as Hold.
    { intros o' u r Hu (z & Hzz & Hw & Hd & Hr). apply lookup_lt_Some in Hzz as Hlt. rewrite app_length, count_in_length in Hlt. cbn in Hlt.
      rewrite lookup_app_l in Hzz by (rewrite count_in_length; lia). rewrite lookup_app_l in Hw by lia.
      assert (open_task ow (count_in p ts) o' u r) as H by (by exists z). destruct p as [p|]; [|done]. by eapply open_alter in H. }
    assert (∀ o' r, open_task (ow ++ [o]) (count_in p ts ++ [Task p 1 false]) o' (length ts) r → o' = o ∧ r = default (length ts) p) as Hnew.
    { intros o' r (z & Hzz & Hw & Hd & Hr). rewrite lookup_app_r in Hzz by (rewrite count_in_length; lia).
      rewrite count_in_length, Nat.sub_diag in Hzz. injection Hzz as <-. rewrite lookup_app_r in Hw by lia.
      rewrite Hol, Nat.sub_diag in Hw. injection Hw as <-. by split. }
    split; cbn.
    + intros o' p' Hin'. rewrite Hf' in Hin'. apply elem_of_cons in Hin' as [[= -> ->]|Hin'].
      * destruct p as [p|]; cbn in HP.
        -- destruct HP as (Hcc & Hk). exists (p :: P). split; [apply Hk|]. intros u r Hu.
           destruct (decide (u = length ts)) as [->|Hne]; [apply Hnew in Hu as [_ ->]; left|]. right. by eapply HPo, Hold.
        -- destruct HP as (Hcc & Hk). exists (length ts :: P). split; [apply Hk|]. intros u r Hu.
           destruct (decide (u = length ts)) as [->|Hne]; [apply Hnew in Hu as [_ ->]; left|]. right. by eapply HPo, Hold.
      * assert (Frame o' (FRun p') ∈ f) as Hif by (rewrite Hf; by right).
        destruct (j_run _ _ J _ _ Hif) as (P' & HP' & Hop'). exists P'. split; [done|]. intros u r Hu.
        destruct (decide (u = length ts)) as [->|Hne]; [|by eapply Hop', Hold].
        apply Hnew in Hu as [-> _]. exfalso. by eapply (not_two_frames f f0 o).
    + apply Forall_app. split; [apply (j_progs _ _ J)|]. apply Forall_singleton. destruct p; cbn in HP; naive_solver.
    + intros u o' r Hu. destruct (decide (u = length ts)) as [->|Hne].
      * apply Hnew in Hu as [-> _]. exists (k (length ts)). rewrite Hf'. left.
      * destruct (j_open _ _ J u o' r (Hold _ _ _ Hne Hu)) as [p' Hp']. cbn in Hp'. rewrite Hf in Hp'.
        apply elem_of_cons in Hp' as [[= -> _]|Hp']; [exists (k (length ts)); rewrite Hf'; left|]. exists p'. rewrite Hf'. by right.
  - eapply jinv_gen; [exact J|done| |].
    + intros o p. rewrite Hf'. intros [[= -> ->]|Hin]%elem_of_cons; [right|by left]. exists [].
      split; [by eapply (Forall_lookup_1 _ _ _ _ (j_progs _ _ J))|]. intros u r Hu. exfalso.
      destruct (j_open _ _ J u _ r Hu) as [p' Hp']. cbn in Hp'.
      assert (v ∈ st) as Hvs. { apply (g_started _ G). cbn. apply elem_of_list_fmap. by exists (Frame (Some v) (FRun p')). }
      apply (ginv_disj _ v G Hvs). cbn. rewrite Hq. left.
    + intros o p Hin. left. exists p. rewrite Hf'. by right.
  - assert (Frame (Some v) (FRun PDone) ∈ f) as Hin by (rewrite Hf; left).
    destruct (j_run _ _ J _ _ Hin) as (P & HP & HPo). cbn in HP, HPo. subst P.
    eapply jinv_gen; [exact J| | |].
    + intros o u r. by apply open_alter.
    + intros o p. rewrite Hf'. intros [[=]|Hi]%elem_of_cons. left. rewrite Hf. by right.
    + intros o p. rewrite Hf. intros [[= -> ->]|Hi]%elem_of_cons.
      * right. intros u r Hu. apply open_alter in Hu; [|done|done]. apply HPo in Hu. by apply elem_of_nil in Hu.
      * left. exists p. rewrite Hf'. by right.
  - assert (Frame None (FRun PDone) ∈ f) as Hin by (rewrite Hf; left).
    destruct (j_run _ _ J _ _ Hin) as (P & HP & HPo). cbn in HP, HPo. subst P.
    eapply jinv_gen; [exact J|done| |].
    + intros o p Hi. left. rewrite Hf. by right.
    + intros o p. rewrite Hf. intros [[= -> ->]|Hi]%elem_of_cons; [|left; by exists p].
      right. intros u r Hu. apply HPo in Hu. by apply elem_of_nil in Hu.
  - assert (Frame o (FRun (PWait t k)) ∈ f) as Hin by (rewrite Hf; left).
    destruct (j_run _ _ J _ _ Hin) as (P & HP & HPo). cbn in HP, HPo.
    destruct (i_run _ _ I o _ Hin) as (own & [Ht _] & Hown). destruct (Hown t Ht) as [_ Htp].
    assert (t_parent x = None) as Hxp. { unfold parent_of in Htp. cbn in Htp. by rewrite Hx in Htp. }
    eapply jinv_gen; [exact J|done| |].
    + intros o' p. rewrite Hf'. intros [[= -> ->]|Hi]%elem_of_cons; [right|left; rewrite Hf; by right].
      eexists; split; [exact HP|]. intros u r Hu. apply elem_of_list_filter. split; [|by eapply HPo].
      intros ->. destruct Hu as (z & Hzu & Hw & Hd & Hr).
      assert (t_done z = true) as Hd'; [|congruence].
      eapply (Hlen o t k x Hin Hx Hxp Hz); [exact Hzu|]. destruct (t_parent z); cbn in Hr; [right|left]; congruence.
    + intros o' p. rewrite Hf. intros [[= -> ->]|Hi]%elem_of_cons; left; [exists k; rewrite Hf'; left|exists p; rewrite Hf'; by right].
  - assert (Frame o (FRun (PStop k)) ∈ f) as Hin by (rewrite Hf; left).
    destruct (j_run _ _ J _ _ Hin) as (P & HP & HPo). cbn in HP, HPo.
    eapply jinv_gen; [exact J|done| |].
    + intros o' p. rewrite Hf'. intros [[= -> ->]|Hi]%elem_of_cons; [right; by exists P|left; rewrite Hf; by right].
    + intros o' p. rewrite Hf. intros [[= -> ->]|Hi]%elem_of_cons; left; [exists k; rewrite Hf'; left|exists p; rewrite Hf'; by right].
  - assert (Frame o (FRun (PAct a k)) ∈ f) as Hin by (rewrite Hf; left).
    destruct (j_run _ _ J _ _ Hin) as (P & HP & HPo). cbn in HP, HPo.
    eapply jinv_gen; [exact J|done| |].
    + intros o' p. rewrite Hf'. intros [[= -> ->]|Hi]%elem_of_cons; [right; by exists P|left; rewrite Hf; by right].
    + intros o' p. rewrite Hf. intros [[= -> ->]|Hi]%elem_of_cons; left; [exists k; rewrite Hf'; left|exists p; rewrite Hf'; by right].
  - eapply jinv_gen; [exact J| | |].
    + intros o' u r. by apply open_alter.
    + intros o' p. rewrite Hf'. intros [[=]|Hi]%elem_of_cons. left. rewrite Hf. by right.
    + intros o' p. rewrite Hf. intros [[=]|Hi]%elem_of_cons. left. exists p. rewrite Hf'. by right.
  - eapply jinv_gen; [exact J|done| |].
    + intros o' p'. rewrite Hf'. intros [[=]|Hi]%elem_of_cons. left. rewrite Hf. by right.
    + intros o' p'. rewrite Hf. intros [[=]|Hi]%elem_of_cons. left. exists p'. rewrite Hf'. by right.
  - eapply jinv_gen; [exact J|done| |].
    + intros o' p' Hi. left. rewrite Hf. by right.
    + intros o' p'. rewrite Hf. intros [[=]|Hi]%elem_of_cons. left. by exists p'.
Qed.

Lemma jinv_step l ow x y : fstep l x y → finv ow x → (N.of_nat (length (fl_tasks x)) < ctr_mod)%N → jinv ow x →
  jinv (ow ++ option_list l) y.
Proof. intros Hs I Hlen J. eapply jinv_step_gen; [done|done|by eapply waits_end_few|done]. Qed.

Lemma pool_step_tasks l c w c' : cstep l c w c' → length (c_tasks c) ≤ length (c_tasks c').
Proof.
  intros [ts ps sd qs ss w0 o cc p k st q Hs Hq|ts ps sd qs ss w0 st j q1 u q2 cc Hs Hq Hc
         |ts ps sd qs ss w0 o pc st ts' pc' Hs Hg|ts ps sd qs ss w0 fr st Hs Hg]; cbn; [|done| |done].
  - rewrite app_length, count_in_length. lia.
  - destruct Hg; rewrite ?alter_length; lia.
Qed.
Lemma reach_jinv n main s : fork_join [] main → joined [] main → pool_reach n main s →
  (N.of_nat (length (p_tasks s)) < ctr_mod)%N → ∃ ow, finv ow (flat_of (core_of s)) ∧ jinv ow (flat_of (core_of s)).
Proof.
  intros Hfj Hj. induction 1 as [|s w v s' Hr IH Hst]; intros Hlen.
  - exists []. split; [by apply pinv_start|]. rewrite flat_start. split; cbn; [|done|by intros u o r (z & Hz & _)].
    intros o p [= -> ->]%elem_of_list_singleton. exists []. split; [done|]. by intros u r (z & Hz & _).
  - apply pool_step_core in Hst as [E|[l Hc]].
    { rewrite E. apply IH. change (p_tasks s) with (c_tasks (core_of s)). by rewrite <-E. }
    destruct IH as (ow & I & J). { apply pool_step_tasks in Hc. cbn in Hc. lia. }
    exists (ow ++ option_list l). pose proof (cstep_flat _ _ _ _ Hc) as Hf. split; [by eapply finv_step|].
    eapply jinv_step; [exact Hf|done| |done]. apply pool_step_tasks in Hc. cbn in *. lia.
Qed.

(** When no task of the main program is open, every task is done. *)
Lemma closed_all_done ow x : finv ow x → jinv ow x → (∀ u r, ¬ open_task ow (fl_tasks x) None u r) →
  ∀ u z, fl_tasks x !! u = Some z → t_done z = true.
Proof.
  intros I J Hmain. pose proof (i_g _ _ I) as G.
  assert (∀ sd l2, fl_started x = sd ++ l2 → ∀ u z, fl_tasks x !! u = Some z → u ∈ sd → t_done z = true) as Hs.
  { intros sd. induction sd as [|v sd IH] using rev_ind; intros l2 E u z Hz Hu; [by apply elem_of_nil in Hu|].
    apply elem_of_app in Hu as [Hu|Hu]; [eapply (IH (v :: l2)); [by rewrite E, <-app_assoc|done|done]|].
    apply elem_of_list_singleton in Hu as ->. destruct (t_done z) eqn:Hd; [done|]. exfalso.
    destruct (lookup_lt_is_Some_2 ow v) as [o Ho]. { rewrite (i_ow _ _ I). by eapply lookup_lt_Some. }
    destruct o as [o|]; [|by eapply (Hmain v); exists z]. destruct (j_open _ _ J v (Some o) _ ltac:(by exists z)) as [p Hp].
    destruct (i_order _ _ I v o Ho) as [Ho1 Ho2]. 
    assert (v ∈ fl_started x) as Hvs by (rewrite E; set_solver). specialize (Ho2 Hvs).
    assert (o ∈ sd) as Hosd.
    { destruct Ho2 as (l1 & l3 & E' & Hol). pose proof (ginv_nd _ G) as Hnd. apply NoDup_app in Hnd as (Hnd & _).
      rewrite E, <-app_assoc in E'. cbn in E'. rewrite E, <-app_assoc in Hnd. cbn in Hnd.
      assert (l1 = sd) as ->; [|done]. clear -E' Hnd. revert l1 E'. induction sd as [|a sd IHs]; intros [|b l1] E'; [done| | |].
      - exfalso. cbn in E'. injection E' as <- E'. cbn in Hnd. apply NoDup_cons in Hnd as [Hv _]. apply Hv. rewrite E'. set_solver.
      - exfalso. cbn in E'. injection E' as <- E'. cbn in Hnd. apply NoDup_cons in Hnd as [Hv _]. apply Hv. set_solver.
      - cbn in E'. injection E' as <- E'. f_equal. apply IHs; [|done]. cbn in Hnd. by apply NoDup_cons in Hnd as [_ Hnd]. }
    destruct (lookup_lt_is_Some_2 (fl_tasks x) o) as [zo Hzo]. { eapply ginv_s_lt; [exact G|done]. }
    assert (t_done zo = true) as Hdo by (eapply (IH (v :: l2)); [by rewrite E, <-app_assoc|done|done]).
    destruct (g_undone _ G o zo Hzo Hdo) as [_ Hno]. by apply (Hno p). }
  intros u z Hz. destruct (t_done z) eqn:Hd; [done|].
  destruct (lookup_lt_is_Some_2 ow u) as [o Ho]. { rewrite (i_ow _ _ I). by eapply lookup_lt_Some. }
  destruct o as [o|]; [|exfalso; by eapply (Hmain u); exists z]. destruct (j_open _ _ J u (Some o) _ ltac:(by exists z)) as [p Hp].
  destruct (i_order _ _ I u o Ho) as [Ho1 _]. destruct (lookup_lt_is_Some_2 (fl_tasks x) o) as [zo Hzo]. { eapply ginv_s_lt; [exact G|done]. }
  assert (t_done zo = true) as Hdo by (eapply (Hs (fl_started x) []); [by rewrite app_nil_r|done|done]).
  destruct (g_undone _ G o zo Hzo Hdo) as [_ Hno]. by apply Hno in Hp.
Qed.

(** When the main program's call is gone every task is done. *)
Lemma joined_all_done ow x : finv ow x → jinv ow x → (∀ p, Frame None (FRun p) ∉ fl_f x) →
  ∀ u z, fl_tasks x !! u = Some z → t_done z = true.
Proof.
  intros I J Hmain. apply (closed_all_done ow x I J). intros u r Hu. destruct (j_open _ _ J u None r Hu) as [p Hp]. by apply Hmain in Hp.
Qed.
